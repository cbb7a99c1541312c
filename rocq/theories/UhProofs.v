(** Uncertainty handling. *)
From Coq Require Import Permutation.
From Verif Require Import Base Dbl DblProofs Config Search SpecSearch SortProofs SearchInv SpecUh StopProofs.
Local Open Scope Z_scope.

Lemma swo_on_spec {A} (cmp : A -> A -> bool) l : swo_on cmp l = true <-> strict_weak_order cmp (fun a => In a l).
Proof.
  unfold swo_on, strict_weak_order. rewrite andb_true_iff, !forallb_forall. split.
  - intros [H1 H2].
    assert (Ht : forall a b c, In a l -> In b l -> In c l -> cmp a b = true -> cmp b c = true -> cmp a c = true).
    { intros a b c Ha Hb Hc E1 E2. specialize (H2 a Ha). rewrite forallb_forall in H2. specialize (H2 b Hb). rewrite forallb_forall in H2. specialize (H2 c Hc).
      apply andb_true_iff in H2 as [H2 _]. rewrite E1, E2 in H2. cbn in H2. auto. }
    split; [intros a Ha; specialize (H1 a Ha); now apply negb_true_iff in H1|].
    split. { intros a b Ha Hb E. destruct (cmp b a) eqn:E2; auto. pose proof (Ht a b a Ha Hb Ha E E2) as Q. specialize (H1 a Ha). rewrite Q in H1. discriminate. }
    split; [auto|]. intros a b c Ha Hb Hc E1 E2 E3 E4. specialize (H2 a Ha). rewrite forallb_forall in H2. specialize (H2 b Hb). rewrite forallb_forall in H2. specialize (H2 c Hc).
    apply andb_true_iff in H2 as [_ H2]. rewrite E1, E2, E3, E4 in H2. cbn in H2. apply andb_true_iff in H2 as [A1 A2]. now apply negb_true_iff in A1, A2.
  - intros (H1 & H2 & H3 & H4). split; [intros a Ha; now rewrite H1|]. intros a Ha. apply forallb_forall. intros b Hb. apply forallb_forall. intros c Hc.
    apply andb_true_iff. split.
    + destruct (cmp a b) eqn:E1; [|reflexivity]. destruct (cmp b c) eqn:E2; [|reflexivity]. cbn. eauto.
    + destruct (cmp a b) eqn:E1; [reflexivity|]. destruct (cmp b a) eqn:E2; [reflexivity|]. destruct (cmp b c) eqn:E3; [reflexivity|]. destruct (cmp c b) eqn:E4; [reflexivity|].
      cbn. destruct (H4 a b c Ha Hb Hc E1 E2 E3 E4) as [-> ->]. reflexivity.
Qed.

Lemma number_length set p l : length (number set p l) = length l.
Proof. revert p; induction l; intros; cbn; auto. Qed.
Lemma number_nth set l : forall p i c, nth_error l i = Some c -> nth_error (number set p l) i = Some (set (p + Z.of_nat i) c).
Proof.
  induction l as [|d l IH]; intros p [|i] c H; cbn in *; try discriminate.
  - injection H as ->. now rewrite Z.add_0_r.
  - rewrite (IH (p + 1) i c H). do 2 f_equal. lia.
Qed.
Lemma number_rank set rank l : (forall z c, rank (set z c) = z) -> forall p, map rank (number set p l) = map (fun i => p + Z.of_nat i) (seq 0 (length l)).
Proof.
  intros H. induction l as [|c l IH]; intros p; cbn; auto. rewrite H, IH, Z.add_0_r. f_equal. rewrite <- seq_shift, map_map. apply map_ext. intros; lia.
Qed.
Lemma number_other {B} set (f : rcand -> B) l : (forall z c, f (set z c) = f c) -> forall p, map f (number set p l) = map f l.
Proof. intros H. induction l as [|c l IH]; intros p; cbn; auto. rewrite H, IH. auto. Qed.
Lemma upto_eq n : map (fun i => 0 + Z.of_nat i) (seq 0 n) = upto n.
Proof. unfold upto. apply map_ext. intros; lia. Qed.

(** Numbering a sorted list ranks it. *)
Lemma number_ranks (value : rcand -> dbl) rank set l :
  (forall z c, rank (set z c) = z) -> (forall z c, value (set z c) = value c) -> sorted_by (fun a b => dlt (value a) (value b)) l ->
  ranks_by value rank (number set 0 l).
Proof.
  intros H1 H2 Hs. split.
  - rewrite (number_rank set rank l H1), number_length, upto_eq. apply Permutation_refl.
  - intros a b Ha Hb E. apply In_nth_error in Ha as [i Hi], Hb as [j Hj].
    assert (Gi : exists c, nth_error l i = Some c) by (destruct (nth_error l i) eqn:Q; eauto; apply nth_error_None in Q; assert (i < length (number set 0 l))%nat by (apply nth_error_Some; congruence); rewrite number_length in *; lia).
    assert (Gj : exists c, nth_error l j = Some c) by (destruct (nth_error l j) eqn:Q; eauto; apply nth_error_None in Q; assert (j < length (number set 0 l))%nat by (apply nth_error_Some; congruence); rewrite number_length in *; lia).
    destruct Gi as [c Gi], Gj as [d Gj]. rewrite (number_nth set l 0 i c Gi) in Hi. rewrite (number_nth set l 0 j d Gj) in Hj.
    injection Hi as <-. injection Hj as <-. rewrite !H1. rewrite !H2 in E.
    destruct (Nat.lt_trichotomy i j) as [L|[L|L]]; [lia| |].
    + subst j. rewrite Gi in Gj. injection Gj as <-. destruct (value c); cbn in E; try discriminate. apply Z.ltb_lt in E; lia.
    + pose proof (Hs j i d c L Gj Gi) as Q. cbv beta in Q. congruence.
Qed.
Lemma ranks_by_perm value rank l m : Permutation l m -> ranks_by value rank l -> ranks_by value rank m.
Proof.
  intros P [H1 H2]. split.
  - rewrite <- (Permutation_length P), <- P. auto.
  - intros a b Ha Hb. apply H2; eapply Permutation_in; try (apply Permutation_sym; eassumption); auto.
Qed.
Lemma ranks_by_map value rank f l : (forall c, value (f c) = value c) -> (forall c, rank (f c) = rank c) -> ranks_by value rank l -> ranks_by value rank (map f l).
Proof.
  intros H1 H2 [A B]. split.
  - rewrite map_map, map_length. rewrite (map_ext _ rank) by auto. auto.
  - intros a b Ha Hb. apply in_map_iff in Ha as (a' & <- & Ha), Hb as (b' & <- & Hb). rewrite !H1, !H2. auto.
Qed.
Lemma ranks_by_number value rank set l p : (forall z c, value (set z c) = value c) -> (forall z c, rank (set z c) = rank c) -> ranks_by value rank l -> ranks_by value rank (number set p l).
Proof.
  intros H1 H2 [A B]. split.
  - rewrite number_other, number_length by auto. auto.
  - assert (G : forall a, In a (number set p l) -> exists z c, In c l /\ a = set z c).
    { intros a Ha. clear A B. revert p Ha. induction l as [|c l IH]; intros p Ha; cbn in *; [contradiction|]. destruct Ha as [<-|Ha]; [eauto|].
      destruct (IH _ Ha) as (z & d & Hd & ->). eauto. }
    intros a b Ha Hb. apply G in Ha as (z & c & Hc & ->), Hb as (y & d & Hd & ->). rewrite !H1, !H2. auto.
Qed.

Section Uh.
Context {T N : Type}.
Variable no : numops T N.
Variable e : env T N.
Variable g : cfg T.
Hypothesis HS : std_sort_ok e.

Lemma std_sort_spec cmp l l' : std_sort e cmp l = Ok l' -> Permutation l' l /\ sorted_by cmp l' /\ strict_weak_order cmp (fun a => In a l).
Proof.
  unfold std_sort. destruct (swo_on cmp l) eqn:E; [|discriminate]. intros Q. apply Ok_inj in Q. subst l'. destruct (HS cmp l E). split; auto. split; auto. now apply swo_on_spec.
Qed.
Lemma with_delta_f n c : r_f (with_delta n c) = r_f c /\ r_mut (with_delta n c) = r_mut c /\ r_r1 (with_delta n c) = r_r1 c /\ r_r2 (with_delta n c) = r_r2 c /\ r_idx (with_delta n c) = r_idx c.
Proof. unfold with_delta. destruct (_ <? _)%nat; auto. Qed.

Lemma mapM_at_perm {A} (l : list A) is out : Permutation is (seq 0 (length l)) -> mapM (fun i => at_ l (Z.of_nat i)) is = Ok out -> Permutation out l.
Proof.
  intros P H.
  assert (E : map Some out = map (nth_error l) is).
  { clear P. revert out H. induction is as [|i is IH]; intros out H; cbn in H; [apply Ok_inj in H; subst; auto|].
    apply bind_ok in H as (a & Ha & H). apply bind_ok in H as (rest & Hr & H). apply Ok_inj in H. subst out. cbn. rewrite (IH rest Hr). f_equal.
    apply at_ok in Ha as [_ Ha]. now rewrite Nat2Z.id in Ha. }
  assert (S : map (nth_error l) (seq 0 (length l)) = map Some l).
  { clear. induction l as [|x l IH]; cbn; auto. f_equal. rewrite <- seq_shift, map_map. cbn. exact IH. }
  assert (P2 : Permutation (map Some out) (map Some l)) by (rewrite E, <- S; apply Permutation_map; auto).
  apply (Permutation_map (fun o => match o with Some a => [a] | None => [] end)) in P2. rewrite !map_map in P2.
  assert (G : forall m : list A, concat (map (fun x => [x]) m) = m) by (induction m; cbn; congruence).
  rewrite <- (G out), <- (G l). clear -P2. induction P2; cbn; auto.
  - apply Permutation_app_head. auto.
  - rewrite !app_assoc. apply Permutation_app_tail, Permutation_app_comm.
  - etransitivity; eauto.
Qed.

Lemma mapM_map {A B C} (f : B -> res C) (k : A -> B) l : mapM f (map k l) = mapM (fun a => f (k a)) l.
Proof. induction l as [|a l IH]; cbn; auto. now rewrite IH. Qed.
(** The population after uncertainty handling is a permutation of the
    population before; the two rankings rank the first and second values. *)
Lemma uh_ranks (s s' : sol T N) : map r_idx (s_cuh s) = seq 0 (length (s_cands s)) -> uncertainty_handling e g s = Ok s' ->
  Permutation (s_cands s') (s_cands s) /\
  Permutation (map (fun c => (r_idx c, r_f c, r_mut c)) (s_cuh s')) (map (fun c => (r_idx c, r_f c, r_mut c)) (s_cuh s)) /\
  ranks_by r_f r_r1 (s_cuh s') /\ ranks_by r_mut r_r2 (s_cuh s') /\
  (forall i a, nth_error (s_cuh s') i = Some a -> nth_error (s_cands s') i = nth_error (s_cands s) (r_idx a)).
Proof.
  intros Hi H. unfold uncertainty_handling in H.
  apply bind_ok in H as (l1 & E1 & H). apply bind_ok in H as (l2 & E2 & H). cbv zeta in H. apply bind_ok in H as (l4 & E4 & H). apply bind_ok in H as (cs & Ec & H).
  apply Ok_inj in H. subst s'. cbn [s_cands s_cuh set_s_cands set_s_cuh set_s_suh].
  apply std_sort_spec in E1 as (P1 & S1 & _), E2 as (P2 & S2 & _), E4 as (P4 & _ & _).
  set (tr := fun c => (r_idx c, r_f c, r_mut c)).
  set (wd := with_delta (s_reev s)) in *.
  assert (F : forall c, tr (wd c) = tr c) by (intros c; unfold tr, wd; destruct (with_delta_f (s_reev s) c) as (-> & -> & _ & _ & ->); auto).
  assert (PT : Permutation (map tr l4) (map tr (s_cuh s))).
  { rewrite P4, map_map. rewrite (map_ext _ tr F). rewrite (number_other set_r_r2 tr) by reflexivity. rewrite P2. rewrite (number_other set_r_r1 tr) by reflexivity. now rewrite P1. }
  split.
  { rewrite <- (mapM_map (fun i => at_ (s_cands s) (Z.of_nat i)) r_idx) in Ec.
    eapply mapM_at_perm; [|exact Ec]. rewrite <- Hi. apply (Permutation_map (fun t => fst (fst t))) in PT. rewrite !map_map in PT. exact PT. }
  split; [exact PT|].
  split. { eapply ranks_by_perm; [symmetry; exact P4|]. apply ranks_by_map; [intros c; apply with_delta_f|intros c; apply with_delta_f|].
    apply ranks_by_number; [reflexivity|reflexivity|]. eapply ranks_by_perm; [symmetry; exact P2|]. apply number_ranks; auto. }
  split. { eapply ranks_by_perm; [symmetry; exact P4|]. apply ranks_by_map; [intros c; apply with_delta_f|intros c; apply with_delta_f|]. apply number_ranks; auto. }
  intros i a Ha. destruct (mapM_nth _ _ _ Ec i a Ha) as (c & Hc & Q). rewrite Hc. apply at_ok in Q as [_ Q]. now rewrite Nat2Z.id in Q.
Qed.
End Uh.
