(** Rank changes, noise level and final order of uncertainty handling. *)
From Coq Require Import Permutation.
From Verif Require Import Base Dbl DblProofs Config Search SpecSearch SortProofs SearchInv CounterProofs SpecUh StopProofs UhProofs.
Local Open Scope Z_scope.

(** nth_element *)
Lemma insert_Z_perm x l : Permutation (insert_Z x l) (x :: l).
Proof. induction l as [|y l IH]; cbn; auto. destruct (_ <=? _); auto. rewrite IH. apply perm_swap. Qed.
Lemma sort_Z_perm l : Permutation (fold_right insert_Z [] l) l.
Proof. induction l as [|x l IH]; cbn; auto. rewrite insert_Z_perm. auto. Qed.
Fixpoint asc (l : list Z) : Prop := match l with [] => True | x :: l' => (forall y, In y l' -> x <= y) /\ asc l' end.
Lemma insert_Z_asc x l : asc l -> asc (insert_Z x l).
Proof.
  induction l as [|y l IH]; cbn [insert_Z]; intros H; [split; [intros z []|exact I]|]. destruct H as [H1 H2]. destruct (Z.leb_spec x y); cbn [asc].
  - split; [|auto]. intros z [->|Hz]; auto. specialize (H1 z Hz). lia.
  - split; [|auto]. intros z Hz. apply (Permutation_in z (insert_Z_perm x l)) in Hz. destruct Hz as [<-|Hz]; [lia|auto].
Qed.
Lemma sort_Z_asc l : asc (fold_right insert_Z [] l).
Proof. induction l as [|x l IH]; cbn; auto. apply insert_Z_asc; auto. Qed.
Lemma perm_count (f : Z -> bool) l l' : Permutation l l' -> length (filter f l) = length (filter f l').
Proof. induction 1; cbn; auto; [destruct (f x); cbn; auto|destruct (f x), (f y); cbn; auto|lia]. Qed.
Lemma asc_position l : asc l -> forall k d, (k < length l)%nat -> at_position k l (nth k l d).
Proof.
  induction l as [|x l IH]; intros H k d Hk; [cbn in Hk; lia|]. destruct H as [H1 H2]. destruct k as [|k].
  - cbn [nth]. split; [left; reflexivity|]. split.
    + assert (E : filter (fun y => y <? x) (x :: l) = []); [|rewrite E; cbn; lia].
      cbn [filter]. rewrite Z.ltb_irrefl. clear -H1. induction l as [|z l IH]; cbn; auto. destruct (Z.ltb_spec z x); [specialize (H1 z (or_introl eq_refl)); lia|]. apply IH. intros; apply H1; right; auto.
    + cbn [filter]. rewrite Z.leb_refl. cbn. lia.
  - cbn [nth length] in *. destruct (IH H2 k d ltac:(lia)) as [I [A B]]. set (v := nth k l d) in *. split; [right; exact I|].
    specialize (H1 v I). cbn [filter]. destruct (Z.leb_spec x v); [|lia]. cbn [length]. split; [|lia]. destruct (_ <? _); cbn [length]; lia.
Qed.
Lemma position_perm k l l' v : Permutation l l' -> at_position k l v -> at_position k l' v.
Proof. intros P [I [A B]]. split; [eapply Permutation_in; eauto|]. rewrite <- !(perm_count _ _ _ P). auto. Qed.

Section Level.
Context {T N : Type}.
Variable no : numops T N.
Variable e : env T N.
Variable g : cfg T.
Hypothesis HS : std_sort_ok e.

Lemma limit_at_spec d : (1 <= g_lambda g)%nat -> rank_limit (g_lambda g) d (limit_at g d).
Proof.
  clear no e HS. intros H. unfold rank_limit, limit_at. set (n := (2 * g_lambda g - 1)%nat). set (dv := map _ (seq 1 n)).
  apply (position_perm _ (fold_right insert_Z [] dv)); [apply sort_Z_perm|]. apply asc_position; [apply sort_Z_asc|].
  rewrite (Permutation_length (sort_Z_perm dv)). unfold dv. rewrite map_length, seq_length. apply Nat.div_lt_upper_bound; lia.
Qed.
Lemma zsum_fold l : fold_right Z.add 0 l = zsum l.
Proof. induction l; cbn; auto. Qed.
Lemma zsum_perm l l' : Permutation l l' -> zsum l = zsum l'.
Proof. induction 1; cbn; lia. Qed.
Lemma uh_level_noise r l : uh_level g r l = noise (limit_at g) r l.
Proof.
  clear no e HS. unfold uh_level, noise. rewrite zsum_fold. f_equal. apply map_ext. intros a. destruct (_ <? _)%nat; [|reflexivity].
  destruct (r_r1 a <? r_r2 a), (r_r2 a <? r_r1 a); rewrite ?Z.sub_0_r; reflexivity.
Qed.
Lemma noise_perm L r l l' : Permutation l l' -> noise L r l = noise L r l'.
Proof. intros P. apply zsum_perm, Permutation_map, P. Qed.

(** What the evaluations leave for the ranking. *)
Lemma eval_uh_mut n : forall r muts (s : st T N) l s', eval_uh e r n muts s = Ok (l, s') ->
  forall a, In a l -> (r <= r_idx a)%nat /\ r_delta a = 0 /\
    if (r_idx a <? s_reev (t_sol s))%nat then exists y, nth_error (t_log s') (length (t_log s) + (r_idx a - r)) = Some (y, r_mut a) else r_mut a = r_f a.
Proof.
  induction n as [|n IH]; intros r muts s l s' H a Ha; cbn [eval_uh] in H; [apply Ok_inj in H; injection H as <- <-; destruct Ha|].
  apply bind_ok in H as (c & _ & H). destruct (Nat.ltb_spec r (s_reev (t_sol s))) as [Hr|Hr].
  - apply bind_ok in H as (y & _ & H). unfold call in H. apply bind_ok in H as ([l1 s1] & E & H). apply Ok_inj in H. cbn [fst snd] in H. injection H as <- <-.
    destruct Ha as [<-|Ha].
    + cbn [r_idx r_delta r_mut r_f]. split; [lia|]. split; [reflexivity|]. destruct (Nat.ltb_spec r (s_reev (t_sol s))); [|lia]. exists y.
      apply eval_uh_spec in E as (ys & _ & -> & _). cbn [t_log set_t_log]. rewrite Nat.sub_diag, Nat.add_0_r. rewrite <- app_assoc. rewrite nth_error_app2 by lia. rewrite Nat.sub_diag. reflexivity.
    + destruct (IH _ _ _ _ _ E a Ha) as (A & B & C). split; [lia|]. split; [exact B|]. cbn [t_sol set_t_log t_log] in C. rewrite app_length in C. cbn [length] in C.
      destruct (r_idx a <? s_reev (t_sol s))%nat; [|exact C]. destruct C as [z C]. exists z. rewrite <- C. f_equal. lia.
  - apply bind_ok in H as ([l1 s1] & E & H). apply Ok_inj in H. cbn [fst snd] in H. injection H as <- <-.
    destruct Ha as [<-|Ha].
    + cbn [r_idx r_delta r_mut r_f]. split; [lia|]. split; [reflexivity|]. destruct (Nat.ltb_spec r (s_reev (t_sol s))); [lia|]. reflexivity.
    + destruct (IH _ _ _ _ _ E a Ha) as (A & B & C). split; [lia|]. split; [exact B|].
      destruct (Nat.ltb_spec (r_idx a) (s_reev (t_sol s))); [lia|exact C].
Qed.
Lemma eval_mut cols phen (s s' : st T N) : g_uh g = true -> eval no e g cols phen s = Ok s' ->
  length (t_log s') = (length (t_log s) + length cols + Nat.min (length cols) (s_reev (t_sol s')))%nat /\
  forall a, In a (s_cuh (t_sol s')) -> r_delta a = 0 /\
    if (r_idx a <? s_reev (t_sol s'))%nat then exists y, nth_error (t_log s') (length (t_log s) + length cols + r_idx a) = Some (y, r_mut a) else r_mut a = r_f a.
Proof.
  clear HS. intros U H. unfold eval in H. rewrite U in H. apply bind_ok in H as (s1 & E1 & H). cbv zeta in H. apply bind_ok in H as (s2 & E2 & H). apply bind_ok in H as (s3 & E3 & H). apply Ok_inj in H. subst s'.
  assert (Q : s_cuh (t_sol s3) = s_cuh (t_sol s2) /\ s_reev (t_sol s3) = s_reev (t_sol s2) /\ t_log s3 = t_log s2).
  { apply elitist_spec in E3 as (cs & -> & _). auto. }
  destruct Q as (Q1 & Q2 & Q3). unfold update_fevals in *. cbn [t_sol set_t_sol set_t_nevals s_cuh set_s_nevals s_reev t_log] in *.
  change 0 with (Z.of_nat 0) in E1. apply eval_cols_spec in E1 as (_ & _ & ->).
  rewrite Q1, Q2, Q3. clear Q1 Q2 Q3 E3. pose proof E2 as E4. apply perform_uh_spec in E4 as (ys4 & nn4 & reev4 & l4 & _ & _ & Y4 & _ & _ & E4).
  split. { rewrite E4. cbn [t_log set_t_log t_sol set_t_sol s_reev set_s_cuh set_s_reev t_gens set_t_gens]. rewrite app_length, eval_from_length, app_length, eval_from_length, new_points_length, Y4. lia. }
  clear E4 Y4 ys4 nn4 reev4 l4. intros a Ha. unfold perform_uh in E2. destruct (n_coin no _) as [coin n1].
  match type of E2 with context [if (?x <? ?y)%nat then _ else _] => destruct (x <? y)%nat; [discriminate|] end.
  destruct (n_mutate no _ n1) as [muts n2]. apply bind_ok in E2 as ([l s4] & E & E2). cbn [fst snd] in E2. apply Ok_inj in E2. subst s2.
  cbn [t_sol set_t_sol s_cuh set_s_cuh s_reev t_log] in *. pose proof E as E'. apply eval_uh_spec in E' as (ys & _ & X & _).
  destruct (eval_uh_mut _ _ _ _ _ _ E a Ha) as (_ & B & C). split; [exact B|].
  cbn [t_sol set_t_sol s_reev set_s_reev t_log set_t_log] in C.
  assert (R4 : s_reev (t_sol s4) = match (if coin then S (g_reev g) else g_reev g) with 0%nat => 1%nat | S _ => (if coin then S (g_reev g) else g_reev g) end).
  { rewrite X. destruct coin, (g_reev g); reflexivity. }
  rewrite R4. cbn [t_gens set_t_gens t_log set_t_log t_sol set_t_sol] in C. 
  match type of C with (if ?b then _ else _) => match goal with |- (if ?b' then _ else _) => replace b' with b by (f_equal; destruct coin, (g_reev g); reflexivity); destruct b; [|exact C] end end.
  destruct C as [y C]. exists y. rewrite <- C. f_equal. rewrite app_length, eval_from_length, new_points_length. lia.
Qed.
Lemma in_number set (l : list rcand) a p : In a (number set p l) -> exists c z, In c l /\ a = set z c.
Proof. clear. revert p. induction l as [|c l IH]; intros p H; [destruct H|]. destruct H as [<-|H]; [exists c, p; split; [left; auto|auto]|]. destruct (IH _ H) as (d & z & I & ->). exists d, z. split; [right; auto|auto]. Qed.
Lemma uh_effect (s s' : sol T N) : uncertainty_handling e g s = Ok s' ->
  s_suh s' = noise (limit_at g) (s_reev s) (s_cuh s') /\ s_reev s' = s_reev s /\
  (exists tot, sorted_by (cmp_ranks (s_reev s) tot) (s_cuh s')) /\
  forall a, In a (s_cuh s') -> exists b, In b (s_cuh s) /\ r_f a = r_f b /\ r_mut a = r_mut b /\ r_idx a = r_idx b /\
    r_delta a = if (r_idx a <? s_reev s)%nat then r_r2 a - r_r1 a - Z.sgn (r_r2 a - r_r1 a) else r_delta b.
Proof.
  intros H. unfold uncertainty_handling in H.
  apply bind_ok in H as (l1 & E1 & H). apply bind_ok in H as (l2 & E2 & H). cbv zeta in H. apply bind_ok in H as (l4 & E4 & H). apply bind_ok in H as (cs & Ec & H).
  apply Ok_inj in H. subst s'. cbn [s_cands s_cuh s_suh s_reev set_s_cands set_s_cuh set_s_suh].
  apply (std_sort_spec e HS) in E1 as (P1 & _ & _), E2 as (P2 & _ & _), E4 as (P4 & S4 & _).
  split; [rewrite uh_level_noise; apply noise_perm; symmetry; exact P4|]. split; [reflexivity|]. split; [eexists; exact S4|].
  intros a Ha. apply (Permutation_in a P4) in Ha. apply in_map_iff in Ha as (c & <- & Ha).
  apply in_number in Ha as (c2 & z2 & Ha & ->). apply (Permutation_in _ P2) in Ha. apply in_number in Ha as (c1 & z1 & Ha & ->). apply (Permutation_in _ P1) in Ha.
  exists c1. split; [exact Ha|]. destruct (with_delta_f (s_reev s) (set_r_r2 z2 (set_r_r1 z1 c1))) as (-> & -> & -> & -> & ->).
  unfold with_delta, sgn. cbn [r_f r_mut r_idx r_r1 r_r2 set_r_r1 set_r_r2]. destruct (_ <? _)%nat; auto 6.
Qed.
(** One generation. *)
Lemma noise_ext L r r' l : (forall a, In a l -> (r_idx a <? r)%nat = (r_idx a <? r')%nat) -> noise L r l = noise L r' l.
Proof. clear. intros H. unfold noise. f_equal. apply map_ext_in. intros a Ha. now rewrite (H a Ha). Qed.
Lemma uh_noise (s s1 s2 : st T N) cols phen : g_uh g = true -> length cols = g_lambda g -> (1 <= length cols)%nat ->
  eval no e g cols phen s = Ok s1 -> tell no e g s1 = Ok s2 ->
  exists r L, length (t_log s2) = (length (t_log s) + length cols + r)%nat /\
    Forall (reevaluated (t_log s2) (length (t_log s) + length cols) r) (s_cuh (t_sol s2)) /\
    (forall d, rank_limit (g_lambda g) d (L d)) /\
    (exists m, s_num (t_sol s2) = let n := n_update no (s_niter (t_sol s2)) (map c_x (s_cands (t_sol s2))) m in
       if 0 <? noise L r (s_cuh (t_sol s2)) then n_uh_scale no n else n) /\
    (forall i j a b, (i < j)%nat -> nth_error (s_cuh (t_sol s2)) i = Some a -> nth_error (s_cuh (t_sol s2)) j = Some b ->
       r_r1 a + r_r2 a <= r_r1 b + r_r2 b \/ r_r1 b + r_r2 b = 2 * r_r2 a).
Proof.
  intros HU HL H1 E Et. destruct (eval_mut _ _ _ _ HU E) as [LM M].
  apply eval_spec in E as (_ & _ & _ & _ & _ & _ & _ & _ & _ & _ & U).
  destruct (U HU) as (U1 & _). clear U.
  pose proof Et as Et'. apply tell_effect in Et' as (L2 & _).
  unfold tell in Et. rewrite HU in Et. apply bind_ok in Et as (t1 & R & Et). cbv zeta in Et. apply bind_ok in Et as (t3 & Ub & Et). apply Ok_inj in Et.
  apply ubc_spec in Ub as (KK & _). unfold kept_by_tell in KK. injection KK as K1 _ K3 _ _ _ _ _ K9 _ K2 _ _.
  apply uh_effect in R as (R1 & R2 & (tot & R3) & R4).
  set (tp := (g_tpa g =? 2) && (0 <? t_niter s1)) in *. clearbody tp.
  assert (K2' : s_cuh t3 = s_cuh t1) by (rewrite K2; destruct tp; reflexivity).
  assert (K9' : s_suh t3 = s_suh t1) by (rewrite K9; destruct tp; reflexivity). clear K1 K2 K3 K9.
  assert (Q : s_cuh (t_sol s2) = s_cuh t1 /\ s_num (t_sol s2) = (let n := n_update no (s_niter (t_sol s2)) (map c_x (s_cands (t_sol s2))) (s_num t3) in
       if 0 <? s_suh t1 then n_uh_scale no n else n)).
  { rewrite <- K2', <- K9', <- Et. cbn [andb]. cbn [s_suh set_s_num]. destruct (0 <? s_suh t3); split; reflexivity. }
  clear Et K2' K9'. destruct Q as [Q1 Q2]. rewrite Q1 in *. rewrite L2 in *.
  set (r := Nat.min (length cols) (s_reev (t_sol s1))).
  assert (HI : forall a, In a (s_cuh t1) -> (r_idx a <? s_reev (t_sol s1))%nat = (r_idx a <? r)%nat).
  { intros a Ha. destruct (R4 a Ha) as (b & Hb & _ & _ & -> & _). apply (in_map r_idx) in Hb. rewrite U1 in Hb. apply in_seq in Hb. unfold r.
    destruct (Nat.ltb_spec (r_idx b) (s_reev (t_sol s1))), (Nat.ltb_spec (r_idx b) (Nat.min (length cols) (s_reev (t_sol s1)))); auto; lia. }
  exists r, (limit_at g). split; [exact LM|]. split; [|split; [|split]].
  - apply Forall_forall. intros a Ha. unfold reevaluated. rewrite <- (HI a Ha). destruct (R4 a Ha) as (b & Hb & Rf & Rm & Ri & Rd). destruct (M b Hb) as [Md Mm].
    rewrite Rd. rewrite Ri in *. rewrite Rf, Rm, Md. destruct (r_idx b <? s_reev (t_sol s1))%nat; [|auto]. split; [exact Mm|reflexivity].
  - intros d. apply limit_at_spec. lia.
  - exists (s_num t3). rewrite Q2, R1, (noise_ext _ _ r) by exact HI. reflexivity.
  - intros i j a b Hij Ha Hb. specialize (R3 i j a b Hij Ha Hb). unfold cmp_ranks in R3.
    destruct (Z.eqb_spec (r_r1 b + r_r2 b) (r_r2 a + r_r2 a)); [right; lia|left]. apply Z.ltb_ge in R3. exact R3.
Qed.
End Level.
