From Coq Require Import Reals Permutation.
From Verif Require Import Base EoMatrix Pwq Scaling GenoPheno Par ParProofs GpPar
  SpecBounds SpecGeno EoMatrixProofs GenoPhenoProofs ScalingProofs.

Local Open Scope nat_scope.

Lemma map_seq_nth {A} (f : nat -> A) n t :
  nth_error (map f (seq 0 n)) t = if t <? n then Some (f t) else None.
Proof.
  destruct (Nat.ltb_spec t n) as [H|H].
  - rewrite nth_error_map, (@nth_error_nth' nat (seq 0 n) t 0) by (rewrite seq_length; exact H).
    rewrite seq_nth by exact H. reflexivity.
  - apply nth_error_None. rewrite map_length, seq_length; exact H.
Qed.

Lemma col_loop_owned f cols : owned (col_loop f cols).
Proof.
  intros t l acts a Ht Ha. unfold col_loop in Ht; cbn [p_threads] in Ht.
  rewrite map_seq_nth in Ht. destruct (t <? length cols); [|discriminate].
  injection Ht as <- <-. cbn in Ha. destruct Ha as [<-|[<-|[]]]; reflexivity.
Qed.
Lemma col_loop_sized f cols : sized _ _ _ (col_loop f cols).
Proof. unfold sized, col_loop; cbn. rewrite map_length, seq_length; lia. Qed.

Lemma nth_error_ext {A} (l l' : list A) : (forall i, nth_error l i = nth_error l' i) -> l = l'.
Proof.
  revert l'; induction l as [|a l IH]; intros [|b l'] H; try reflexivity.
  - specialize (H 0); discriminate.
  - specialize (H 0); discriminate.
  - f_equal; [specialize (H 0); injection H as ->; reflexivity|]. apply IH. intros i; apply (H (S i)).
Qed.

Lemma loop_to_map f cols cols' :
  loop_to f cols cols' -> cols' = map (fun c => bind c f) cols.
Proof.
  intros (sched & s' & Hr & Hf & <-).
  destruct (schedule_free _ _ _ sched _ _ (col_loop_owned f cols) Hr Hf) as [Hm _].
  apply nth_error_ext; intros i. rewrite Hm, nth_error_map.
  unfold fin_slot, col_loop; cbn [p_mem p_threads].
  rewrite map_seq_nth. unfold col in *. destruct (nth_error cols i) as [c|] eqn:Ei; [|reflexivity].
  assert (i < length cols) by (apply nth_error_Some; congruence).
  destruct (Nat.ltb_spec i (length cols)); [|lia]. reflexivity.
Qed.
Lemma loop_to_ex f cols : exists cols', loop_to f cols cols'.
Proof.
  destruct (can_finish _ _ _ (col_loop f cols) (col_loop_owned _ _) (col_loop_sized _ _)) as (sch & s' & H1 & H2).
  exists (p_mem s'), sch, s'. auto.
Qed.

Lemma custom_pheno_par_map g a b :
  custom_pheno_par g a b -> b = map (fun c => bind c (fun v => Ok (custom_pheno g v))) a.
Proof.
  unfold custom_pheno_par, custom_pheno. destruct (gp_custom g) as [[ge ph]|].
  - apply loop_to_map.
  - intros ->. rewrite <- (map_id b) at 1. apply map_ext. intros [v|e]; reflexivity.
Qed.
Lemma custom_geno_par_map g a b :
  custom_geno_par g a b -> b = map (fun c => bind c (fun v => Ok (custom_geno g v))) a.
Proof.
  unfold custom_geno_par, custom_geno. destruct (gp_custom g) as [[ge ph]|].
  - apply loop_to_map.
  - intros ->. rewrite <- (map_id b) at 1. apply map_ext. intros [v|e]; reflexivity.
Qed.
Lemma scale_f_par_map s a b :
  scale_par s scale_f_step a b -> b = map (fun c => bind c (scale_f_step s)) a.
Proof.
  unfold scale_par, scale_f_step. destruct s as [|l]; [|destruct (l_id l)].
  1,2: intros ->; rewrite <- (map_id b) at 1; apply map_ext; intros [v|e]; reflexivity.
  intros H; apply loop_to_map in H; exact H.
Qed.
Lemma scale_i_par_map s a b :
  scale_par s scale_i_step a b -> b = map (fun c => bind c (scale_i_step s)) a.
Proof.
  unfold scale_par, scale_i_step. destruct s as [|l]; [|destruct (l_id l)].
  1,2: intros ->; rewrite <- (map_id b) at 1; apply map_ext; intros [v|e]; reflexivity.
  intros H; apply loop_to_map in H; exact H.
Qed.

Lemma pheno_mat_schedule g xs out : pheno_mat_par g xs out -> out = map (pheno g) xs.
Proof.
  intros (m1 & H1 & H2). apply custom_pheno_par_map in H1. subst m1. rewrite map_map in H2. cbn [bind] in H2.
  unfold pheno. destruct (gp_bound g) as [|p]; [destruct (gp_scale g) as [|l]|].
  - symmetry; exact H2.
  - apply loop_to_map in H2. subst out. rewrite map_map. reflexivity.
  - destruct H2 as (m2 & H2 & H3). apply loop_to_map in H2. apply scale_f_par_map in H3. subst.
    rewrite !map_map. reflexivity.
Qed.

Lemma geno_mat_schedule g xs out : geno_mat_par g xs out -> out = map (geno g) xs.
Proof.
  unfold geno_mat_par, geno. destruct (gp_bound g) as [|p]; [intros []|].
  intros (m1 & m2 & H1 & H2 & H3).
  apply scale_i_par_map in H1. apply loop_to_map in H2. apply custom_geno_par_map in H3. subst.
  rewrite !map_map. cbn [bind]. apply map_ext; intros v.
  destruct (scale_i_step (gp_scale g) v) as [w|e]; reflexivity.
Qed.

Lemma custom_pheno_par_ex g a : exists b, custom_pheno_par g a b.
Proof. unfold custom_pheno_par. destruct (gp_custom g) as [[ge ph]|]; [apply loop_to_ex|eauto]. Qed.
Lemma pheno_mat_par_ex g xs : exists out, pheno_mat_par g xs out.
Proof.
  unfold pheno_mat_par. destruct (custom_pheno_par_ex g (map Ok xs)) as [m1 H1].
  destruct (gp_bound g) as [|p]; [destruct (gp_scale g) as [|l]|].
  - exists m1, m1; auto.
  - destruct (loop_to_ex (scale_to_f l) m1) as [o Ho]. exists o, m1; auto.
  - destruct (loop_to_ex (pwq_to_f p) m1) as [m2 H2].
    assert (exists o, scale_par (gp_scale g) scale_f_step m2 o) as [o Ho].
    { unfold scale_par; destruct (gp_scale g) as [|l]; [eauto|destruct (l_id l); [eauto|apply loop_to_ex]]. }
    exists o, m1; split; [exact H1|]. exists m2; auto.
Qed.

(** * Removal of dimensions *)
Lemma without_keep_gen {A} ks (x : list A) i :
  map snd (filter (fun p => negb (existsb (Nat.eqb (fst p)) ks)) (combine (seq i (length x)) x))
  = keep_from i (mem ks) x.
Proof.
  revert i; induction x as [|a x IH]; intros i; [reflexivity|].
  cbn [length seq combine filter fst keep_from]. unfold mem at 1.
  destruct (existsb (Nat.eqb i) ks); cbn [negb map snd]; rewrite IH; reflexivity.
Qed.
Lemma without_keep {A} ks (x : list A) : without ks x = keep_from 0 (mem ks) x.
Proof. apply without_keep_gen. Qed.

Lemma high_to_low_decreasing n ks : high_to_low n ks -> decreasing ks /\ (forall k, In k ks -> k < n).
Proof.
  intros [H1 H2]; split; [|exact H2]. clear H2.
  induction ks as [|k ks IH]; [exact I|]. cbn [decreasing].
  assert (Hd : decreasing ks).
  { apply IH. intros i a b; apply (H1 (S i)). }
  split; [|exact Hd].
  destruct ks as [|k1 ks]; [intros j []|].
  pose proof (H1 0 k k1 eq_refl eq_refl). destruct Hd as [Hd _].
  intros j [<-|Hj]; [assumption|]. specialize (Hd j Hj); lia.
Qed.

Lemma mapM2_keep {A B C} (f : A -> B -> res C) d la : forall i lb lc,
  mapM2 f la lb = Ok lc -> mapM2 f (keep_from i d la) (keep_from i d lb) = Ok (keep_from i d lc).
Proof.
  induction la as [|a la IH]; intros i [|b lb] lc H; cbn [mapM2] in H; try discriminate.
  - injection H as <-; reflexivity.
  - apply bind_ok in H; destruct H as (c & Hc & H). apply bind_ok in H; destruct H as (cs & Hcs & H).
    injection H as <-. cbn [keep_from].
    destruct (d i); [apply IH; exact Hcs|]. cbn [mapM2]. rewrite Hc; cbn [bind].
    rewrite (IH _ _ _ Hcs). reflexivity.
Qed.

Lemma removed_keep {A} n ks (v : list A) :
  high_to_low n ks -> length v = n -> small v ->
  fold_left removeElement (map Z.of_nat ks) v = keep_from 0 (mem ks) v.
Proof.
  intros H Hl Hs. destruct (high_to_low_decreasing _ _ H) as [Hd Hb].
  rewrite fold_removeElement_nat by (auto; intros k Hk; rewrite Hl; auto).
  apply fold_remove_decreasing; [exact Hd|]. intros k Hk; rewrite Hl; auto.
Qed.


Definition shape (n : nat) (g : genopheno) : Prop :=
  gp_custom g = None /\
  match gp_bound g with NoBound => True | PwqBound p => length p = n end /\
  match gp_scale g with NoScaling => True | LinScaling l => l_id l = false /\ length (l_pairs l) = n end.

Lemma lin_make_len lb ub l : lin_make lb ub = Ok l -> l_id l = false /\ length (l_pairs l) = length lb.
Proof.
  unfold lin_make; intros H. apply bind_ok in H; destruct H as (ps & Hp & H). injection H as <-.
  apply mapM2_ok_length in Hp. cbn; tauto.
Qed.

Lemma built_shape n g : built n g -> shape n g.
Proof.
  intros H; destruct H as [|lb ub g Hn H|lb ub g Hn H|lb ub g Hn H|sc sh g Hn H|sc sh lb ub g Hn H].
  - repeat split.
  - unfold gp_bounds in H. apply bind_ok in H; destruct H as (p & Hp & H). injection H as <-.
    apply pwq_make_nth in Hp. repeat split. cbn. lia.
  - unfold gp_bounds_lin in H. apply bind_ok in H; destruct H as (l & Hl & H).
    apply bind_ok in H; destruct H as (p & Hp & H). injection H as <-.
    apply lin_make_len in Hl. apply pwq_make5_nth in Hp. rewrite !repeat_length in Hp.
    unfold shape; cbn. destruct Hl, Hp as [Hp _]. repeat split; lia || tauto.
  - unfold gp_nb_lin in H. apply bind_ok in H; destruct H as (l & Hl & H). injection H as <-.
    apply lin_make_len in Hl. unfold shape; cbn. destruct Hl. repeat split; lia || tauto.
  - unfold gp_scaling_nb in H. apply bind_ok in H; destruct H as (l & Hl & H). injection H as <-.
    apply lin_user_nth in Hl. unfold shape; cbn. destruct Hl as (A & B & _). repeat split; lia || tauto.
  - unfold gp_scaling_pwq in H. apply bind_ok in H; destruct H as (l & Hl & H).
    apply bind_ok in H; destruct H as (nlb & Hnl & H). apply bind_ok in H; destruct H as (nub & Hnu & H).
    apply bind_ok in H; destruct H as (p & Hp & H). injection H as <-.
    apply lin_user_nth in Hl. destruct Hl as (A & B & _).
    unfold scale_to_internal in Hnl. apply mapM2_ok_length in Hnl. apply pwq_make_nth in Hp.
    unfold shape; cbn. repeat split; lia || tauto.
Qed.

Lemma remove_pheno n g ks x y :
  built n g -> (Z.of_nat n < 2147483648)%Z -> high_to_low n ks ->
  pheno g x = Ok y ->
  pheno (gp_remove g (map Z.of_nat ks)) (without ks x) = Ok (without ks y).
Proof.
  intros Hb Hn Hk H. apply built_shape in Hb. destruct Hb as (Hc & Hp & Hs).
  rewrite !without_keep. unfold pheno, custom_pheno in *. rewrite Hc in H.
  unfold gp_remove; cbn [gp_custom gp_bound gp_scale]. rewrite Hc.
  destruct (gp_bound g) as [|p]; [destruct (gp_scale g) as [|l]|].
  - injection H as <-; reflexivity.
  - destruct Hs as [Hi Hl]. rewrite Hi. unfold lin_remove, scale_to_f in *; cbn [l_pairs].
    rewrite (removed_keep n) by (unfold small; auto; lia). apply mapM2_keep; exact H.
  - apply bind_ok in H; destruct H as (z & Hz & H).
    unfold pwq_to_f, shift_into_feasible in Hz. apply bind_ok in Hz; destruct Hz as (w & Hw & Hz).
    unfold pwq_remove, pwq_to_f, shift_into_feasible.
    rewrite (removed_keep n) by (unfold small; auto; lia).
    rewrite (mapM2_keep _ _ _ _ _ _ Hw); cbn [bind].
    rewrite (mapM2_keep _ _ _ _ _ _ Hz); cbn [bind].
    unfold scale_f_step in *. destruct (gp_scale g) as [|l].
    + injection H as <-; reflexivity.
    + destruct Hs as [Hi Hl]. rewrite Hi in *. unfold lin_remove; cbn [l_id]. rewrite Hi.
      unfold scale_to_f in *; cbn [l_pairs].
      rewrite (removed_keep n) by (unfold small; auto; lia). apply mapM2_keep; exact H.
Qed.

Lemma remove_geno n g ks x y :
  built n g -> (Z.of_nat n < 2147483648)%Z -> high_to_low n ks ->
  geno g x = Ok y ->
  geno (gp_remove g (map Z.of_nat ks)) (without ks x) = Ok (without ks y).
Proof.
  intros Hb Hn Hk H. apply built_shape in Hb. destruct Hb as (Hc & Hp & Hs).
  rewrite !without_keep. unfold geno, custom_geno in *. rewrite Hc in H.
  unfold gp_remove; cbn [gp_custom gp_bound gp_scale]. rewrite Hc.
  destruct (gp_bound g) as [|p]; [destruct (gp_scale g) as [|l]|].
  - injection H as <-; reflexivity.
  - destruct Hs as [Hi Hl]. rewrite Hi. unfold lin_remove, scale_to_internal in *; cbn [l_pairs].
    rewrite (removed_keep n) by (unfold small; auto; lia).
    apply bind_ok in H; destruct H as (z & Hz & H). injection H as <-.
    rewrite (mapM2_keep _ _ _ _ _ _ Hz); reflexivity.
  - apply bind_ok in H; destruct H as (z & Hz & H). apply bind_ok in H; destruct H as (w & Hw & H). injection H as <-.
    unfold pwq_remove, pwq_to_internal in *.
    rewrite (removed_keep n) by (unfold small; auto; lia).
    assert (E : scale_i_step (match gp_scale g with NoScaling => NoScaling | LinScaling l =>
       if l_id l then LinScaling l else LinScaling (lin_remove l (map Z.of_nat ks)) end) (keep_from 0 (mem ks) x)
       = Ok (keep_from 0 (mem ks) z)).
    { unfold scale_i_step in *. destruct (gp_scale g) as [|l].
      + injection Hz as <-; reflexivity.
      + destruct Hs as [Hi Hl]. rewrite Hi in *. unfold lin_remove; cbn [l_id]. rewrite Hi.
        unfold scale_to_internal in *; cbn [l_pairs].
        rewrite (removed_keep n) by (unfold small; auto; lia). apply mapM2_keep; exact Hz. }
    rewrite E; cbn [bind]. rewrite (mapM2_keep _ _ _ _ _ _ Hw). reflexivity.
Qed.
