(** A search started from a solution object is a new search from its mean and
    step size. *)
From Coq Require Import Permutation Reals Lia Lra.
From Verif Require Import Base Dbl DblProofs Vec VecProofs Params Config Search SpecSearch SpecInvar SpecMorph SpecSafe SpecUh SortProofs SearchInv CounterProofs HistProofs StopProofs RankProofs MorphProofs Update SpecUpdate UpdateProofs DemoNumProofs SpecAffine AffineProofs SpecWarm WarmProofs.
Local Open Scope R_scope.

Definition zero : nat -> R := fun _ => 0.
Lemma aff_1 x : aff 1 zero x = x.
Proof.
  apply list_at0; [apply tab_length|]. unfold aff. rewrite tab_length. intros i Hi. rewrite at0_tab by auto. unfold zero. ring.
Qed.
Lemma map_aff_1 l : map (aff 1 zero) l = l.
Proof. rewrite <- (map_id l) at 2. apply map_ext. apply aff_1. Qed.
Lemma moved_fixed_1 fx : moved_fixed 1 zero fx = fx.
Proof. unfold moved_fixed. rewrite <- (map_id fx) at 2. apply map_ext. intros [i v]. cbn. unfold zero. f_equal. ring. Qed.
Lemma moved_par_1 p : moved_par 1 zero p = p.
Proof. destruct p as [k ? ? ? ? ? ? ? ? ? ? ? ? ?]. destruct k. unfold moved_par, moved_cpar. cbn -[moved_fixed]. rewrite moved_fixed_1, Rmult_1_l. reflexivity. Qed.

(** Without the members a full-covariance search with the default adaptation
    does not read. *)
Definition norm_num (n : num) : num :=
  {| x_mean := x_mean n; x_prev := x_prev n; x_sigma := x_sigma n; x_cov := x_cov n; x_sep := fun _ => 1; x_v := fun _ => 0;
     x_csqinv := x_csqinv n; x_psigma := x_psigma n; x_pc := x_pc n; x_tpas := 0;
     x_fresh := x_fresh n; x_eigiter := x_eigiter n; x_smean := x_smean n; x_dec := x_dec n;
     x_leig := x_leig n; x_lvec := x_lvec n; x_maxev := x_maxev n; x_minev := x_minev n; x_edm := 0;
     x_pos := x_pos n; x_upos := x_upos n; x_csz := 0; x_psz := 0 |}.
(** Without those the first iteration sets either. *)
Definition wash (n : num) : num :=
  {| x_mean := x_mean n; x_prev := zero; x_sigma := x_sigma n; x_cov := x_cov n; x_sep := fun _ => 1; x_v := fun _ => 0;
     x_csqinv := fun _ _ => 0; x_psigma := x_psigma n; x_pc := x_pc n; x_tpas := 0;
     x_fresh := true; x_eigiter := 0; x_smean := zero; x_dec := (zero, fun _ _ => 0);
     x_leig := zero; x_lvec := fun _ _ => 0; x_maxev := 0; x_minev := 0; x_edm := 0;
     x_pos := x_pos n; x_upos := x_upos n; x_csz := 0; x_psz := 0 |}.

Section Warm.
Variable p : npar.
Let k := p_k p.
Let d := k_dim k.
Hypothesis H1 : k_sep (p_k p) = false.
Hypothesis H2 : k_vd (p_k p) = false.
Hypothesis H3 : p_upd p <> Vd.
Hypothesis H4 : k_tpa (p_k p) = 1%Z.

Lemma norm_eigen it n : eigen_num p it (norm_num n) = norm_num (eigen_num p it n).
Proof using H1 H2.
  unfold eigen_num. rewrite H1, H2. cbn [orb x_eigiter norm_num x_cov x_dec x_smean]. destruct (_ || _); reflexivity.
Qed.
Lemma norm_sample m n : fst (sample_num p m (norm_num n)) = fst (sample_num p m n) /\ snd (sample_num p m (norm_num n)) = norm_num (snd (sample_num p m n)).
Proof using H1 H2. unfold sample_num, sample_col. rewrite H1, H2. split; reflexivity. Qed.
Lemma norm_tpa_points n : fst (tpa_points p (norm_num n)) = fst (tpa_points p n) /\ snd (tpa_points p (norm_num n)) = norm_num (snd (tpa_points p n)).
Proof using H1 H2. unfold tpa_points, shift_norm. rewrite H1, H2. split; reflexivity. Qed.
Lemma norm_update it xs n : norm_num (update_num p it xs (norm_num n)) = norm_num (update_num p it xs n).
Proof using H1 H2 H3 H4.
  unfold update_num. rewrite H1, H2, H4. destruct (p_upd p) eqn:EU; [| |congruence]; cbn [orb Z.eqb]; unfold norm_num; cbn;
  (assert (C : new_csqinv p (norm_num n) = new_csqinv p n) by reflexivity);
  (assert (M : new_mean p xs (norm_num n) = new_mean p xs n) by reflexivity);
  (assert (S1 : mean_step p xs (norm_num n) = mean_step p xs n) by reflexivity);
  (assert (PS : new_psigma p xs (norm_num n) = new_psigma p xs n) by (unfold new_psigma; rewrite H1, EU; reflexivity));
  (assert (HS : hsig p it xs (norm_num n) = hsig p it xs n) by (unfold hsig; rewrite PS; reflexivity));
  (assert (PC : new_pc p it xs (norm_num n) = new_pc p it xs n) by (unfold new_pc; rewrite HS; reflexivity));
  (assert (SG : new_sigma p it xs (norm_num n) = new_sigma p it xs n) by (unfold new_sigma; rewrite PS, H4; reflexivity)).
  - assert (CV : rank_mu_cov p it xs (norm_num n) = rank_mu_cov p it xs n) by (unfold rank_mu_cov, keep_rate; rewrite HS, PC; reflexivity).
    unfold norm_num in *. rewrite PS, PC, SG, CV. reflexivity.
  - assert (CV : active_cov p it xs (norm_num n) = active_cov p it xs n).
    { assert (CM : cminus p xs (norm_num n) = cminus p xs n) by (unfold cminus, cminus_denom; rewrite H1; reflexivity).
      unfold active_cov. rewrite CM, PC. reflexivity. }
    unfold norm_num in *. rewrite PS, PC, SG, CV. reflexivity.
Qed.
Lemma norm_crit c n : crit_num p c (norm_num n) = crit_num p c n.
Proof using H1 H2.
  unfold crit_num, tol_x, tol_up_sigma, condition_cov, no_effect_axis, no_effect_coor, variance. rewrite H1, H2. reflexivity.
Qed.

Definition RN (n n' : num) : Prop := moved_num d 1 zero (norm_num n) (norm_num n').
Hypothesis HW : good_weights k.
Lemma R01 : 0 < 1. Proof. lra. Qed.
Ltac one L := pose proof L as Q; rewrite ?moved_par_1, ?map_aff_1 in Q.
Lemma norm_norm n : norm_num (norm_num n) = norm_num n. Proof. reflexivity. Qed.
Lemma mv_norm n n' : moved_num d 1 zero n n' -> x_tpas n' = x_tpas n -> RN n n'.
Proof using Type. unfold RN, moved_num. cbn. intros Q _. intuition. Qed.
Lemma rn_xmean n n' : RN n n' -> tab d (x_mean n') = tab d (x_mean n).
Proof using Type. intros HR. one (xmean_aff 1 zero p _ _ HR). rewrite aff_1 in Q. exact Q. Qed.
Lemma rn_eigen it n n' : RN n n' -> RN (eigen_num p it n) (eigen_num p it n').
Proof using H1 H2. intros HR. unfold RN. rewrite <- !norm_eigen. one (eigen_aff 1 zero p _ _ HR it). exact Q. Qed.
Lemma rn_sample m n n' : RN n n' -> fst (sample_num p m n') = fst (sample_num p m n) /\ RN (snd (sample_num p m n)) (snd (sample_num p m n')).
Proof using H1 H2.
  intros HR. one (sample_aff 1 zero p _ _ HR m). destruct (norm_sample m n) as [A1 A2]. destruct (norm_sample m n') as [B1 B2].
  rewrite A1, A2, B1, B2 in Q. exact Q.
Qed.
Lemma rn_tpa_points n n' : RN n n' -> fst (tpa_points p n') = fst (tpa_points p n) /\ RN (snd (tpa_points p n)) (snd (tpa_points p n')).
Proof using H1 H2.
  intros HR. one (tpa_points_aff 1 zero R01 p _ _ HR). rewrite !aff_1 in Q. destruct (norm_tpa_points n) as [A1 A2]. destruct (norm_tpa_points n') as [B1 B2].
  rewrite A1, A2, B1, B2 in Q. destruct Q as [Q1 Q2]. split; [rewrite Q1; destruct (fst (tpa_points p n)); reflexivity|exact Q2].
Qed.
Lemma rn_coin n n' : RN n n' -> fst (coin_num p n') = fst (coin_num p n) /\ RN (snd (coin_num p n)) (snd (coin_num p n')).
Proof using Type. intros HR. one (coin_aff 1 zero p _ _ HR). exact Q. Qed.
Lemma rn_mutate l n n' : RN n n' -> Forall (fun x => length x = d) l -> fst (mutate_num p l n') = fst (mutate_num p l n) /\ RN (snd (mutate_num p l n)) (snd (mutate_num p l n')).
Proof using Type. intros HR F. one (mutate_aff 1 zero p _ _ HR l F). exact Q. Qed.
Lemma rn_tpa z n n' : RN n n' -> RN (tpa_num p z n) (tpa_num p z n').
Proof using Type. intros HR. exact HR. Qed.
Lemma rn_scale n n' : RN n n' -> RN (uh_scale_num p n) (uh_scale_num p n').
Proof using Type. intros HR. one (scale_aff 1 zero p _ _ HR). exact Q. Qed.
Lemma rn_crit c n n' : RN n n' -> crit_num p c n' = crit_num p c n.
Proof using H1 H2. intros HR. one (crit_aff 1 zero R01 p (or_intror eq_refl) _ _ HR c). rewrite !norm_crit in Q. exact Q. Qed.
Lemma rn_update it xs n n' : RN n n' -> Forall (fun x => length x = d) xs -> length xs = k_lambda k -> RN (update_num p it xs n) (update_num p it xs n').
Proof using H1 H2 H3 H4 HW.
  intros HR F L. one (update_aff 1 zero R01 p HW _ _ HR xs F L it). unfold RN. rewrite <- (norm_update it xs n), <- (norm_update it xs n').
  apply mv_norm; [exact Q|reflexivity].
Qed.

(** The first iteration. *)
Lemma wash_pop m n : fst (sample_num p m (eigen_num p 0 (wash n))) = fst (sample_num p m (eigen_num p 0 n)).
Proof using H1 H2. unfold sample_num, sample_col, eigen_num. rewrite H1, H2. reflexivity. Qed.
Lemma wash_update it xs m n : norm_num (update_num p it xs (snd (sample_num p m (eigen_num p 0 (wash n))))) =
  norm_num (update_num p it xs (snd (sample_num p m (eigen_num p 0 n)))).
Proof using H1 H2 H3 H4.
  rewrite <- (norm_update it xs (snd (sample_num p m (eigen_num p 0 (wash n))))), <- (norm_update it xs (snd (sample_num p m (eigen_num p 0 n)))).
  unfold sample_num, eigen_num. rewrite H1, H2. cbn [orb Z.eqb snd negb].
  set (a := norm_num (with_pos (with_solver (wash n) _ _ _ _) _ _)). set (b := norm_num (with_pos (with_solver n _ _ _ _) _ _)).
  assert (C : new_csqinv p a = new_csqinv p b) by (unfold new_csqinv; rewrite H1; reflexivity).
  assert (S1 : mean_step p xs a = mean_step p xs b) by reflexivity.
  assert (PS : new_psigma p xs a = new_psigma p xs b) by (unfold new_psigma; rewrite C, H1; destruct (p_upd p); reflexivity).
  assert (HS : hsig p it xs a = hsig p it xs b) by (unfold hsig; rewrite PS; reflexivity).
  assert (PC : new_pc p it xs a = new_pc p it xs b) by (unfold new_pc; rewrite HS; reflexivity).
  assert (SG : new_sigma p it xs a = new_sigma p it xs b) by (unfold new_sigma; rewrite PS, H4; reflexivity).
  unfold update_num. rewrite H1, H2, H4. destruct (p_upd p) eqn:EU; [| |congruence]; cbn [orb Z.eqb].
  - assert (CV : rank_mu_cov p it xs a = rank_mu_cov p it xs b) by (unfold rank_mu_cov, keep_rate; rewrite HS, PC; reflexivity).
    rewrite PS, PC, SG, CV, C. reflexivity.
  - assert (CV : active_cov p it xs a = active_cov p it xs b).
    { assert (CM : cminus p xs a = cminus p xs b) by (unfold cminus, cminus_denom; rewrite H1, C; reflexivity).
      unfold active_cov. rewrite CM, PC. reflexivity. }
    rewrite PS, PC, SG, CV, C. reflexivity.
Qed.
Lemma wash_related n n' : (forall i, (i < d)%nat -> x_mean n' i = x_mean n i) -> x_sigma n' = x_sigma n ->
  (forall i j, (i < d)%nat -> (j < d)%nat -> x_cov n' i j = x_cov n i j) -> (forall i, (i < d)%nat -> x_psigma n' i = x_psigma n i) ->
  (forall i, (i < d)%nat -> x_pc n' i = x_pc n i) -> x_pos n' = x_pos n -> x_upos n' = x_upos n -> RN (wash n) (wash n').
Proof using Type.
  intros A B C D E F G. unfold RN, moved_num, zero. cbn. repeat (split; [intros; rewrite ?A, ?B, ?C, ?D, ?E, ?F, ?G by auto; unfold zero; try ring; auto|]). auto.
Qed.
End Warm.
