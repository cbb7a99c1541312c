(** The stopping criteria on the covariance, for VD-CMA. *)
From Coq Require Import Reals List Lia Lra ZArith.
From Verif Require Import Base Dbl Vec VecProofs Params SpecParams Config Search SpecSearch SearchInv PhaseInv StopProofs Update SpecUpdate UpdateProofs DemoNum DemoNumProofs NumThms ActiveProofs NumInv SpecCrit CritProofs CritThms SpecRate SpecVd VdDemo GradPtThms.
Import ListNotations.
Local Open Scope R_scope.

(** Both criteria read the scales D. *)
Lemma vd_ev p e g s s' : k_vd (p_k p) = true -> tell (cma_num p) e g s = Ok s' ->
  x_maxev (s_num (t_sol s')) = vmax (k_dim (p_k p)) (variances_of s') /\ x_minev (s_num (t_sol s')) = vmin (k_dim (p_k p)) (variances_of s').
Proof.
  intros H1 H. apply (tell_phase (cma_num p) e g (fun n => x_maxev n = vmax (k_dim (p_k p)) (x_sep n) /\ x_minev n = vmin (k_dim (p_k p)) (x_sep n)) (fun n => True)) with (4 := I) (5 := H); auto.
  intros i xs n _. cbn [cma_num n_update update_num x_maxev x_minev x_sep]. rewrite H1, Bool.orb_true_r. auto.
Qed.
Lemma condition_vd_gen p e g s cols phen s' : (1 <= k_dim (p_k p))%nat -> k_vd (p_k p) = true -> run_ops (cma_num p) e g [OGen cols phen] s = Ok s' ->
  (forall i, (i < k_dim (p_k p))%nat -> 0 <= variances_of s' i) ->
  (criterion (cma_num p) g (-15) (t_sol s') = Ok true <->
   exists i j, (i < k_dim (p_k p))%nat /\ (j < k_dim (p_k p))%nat /\ 10 ^ 14 * variances_of s' j < variances_of s' i).
Proof.
  intros Hd H1 H HP. cbn [run_ops do_op] in H. apply bind_ok in H as (s4 & H & Q). apply Ok_inj in Q. subst s4.
  apply bind_ok in H as (s2 & A2 & H). apply bind_ok in H as (s3 & A3 & H). apply Ok_inj in H. subst s'.
  change (criterion (cma_num p) g (-15) (t_sol (inc_iter s3))) with (criterion (cma_num p) g (-15) (t_sol s3)). change (variances_of (inc_iter s3)) with (variances_of s3) in *.
  destruct (vd_ev p e g s2 s3 H1 A3) as [E1 E2]. set (d := k_dim (p_k p)) in *.
  destruct (vmin_in d (variances_of s3) Hd) as (j & Hj & Ej). destruct (vmax_in d (variances_of s3) Hd) as (i & Hi & Ei).
  assert (M : 0 <= vmin d (variances_of s3)) by (rewrite Ej; auto).
  rewrite crit_cond. transitivity (condition_cov (s_num (t_sol s3)) = true); [split; [intros Q; apply Ok_inj in Q; exact Q|intros ->; reflexivity]|].
  rewrite (cond_iff _ _ _ E2 E1 M). split.
  - intros A. exists i, j. rewrite <- Ei, <- Ej. auto.
  - intros (i' & j' & Hi' & Hj' & A). pose proof (vmax_ge d (variances_of s3) i' Hi') as B. pose proof (vmin_le d (variances_of s3) j' Hj') as C. pose proof pow_14 as D.
    apply Rle_lt_trans with (10 ^ 14 * variances_of s3 j'); [apply Rmult_le_compat_l; lra|lra].
Qed.
(** A condition number that the scales do not show. *)
Definition wide_par : npar := mkNpar kvd2 Vd 1 false (/ 1000000000000) 0.3 (/ 10000000) (fun _ => (fun _ => 0, ident)) (fun i => if Nat.eqb i 0 then 2 * 10 ^ 7 else 0) (fun _ => 1 / 2)
  (fun x => x) (fun x => x) (fun _ => None) (fun x => x).
Lemma condition_vd_missed : exists p e g x0 s0 s cols,
  constructed_any (p_k p) /\ p_upd p = Vd /\ k_vd (p_k p) = true /\ k_dim (p_k p) = 2%nat /\ st_new (cma_num p) g x0 num0 = Ok s0 /\
  run_ops (cma_num p) e g [OAsk; OGen cols []] s0 = Ok s /\
  (forall i, (i < 2)%nat -> 0 < variances_of s i) /\
  cond_above 2 (vd_matrix (variances_of s) (x_v (s_num (t_sol s)))) (10 ^ 14) /\ criterion (cma_num p) g (-15) (t_sol s) = Ok false.
Proof.
  pose (p := wide_par). assert (HL : (2 <= k_lambda (p_k p))%nat) by (cbn; lia).
  destruct (ask_flat_generation p HL (fun i v H => match H with end) (repeat [1; 0] 4) [1; 0] num0 eq_refl) as (s0 & s & m & E0 & E & N & _).
  destruct (small_rates k24 12%Z k24_constructed (or_introl eq_refl) ltac:(cbn; lia)) as [R1 R2]. fold kvd2 in R1, R2.
  set (n := with_pos (eigen_num p 0 (new_num p [1; 0] num0)) m (x_upos num0)) in N.
  assert (T : vd_test p 0 (repeat [1; 0] 4) n = false).
  { unfold vd_test. change (p_k p) with kvd2. destruct (Rlt_dec _ _) as [Q|]; auto. exfalso. unfold hsig in Q. destruct (Rlt_dec _ _) in Q; rewrite ?Rmult_1_r, ?Rmult_0_r in Q; lra. }
  assert (SV : variances_of s = (fun _ => 1)).
  { unfold variances_of. rewrite N. cbn [update_num x_sep]. change (p_upd p) with Vd. cbv iota. unfold new_vd_sep. rewrite T. reflexivity. }
  assert (VV : x_v (s_num (t_sol s)) = fun i => p_normal p i / sqrt (INR 2)).
  { rewrite N. cbn [update_num x_v]. change (p_upd p) with Vd. cbv iota. unfold new_v. rewrite T. reflexivity. }
  exists p, flat_env, (cfg_of kvd2), [1; 0], s0, s, (repeat [1; 0] 4).
  split. { right. exists k24, 12%Z. split; [apply k24_constructed|reflexivity]. } split; [reflexivity|]. split; [reflexivity|]. split; [reflexivity|]. split; [exact E0|]. split; [exact E|].
  rewrite SV. split; [intros; lra|]. split.
  - rewrite VV. exists (at0 [1; 0]), (at0 [0; 1]). unfold quad, dot, mv, vd_matrix, delta, at0. cbn [rsum nth Nat.eqb]. change (p_normal p 0%nat) with (2 * 10 ^ 7). change (p_normal p 1%nat) with 0. change (INR 2) with 2.
    split; [ring|]. split; [ring|].
    assert (Q : 2 * 10 ^ 7 / sqrt 2 * (2 * 10 ^ 7 / sqrt 2) = 2 * 10 ^ 14).
    { pose proof (sqrt_sqrt 2 ltac:(lra)) as S2. assert (0 < sqrt 2) by (apply sqrt_lt_R0; lra). replace (2 * 10 ^ 7 / sqrt 2 * (2 * 10 ^ 7 / sqrt 2)) with (4 * 10 ^ 14 / (sqrt 2 * sqrt 2)) by (field; lra). rewrite S2. field. }
    set (a := 2 * 10 ^ 7 / sqrt 2) in *. unfold Rdiv. rewrite Rmult_0_l.
    match goal with |- ?l < ?r => replace l with (10 ^ 14) by ring; replace r with (1 + a * a) by ring end. rewrite Q. pose proof pow_14. lra.
  - change (criterion (cma_num p) (cfg_of kvd2) (-15) (t_sol s)) with (@Ok bool (condition_cov (s_num (t_sol s)))). f_equal.
    assert (E1 : x_maxev (s_num (t_sol s)) = 1 /\ x_minev (s_num (t_sol s)) = 1).
    { rewrite N. cbn [update_num x_maxev x_minev]. change (p_upd p) with Vd. cbv iota. change (k_sep (p_k p) || k_vd (p_k p))%bool with true. cbv iota. change (k_dim (p_k p)) with 2%nat.
      unfold new_vd_sep. rewrite T. destruct (vmax_in 2 (x_sep n) ltac:(lia)) as (i & _ & ->). destruct (vmin_in 2 (x_sep n) ltac:(lia)) as (j & _ & ->). split; reflexivity. }
    destruct E1 as [E1 E2]. destruct (condition_cov _) eqn:Q; [|reflexivity]. apply (proj1 (cond_iff _ _ _ E2 E1 ltac:(lra))) in Q. pose proof pow_14. assert (1 < 10 ^ 14) by (apply Rlt_pow_R1; [lra|lia]). lra.
Qed.
