(** Stopping criteria: counterexamples and instances. *)
From Coq Require Import Reals List Lia Lra Arith ZArith.
From Verif Require Import Base Dbl Vec VecProofs Params SpecParams ParamsProofs Config Search SpecSearch SpecInvar SpecSafe SearchInv StopProofs SearchThms2 NumInv Demo Update SpecUpdate ParamSound DemoNum DemoNumProofs LargeLambda NumThms ActiveThms SpecCrit CritProofs UpdateProofs2.
Import ListNotations.
Local Open Scope R_scope.

(** Tolerance [t]. *)
Definition tol_par (t : R) : npar :=
  mkNpar k24 Full 1 false t 0.3 (/ 10000000) (fun _ => (fun _ => 1, ident)) demo_normal (fun _ => 1 / 2)
    (fun x => x) (fun x => x) (fun _ => None) (fun x => x).
Lemma k24_half : k_c1 k24 + k_cmu k24 <= 1 / 2.
Proof.
  change (k_c1 k24) with (2 / ((2 + 1.3) * (2 + 1.3) + muw_of 2)).
  change (k_cmu k24) with (Rmin (1 - 2 / ((2 + 1.3) * (2 + 1.3) + muw_of 2)) (2 * (muw_of 2 - 2 + 1 / muw_of 2) / ((2 + 2) * (2 + 2) + muw_of 2))).
  pose proof muw_2. pose proof muw_2_poly.
  assert (2 / ((2 + 1.3) * (2 + 1.3) + muw_of 2) <= 1 / 4) by (apply div_le; lra).
  assert (2 * (muw_of 2 - 2 + 1 / muw_of 2) / ((2 + 2) * (2 + 2) + muw_of 2) <= 1 / 4) by (apply div_le; lra).
  pose proof (Rmin_r (1 - 2 / ((2 + 1.3) * (2 + 1.3) + muw_of 2)) (2 * (muw_of 2 - 2 + 1 / muw_of 2) / ((2 + 2) * (2 + 2) + muw_of 2))). lra.
Qed.
Lemma tolx_missed : exists p e g x0 n s0 s h,
  constructed (p_k p) /\ p_upd p = Full /\ same_problem p g /\ / 1000000000000 <= p_xtol p /\
  st_new (cma_num p) g x0 n = Ok s0 /\ Forall (whole_gen g) h /\ run_ops (cma_num p) e g h s0 = Ok s /\
  spreads_below p s (p_xtol p) /\ criterion (cma_num p) g 2 (t_sol s) = Ok false.
Proof.
  set (c := 1 - k_c1 k24 - k_cmu k24). assert (Hc : 1 / 2 <= c) by (unfold c; pose proof k24_half; lra).
  pose (t := sqrt c). pose (p := tol_par t).
  assert (Ht : 1 / 2 <= t). { unfold t. rewrite <- (sqrt_square (1 / 2)) by lra. apply sqrt_le_1_alt. lra. }
  assert (HL : (2 <= k_lambda (p_k p))%nat) by (cbn; lia).
  pose (cols := repeat [1; 2] 4).
  destruct (flat_generation p HL (fun i v H => match H with end) cols [1; 2] num0 eq_refl) as (s0 & s & E0 & E & A & _).
  exists p, flat_env, (cfg_of k24), [1; 2], num0, s0, s, [OGen cols []].
  assert (HS : sound_params (p_k p)) by (apply constructed_sound, k24_constructed).
  assert (HB : forall i c, (i < k_mu (p_k p))%nat -> pt cols i c = x_mean (new_num p [1; 2] num0) c).
  { intros i c' Hi. unfold pt, cols. rewrite nth_repeat_in by exact (Nat.lt_le_trans _ _ _ Hi (proj1 (Nat.leb_le 2 4) eq_refl)).
    cbn [x_mean new_num init_mean]. unfold init_mean. cbn [p_scale p tol_par]. change (k_dim (p_k p)) with 2%nat. destruct c' as [|[|[|c']]]; reflexivity. }
  assert (V : p_upd p <> Vd) by discriminate. pose (n1 := new_num p [1; 2] num0).
  assert (PS : forall i, new_psigma p cols n1 i = 0) by (intros i; apply (same_psigma p HS cols n1 HB); auto).
  assert (SG : sigma_of s / sigma_init p = exp (- (k_csigma k24 / k_dsigma k24))).
  { unfold sigma_of. rewrite A. unfold update_num. cbn [x_sigma]. unfold new_sigma. change (k_tpa (p_k p) <? 2)%Z with true. cbn iota. cbn [p tol_par p_upd].
    fold p n1. change (x_sigma n1) with (sigma_init p). change (p_k p) with k24.
    assert (Z : norm (k_dim k24) (new_psigma p cols n1) = 0).
    { unfold norm, dot. rewrite (rsum_ext _ _ (fun _ => 0)) by (intros; rewrite PS; ring). rewrite rsum_0. apply sqrt_0. }
    rewrite Z. unfold sigma_init. cbn [p tol_par p_sigma0]. destruct (Rlt_dec 0 1); [|lra]. unfold Rdiv at 1. rewrite Rinv_1, Rmult_1_r, Rmult_1_l. f_equal. unfold Rdiv. ring. }
  assert (F : 0 < sigma_of s / sigma_init p < 1).
  { rewrite SG. split; [apply exp_pos|]. rewrite <- exp_0. apply exp_increasing. destruct HS as (_ & (A1 & _ & _ & _ & _ & A2) & _). change (p_k p) with k24 in *.
    assert (0 < k_csigma k24 / k_dsigma k24) by (apply Rdiv_lt_0_compat; lra). lra. }
  assert (PC : forall i, evo_path s i = 0).
  { intros i. unfold evo_path. rewrite A. unfold update_num. cbn [x_pc]. apply (same_pc p HS cols n1 HB). reflexivity. }
  assert (CV : forall i, (i < 2)%nat -> spread_of p s i = t).
  { intros i Hi. unfold spread_of, cov_of. rewrite A. cbn [p tol_par p_k k_sep k_vd]. change (k_sep k24 || k_vd k24)%bool with false. cbn iota. unfold t. f_equal.
    unfold update_num. cbn [x_cov p_upd p tol_par p_k]. change (k_sep k24) with false. cbn iota. fold p. fold n1. unfold rank_mu_cov.
    rewrite (same_spread p cols n1 HB), !(same_pc p HS cols n1 HB) by reflexivity.
    unfold keep_rate. rewrite (same_hsig p HS cols n1 HB); [|reflexivity|exact V|reflexivity|apply (chi_pos 2); lra].
    change (p_k p) with k24. change (x_cov n1 i i) with (ident i i). replace (ident i i) with 1 by (unfold ident, diag; rewrite Nat.eqb_refl; reflexivity). unfold c. ring. }
  split; [apply k24_constructed|]. split; [reflexivity|]. split; [repeat split|].
  split; [change (p_xtol p) with t; lra|]. split; [exact E0|]. split; [repeat constructor|]. split; [exact E|]. split.
  - intros i Hi. change (k_dim (p_k p)) with 2%nat in Hi. rewrite CV, PC, Rabs_R0 by auto. change (p_xtol p) with t. nra.
  - destruct (criterion (cma_num p) (cfg_of k24) 2 (t_sol s)) as [[|]|] eqn:Q; try reflexivity.
    + exfalso. destruct (proj1 (tolx_iff p (cfg_of k24) s) Q 0%nat) as [_ B]; [cbn; lia|]. rewrite CV in B by lia. change (p_xtol p) with t in B.
      rewrite Rmax_left in B by lra. nra.
    + cbn in Q. discriminate.
Qed.

(** EQUALFUNVALS: constant objective, default history length. *)
Definition const_e : env Z nat := mk_env (fun _ _ => 0%Z).
Lemma equal_missed : exists s, (do s0 <- st_new demo_no (mk_cfg 2 4) [4; 4]%Z 0%nat; rounds demo_no (mk_cfg 2 4) const_e 30 s0) = Ok s /\
  Z.of_nat (length (s_hist (t_sol s))) = s_maxhist (t_sol s) /\
  Forall (fun c => c_f c = dint 0) (s_hist (t_sol s)) /\ Forall (fun c => c_f c = dint 0) (s_khist (t_sol s)) /\
  criterion demo_no (mk_cfg 2 4) 5 (t_sol s) = Ok false.
Proof.
  eexists. split; [vm_compute; reflexivity|]. split; [vm_compute; reflexivity|].
  split; [vm_compute; repeat constructor|]. split; [vm_compute; repeat constructor|]. vm_compute. reflexivity.
Qed.
(** A history as long as the dimension. *)
Definition short_g : cfg Z := set_g_max_hist 2 (mk_cfg 2 4).
Lemma equal_fires : exists s, (do s0 <- st_new demo_no short_g [4; 4]%Z 0%nat; rounds demo_no short_g const_e 4 s0) = Ok s /\
  length (s_hist (t_sol s)) = length (s_khist (t_sol s)) /\ criterion demo_no short_g 5 (t_sol s) = Ok true.
Proof. eexists. split; [vm_compute; reflexivity|]. split; vm_compute; reflexivity. Qed.
(** Ask, then a generation. *)
Lemma condition_gen p e g s cols phen s' : (1 <= k_dim (p_k p))%nat -> k_sep (p_k p) = false -> k_vd (p_k p) = false -> p_lazy p = false -> eigensolver_ok p ->
  symmetric (k_dim (p_k p)) (cov_of s) -> psd (k_dim (p_k p)) (cov_of s) -> run_ops (cma_num p) e g [OAsk; OGen cols phen] s = Ok s' ->
  (criterion (cma_num p) g (-15) (t_sol s') = Ok true <-> cond_above (k_dim (p_k p)) (cov_of s) (10 ^ 14)).
Proof.
  intros Hd H1 H2 H3 HE HS HP H. cbn [run_ops do_op] in H. apply bind_ok in H as (s1 & A1 & H). apply bind_ok in A1 as ([pop s1'] & A1 & Q). apply Ok_inj in Q. subst s1.
  apply bind_ok in H as (s4 & H & Q). apply Ok_inj in Q. subst s4.
  apply bind_ok in H as (s2 & A2 & H). apply bind_ok in H as (s3 & A3 & H). apply Ok_inj in H. subst s'.
  change (criterion (cma_num p) g (-15) (t_sol (inc_iter s3))) with (criterion (cma_num p) g (-15) (t_sol s3)).
  eapply condition_thm; eauto.
Qed.
Lemma condition_sep_gen p e g s cols phen s' : (1 <= k_dim (p_k p))%nat -> k_sep (p_k p) = true -> run_ops (cma_num p) e g [OGen cols phen] s = Ok s' ->
  (forall i, (i < k_dim (p_k p))%nat -> 0 <= variances_of s' i) ->
  (criterion (cma_num p) g (-15) (t_sol s') = Ok true <->
   exists i j, (i < k_dim (p_k p))%nat /\ (j < k_dim (p_k p))%nat /\ 10 ^ 14 * variances_of s' j < variances_of s' i).
Proof.
  intros Hd H1 H HP. cbn [run_ops do_op] in H. apply bind_ok in H as (s4 & H & Q). apply Ok_inj in Q. subst s4.
  apply bind_ok in H as (s2 & A2 & H). apply bind_ok in H as (s3 & A3 & H). apply Ok_inj in H. subst s'.
  apply (condition_sep_thm p e g s2 s3 Hd H1 A3). exact HP.
Qed.
Lemma upsigma_gen p e g s cols phen s' : (1 <= k_dim (p_k p))%nat -> k_sep (p_k p) = false -> k_vd (p_k p) = false -> p_lazy p = false -> eigensolver_ok p ->
  symmetric (k_dim (p_k p)) (cov_of s) -> run_ops (cma_num p) e g [OAsk; OGen cols phen] s = Ok s' ->
  (criterion (cma_num p) g (-13) (t_sol s') = Ok true <->
   forall u, dot (k_dim (p_k p)) u u = 1 -> 10 ^ 20 * sqrt (quad (k_dim (p_k p)) (cov_of s) u) < sigma_of s' / sigma_init p).
Proof.
  intros Hd H1 H2 H3 HE HS H. cbn [run_ops do_op] in H. apply bind_ok in H as (s1 & A1 & H). apply bind_ok in A1 as ([pop s1'] & A1 & Q). apply Ok_inj in Q. subst s1.
  apply bind_ok in H as (s4 & H & Q). apply Ok_inj in Q. subst s4.
  apply bind_ok in H as (s2 & A2 & H). apply bind_ok in H as (s3 & A3 & H). apply Ok_inj in H. subst s'.
  change (criterion (cma_num p) g (-13) (t_sol (inc_iter s3))) with (criterion (cma_num p) g (-13) (t_sol s3)).
  change (sigma_of (inc_iter s3)) with (sigma_of s3). eapply upsigma_thm; eauto.
Qed.
Lemma upsigma_sep_gen p e g s cols phen s' : (1 <= k_dim (p_k p))%nat -> k_sep (p_k p) = true -> run_ops (cma_num p) e g [OGen cols phen] s = Ok s' ->
  (criterion (cma_num p) g (-13) (t_sol s') = Ok true <->
   forall i, (i < k_dim (p_k p))%nat -> 10 ^ 20 * sqrt (variances_of s' i) < sigma_of s' / sigma_init p).
Proof.
  intros Hd H1 H. cbn [run_ops do_op] in H. apply bind_ok in H as (s4 & H & Q). apply Ok_inj in Q. subst s4.
  apply bind_ok in H as (s2 & A2 & H). apply bind_ok in H as (s3 & A3 & H). apply Ok_inj in H. subst s'.
  exact (upsigma_sep_thm p e g s2 s3 Hd H1 A3).
Qed.
Lemma ident_sym n : symmetric n ident.
Proof. intros i j _ _. unfold ident, diag. destruct (Nat.eqb_spec i j), (Nat.eqb_spec j i); congruence. Qed.
Lemma ident_pd n : pos_def n ident.
Proof.
  intros x (i & Hi & N). rewrite quad_ident. destruct (Req_dec (dot n x x) 0) as [E|E].
  - exfalso. apply N. apply (dot_self_zero n x E i Hi).
  - pose proof (dot_self_nonneg n x). lra.
Qed.
Lemma condition_example : let p := npar_eig k24 Full eig2 in exists s0 s, st_new (cma_num p) (cfg_of k24) [1; 2] num0 = Ok s0 /\
  symmetric 2 (cov_of s0) /\ pos_def 2 (cov_of s0) /\ run_ops (cma_num p) flat_env (cfg_of k24) [OAsk; OGen [[1; 2]; [3; 1]; [0; 2]; [1; 5]] []] s0 = Ok s.
Proof.
  cbv zeta. set (p := npar_eig k24 Full eig2). assert (HL : (2 <= k_lambda (p_k p))%nat) by (cbn; lia).
  destruct (ask_flat_generation p HL (fun i v H => match H with end) [[1; 2]; [3; 1]; [0; 2]; [1; 5]] [1; 2] num0 eq_refl) as (s0 & s & m & E0 & E & _).
  exists s0, s. assert (C : cov_of s0 = ident) by (apply st_new_num in E0; unfold cov_of; rewrite E0; reflexivity). rewrite C.
  split; [exact E0|]. split; [apply ident_sym|]. split; [apply ident_pd|exact E].
Qed.
