(** TOLX looks at the sign of the evolution path. *)
From Coq Require Import Reals List Lia Lra ZArith.
From Verif Require Import Base Dbl Vec VecProofs Params SpecParams ParamsProofs Config Search SpecSearch Update SpecUpdate UpdateProofs UpdateProofs2 ParamSound DemoNum DemoNumProofs NumThms ActiveThms SpecCrit StopProofs.
Import ListNotations.
Local Open Scope R_scope.

Definition sgn_par (x : R) : npar := mkNpar (set_sep k24) Full 1 false x 0.3 (/ 10000000) (fun _ => (fun _ => 0, ident)) (fun _ => 0) (fun _ => 1 / 2)
  (fun x => x) (fun x => x) (fun _ => None) (fun x => x).
Local Notation k := (set_sep k24).
Local Notation m := (muw_of 2).
Definition sgn_ccv : R := (4 + muw_of 2 / 2) / (2 + 4 + 2 * muw_of 2 / 2).
Local Notation cc := sgn_ccv.
Local Notation cs := (k_csigma k).
Lemma sgn_sound : sound_params k.
Proof. apply constructed_sound, k24_sep_constructed. Qed.
Lemma sgn_pc : k_fact_pc k = sqrt (cc * (2 - cc) * m).
Proof. reflexivity. Qed.
Lemma sgn_ps : k_fact_ps k = sqrt (cs * (2 - cs) * m).
Proof. reflexivity. Qed.
Lemma sgn_cc : 0.6 <= cc <= 1.
Proof.
  pose proof muw_2 as B. unfold sgn_ccv. split.
  - apply Rmult_le_reg_r with (2 + 4 + 2 * m / 2); [lra|]. unfold Rdiv at 2. rewrite Rmult_assoc, Rinv_l by lra. lra.
  - apply Rmult_le_reg_r with (2 + 4 + 2 * m / 2); [lra|]. unfold Rdiv at 1. rewrite Rmult_assoc, Rinv_l by lra. lra.
Qed.
Lemma sgn_cs : 0 < cs < 1.
Proof.
  pose proof muw_2 as B. change cs with ((m + 2) / (2 + m + 5)). split.
  - apply Rdiv_lt_0_compat; lra.
  - apply Rmult_lt_reg_r with (2 + m + 5); [lra|]. unfold Rdiv. rewrite Rmult_assoc, Rinv_l by lra. lra.
Qed.
Lemma sgn_rates : 0 <= k_c1 k <= 1 / 3 /\ 0 <= k_cmu k <= 1 / 4.
Proof.
  pose proof muw_2 as B. pose proof muw_2_poly as B'.
  assert (C : 0 <= k_c1 k <= 1 / 3).
  { change (k_c1 k) with (2 / ((2 + 1.3) * (2 + 1.3) + m) * ((2 + 2) / 3)).
    assert (2 / ((2 + 1.3) * (2 + 1.3) + m) <= 1 / 4) by (apply div_le; lra). assert (0 < 2 / ((2 + 1.3) * (2 + 1.3) + m)) by (apply Rdiv_lt_0_compat; lra). lra. }
  split; [exact C|]. change (k_cmu k) with (Rmin (1 - k_c1 k) ((0.3 + m - 2 + 1 / m) / (2 + 4 * sqrt 2 + m / 2))).
  assert (1 <= sqrt 2) by (rewrite <- sqrt_1 at 1; apply sqrt_le_1; lra). split.
  - apply Rmin_glb; [lra|]. apply Rmult_le_pos; [|left; apply Rinv_0_lt_compat; lra].
    assert (2 <= m + 1 / m); [|lra]. apply Rmult_le_reg_r with m; [lra|]. rewrite Rmult_plus_distr_r. unfold Rdiv. rewrite Rmult_assoc, Rinv_l by lra. nra.
  - eapply Rle_trans; [apply Rmin_r|]. apply div_le; lra.
Qed.
Lemma sgn_chi : 1.2 <= k_chi k.
Proof.
  change (k_chi k) with (sqrt 2 * (1 - 1 / (4 * 2) + 1 / (21 * 2 * 2))).
  assert (1.4 <= sqrt 2); [|nra]. rewrite <- (sqrt_square 1.4) by lra. apply sqrt_le_1; lra.
Qed.
Definition sgn_state (x : R) (b : R) (j : nat) : num := update_num (sgn_par x) 0 (repeat [b; 0] 4) (with_pos (eigen_num (sgn_par x) 0 (new_num (sgn_par x) [0; 0] num0)) j (x_upos num0)).
Section Sgn.
Variables (x b : R) (j : nat).
Let p := sgn_par x.
Let n := with_pos (eigen_num p 0 (new_num p [0; 0] num0)) j (x_upos num0).
Let xs := repeat [b; 0] 4.
Hypothesis Hb : b * b * m = 4.
Lemma sgn_w : wgt p 0%nat + wgt p 1%nat = 1.
Proof. pose proof (wgt_sum p sgn_sound) as W. change (k_mu (p_k p)) with 2%nat in W. cbn [rsum] in W. lra. Qed.
Lemma sgn_mean0 : new_mean p xs n 0%nat = b.
Proof. unfold new_mean. change (p_upd p) with Full. change (k_mu (p_k p)) with 2%nat. cbv iota. cbn [rsum]. change (pt xs 0%nat 0%nat) with b. change (pt xs 1%nat 0%nat) with b. pose proof sgn_w as W. rewrite Rplus_0_l, <- Rmult_plus_distr_r, W. ring. Qed.
Lemma sgn_mean1 : new_mean p xs n 1%nat = 0.
Proof. unfold new_mean. change (p_upd p) with Full. change (k_mu (p_k p)) with 2%nat. cbv iota. cbn [rsum]. change (pt xs 0%nat 1%nat) with 0. change (pt xs 1%nat 1%nat) with 0. ring. Qed.
Lemma sgn_sig : x_sigma n = 1.
Proof. change (x_sigma n) with (init_sigma p). unfold init_sigma. change (p_sigma0 p) with 1. destruct (Rlt_dec 0 1); [reflexivity|lra]. Qed.
Lemma sgn_step0 : mean_step p xs n 0%nat = b.
Proof. unfold mean_step. change (p_upd p) with Full. cbv iota. rewrite sgn_mean0, sgn_sig. change (x_mean n 0%nat) with 0. field. Qed.
Lemma sgn_step1 : mean_step p xs n 1%nat = 0.
Proof. unfold mean_step. change (p_upd p) with Full. cbv iota. rewrite sgn_mean1, sgn_sig. change (x_mean n 1%nat) with 0. field. Qed.
Lemma sgn_ps0 : new_psigma p xs n 0%nat = k_fact_ps k * b.
Proof. unfold new_psigma. change (p_upd p) with Full. change (k_sep (p_k p)) with true. cbv iota. rewrite sgn_step0. change (x_psigma n 0%nat) with 0. change (x_sep n 0%nat) with 1. change (k_fact_ps (p_k p)) with (k_fact_ps k). replace (1 / 1) with 1 by field. rewrite sqrt_1. ring. Qed.
Lemma sgn_ps1 : new_psigma p xs n 1%nat = 0.
Proof. unfold new_psigma. change (p_upd p) with Full. change (k_sep (p_k p)) with true. cbv iota. rewrite sgn_step1. change (x_psigma n 1%nat) with 0. ring. Qed.
Lemma sgn_norm : norm 2 (new_psigma p xs n) = 2 * sqrt (cs * (2 - cs)).
Proof using Hb.
  unfold norm, dot. cbn [rsum]. rewrite sgn_ps0, sgn_ps1, sgn_ps. pose proof sgn_cs as C. pose proof muw_2 as B.
  assert (Q : 0 <= cs * (2 - cs)) by nra. assert (Q' : 0 <= cs * (2 - cs) * m) by nra.
  replace (0 + sqrt (cs * (2 - cs) * m) * b * (sqrt (cs * (2 - cs) * m) * b) + 0 * 0) with (sqrt (cs * (2 - cs) * m) * sqrt (cs * (2 - cs) * m) * (b * b)) by ring.
  rewrite sqrt_sqrt by exact Q'. replace (cs * (2 - cs) * m * (b * b)) with (2 * 2 * (cs * (2 - cs))) by (rewrite <- (Rmult_1_r 2) at 1; nra).
  rewrite sqrt_mult by lra. rewrite sqrt_square by lra. reflexivity.
Qed.
Lemma sgn_hsig : hsig p 0 xs n = 1.
Proof using Hb.
  unfold hsig. change (k_dim (p_k p)) with 2%nat. rewrite sgn_norm. destruct (Rlt_dec _ _) as [|N]; [reflexivity|exfalso]. apply N. clear N.
  change (2 * Z.to_nat (0 + 1))%nat with 2%nat. change (k_csigma (p_k p)) with cs. change (k_chi (p_k p)) with (k_chi k). change (length (k_fixed (p_k p))) with 0%nat.
  change (INR 2) with 2. change (INR 0) with 0. replace (1 - (1 - cs) ^ 2) with (cs * (2 - cs)) by ring.
  pose proof sgn_chi. pose proof sgn_cs. assert (0 < sqrt (cs * (2 - cs))) by (apply sqrt_lt_R0; nra).
  replace (1.4 + 2 / (2 + 1 - 0)) with (31 / 15) by lra. rewrite Rmult_assoc, Rmult_comm. apply Rmult_lt_compat_l; lra.
Qed.
Lemma sgn_pc0 : new_pc p 0 xs n 0%nat = k_fact_pc k * b.
Proof using Hb. unfold new_pc. rewrite sgn_hsig, sgn_step0. change (x_pc n 0%nat) with 0. change (k_fact_pc (p_k p)) with (k_fact_pc k). ring. Qed.
Lemma sgn_pc1 : new_pc p 0 xs n 1%nat = 0.
Proof using Hb. unfold new_pc. rewrite sgn_hsig, sgn_step1. change (x_pc n 1%nat) with 0. ring. Qed.
Lemma sgn_pc_sqr : 3.36 <= k_fact_pc k * b * (k_fact_pc k * b) <= 4.
Proof using Hb.
  rewrite sgn_pc. pose proof sgn_cc as C. pose proof muw_2 as B. assert (Q : 0 <= cc * (2 - cc) * m) by nra.
  replace (sqrt (cc * (2 - cc) * m) * b * (sqrt (cc * (2 - cc) * m) * b)) with (sqrt (cc * (2 - cc) * m) * sqrt (cc * (2 - cc) * m) * (b * b)) by ring.
  rewrite sqrt_sqrt by exact Q. replace (cc * (2 - cc) * m * (b * b)) with (cc * (2 - cc) * (b * b * m)) by ring. rewrite Hb. nra.
Qed.
Lemma sgn_spread0 : spread p (best_of xs) n 0%nat 0%nat = b * b.
Proof. unfold spread. change (k_mu (p_k p)) with 2%nat. cbn [rsum]. rewrite sgn_sig. change (x_mean n 0%nat) with 0. change (best_of xs 0%nat 0%nat) with b. change (best_of xs 1%nat 0%nat) with b. rewrite Rplus_0_l, <- Rmult_plus_distr_r, sgn_w. field. Qed.
Lemma sgn_spread1 : spread p (best_of xs) n 1%nat 1%nat = 0.
Proof. unfold spread. change (k_mu (p_k p)) with 2%nat. cbn [rsum]. rewrite sgn_sig. change (x_mean n 1%nat) with 0. change (best_of xs 0%nat 1%nat) with 0. change (best_of xs 1%nat 1%nat) with 0. field. Qed.
Lemma sgn_var i : (i < 2)%nat -> 0 <= rank_mu_sep p 0 xs n i <= 2.75.
Proof using Hb.
  intros Hi. destruct sgn_rates as [C D]. pose proof sgn_pc_sqr as P. pose proof muw_2 as B. assert (A : 0 <= b * b <= 4) by nra.
  unfold rank_mu_sep, keep_rate. rewrite sgn_hsig. change (k_c1 (p_k p)) with (k_c1 k). change (k_cmu (p_k p)) with (k_cmu k). change (x_sep n i) with 1.
  destruct i as [|[|i]]; [rewrite sgn_pc0, sgn_spread0|rewrite sgn_pc1, sgn_spread1|lia].
  - set (u := k_fact_pc k * b * (k_fact_pc k * b)) in *. set (v := b * b) in *. set (c1 := k_c1 k) in *. set (cmu := k_cmu k) in *. clearbody u v c1 cmu.
    replace ((1 - c1 - cmu + (1 - 1) * c1 * k_cc (p_k p) * (2 - k_cc (p_k p))) * 1 + c1 * u + cmu * v) with (1 - c1 - cmu + c1 * u + cmu * v) by ring. nra.
  - set (c1 := k_c1 k) in *. set (cmu := k_cmu k) in *. clearbody c1 cmu.
    replace ((1 - c1 - cmu + (1 - 1) * c1 * k_cc (p_k p) * (2 - k_cc (p_k p))) * 1 + c1 * (0 * 0) + cmu * 0) with (1 - c1 - cmu) by ring. lra.
Qed.
Lemma sgn_sigma : x_sigma (sgn_state x b j) = exp (cs / k_dsigma k * (2 * sqrt (cs * (2 - cs)) / k_chi k - 1)).
Proof using Hb. change (x_sigma (sgn_state x b j)) with (new_sigma p 0 xs n). unfold new_sigma. change (k_tpa (p_k p) <? 2)%Z with true. cbv iota. change (k_dim (p_k p)) with 2%nat. rewrite sgn_norm, sgn_sig. change (p_upd p) with Full. cbv iota zeta. apply Rmult_1_l. Qed.
Lemma sgn_state_sep i : x_sep (sgn_state x b j) i = rank_mu_sep p 0 xs n i. Proof. reflexivity. Qed.
Lemma sgn_state_pc i : x_pc (sgn_state x b j) i = new_pc p 0 xs n i. Proof. reflexivity. Qed.
End Sgn.

Lemma sgn_sigma_bound : 0 < exp (cs / k_dsigma k * (2 * sqrt (cs * (2 - cs)) / k_chi k - 1)) <= 3.
Proof.
  split; [apply exp_pos|]. apply Rle_trans with (exp 1); [|apply exp_le_3].
  assert (L : forall a b, a <= b -> exp a <= exp b) by (intros a b [H| ->]; [left; apply exp_increasing; exact H|right; reflexivity]).
  apply L. pose proof sgn_chi as C. pose proof sgn_cs as D.
  assert (E : 1 <= k_dsigma k).
  { change (k_dsigma k) with (dsigma_of cs m 2). unfold dsigma_of. match goal with |- context [Rmax 0 ?z] => pose proof (Rmax_l 0 z) end. lra. }
  assert (F : 0 <= sqrt (cs * (2 - cs)) <= 1).
  { split; [apply sqrt_pos|]. rewrite <- sqrt_1. apply sqrt_le_1; nra. }
  assert (G : 2 * sqrt (cs * (2 - cs)) / k_chi k <= 5 / 3) by (apply div_le; lra).
  assert (H : 0 <= cs / k_dsigma k) by (apply Rmult_le_pos; [lra|left; apply Rinv_0_lt_compat; lra]).
  assert (I : cs / k_dsigma k <= 1) by (apply div_le; lra). nra.
Qed.
Lemma tolx_sign : exists p e g s0 s1 s2 cols,
  constructed (p_k p) /\ p_upd p = Full /\ k_dim (p_k p) = 2%nat /\ same_problem p g /\ / 1000000000000 <= p_xtol p /\
  st_new (cma_num p) g [0; 0] num0 = Ok s0 /\
  run_ops (cma_num p) e g [OAsk; OGen cols []] s0 = Ok s1 /\
  run_ops (cma_num p) e g [OAsk; OGen (map (map Ropp) cols) []] s0 = Ok s2 /\
  sigma_of s1 = sigma_of s2 /\ (forall i, (i < 2)%nat -> variances_of s1 i = variances_of s2 i) /\
  (forall i, (i < 2)%nat -> evo_path s1 i = - evo_path s2 i) /\
  criterion (cma_num p) g 2 (t_sol s1) = Ok false /\ criterion (cma_num p) g 2 (t_sol s2) = Ok true.
Proof.
  pose (sg := exp (cs / k_dsigma k * (2 * sqrt (cs * (2 - cs)) / k_chi k - 1))).
  pose proof sgn_sigma_bound as SB. fold sg in SB.
  pose (a := 2 / sqrt m). pose proof muw_2 as B.
  assert (Q : 0 < sqrt m) by (apply sqrt_lt_R0; lra). assert (QQ : sqrt m * sqrt m = m) by (apply sqrt_sqrt; lra).
  assert (A0 : 0 < a) by (apply Rdiv_lt_0_compat; lra).
  assert (A1 : a * a * m = 4). { unfold a. rewrite <- QQ at 3. field. lra. }
  assert (A2 : - a * - a * m = 4) by (rewrite <- A1; ring).
  pose (x := 7 / 4 / sg). pose (p := sgn_par x).
  assert (HL : (2 <= k_lambda (p_k p))%nat) by (cbn; lia).
  destruct (ask_flat_generation p HL (fun i v H => match H with end) (repeat [a; 0] 4) [0; 0] num0 eq_refl) as (s0 & s1 & j1 & E0 & E1 & N1 & _).
  destruct (ask_flat_generation p HL (fun i v H => match H with end) (repeat [- a; 0] 4) [0; 0] num0 eq_refl) as (s0' & s2 & j2 & E0' & E2 & N2 & _).
  rewrite E0 in E0'. apply Ok_inj in E0'. subst s0'.
  change (s_num (t_sol s1) = sgn_state x a j1) in N1. change (s_num (t_sol s2) = sgn_state x (- a) j2) in N2.
  assert (S1 : sigma_of s1 = sg) by (unfold sigma_of; rewrite N1; apply sgn_sigma; exact A1).
  assert (S2 : sigma_of s2 = sg) by (unfold sigma_of; rewrite N2; apply sgn_sigma; exact A2).
  assert (X : / 1000000000000 <= x).
  { unfold x. apply Rmult_le_reg_r with sg; [lra|]. replace (7 / 4 / sg * sg) with (7 / 4) by (field; lra). lra. }
  assert (TF : Rmax x (/ 1000000000000) * (sg / 1) = 7 / 4).
  { rewrite Rmax_left by exact X. unfold x. field. lra. }
  assert (V : forall i, (i < 2)%nat -> variances_of s1 i = variances_of s2 i).
  { intros i Hi. unfold variances_of. rewrite N1, N2, !sgn_state_sep. unfold rank_mu_sep, keep_rate. rewrite (sgn_hsig x a j1 A1), (sgn_hsig x (- a) j2 A2).
    destruct i as [|[|i]]; [rewrite (sgn_pc0 x a j1 A1), (sgn_pc0 x (- a) j2 A2), !sgn_spread0|rewrite (sgn_pc1 x a j1 A1), (sgn_pc1 x (- a) j2 A2), !sgn_spread1|lia].
    - match goal with |- ?u * ?v + _ + _ = ?u' * ?v' + _ + _ => change v' with v; change u' with u end. ring.
    - reflexivity. }
  assert (P : forall i, (i < 2)%nat -> x_pc (s_num (t_sol s1)) i = - x_pc (s_num (t_sol s2)) i).
  { intros i Hi. rewrite N1, N2, !sgn_state_pc. destruct i as [|[|i]]; [rewrite (sgn_pc0 x a j1 A1), (sgn_pc0 x (- a) j2 A2)|rewrite (sgn_pc1 x a j1 A1), (sgn_pc1 x (- a) j2 A2)|lia]; ring. }
  assert (F : 0 <= k_fact_pc k) by (rewrite sgn_pc; apply sqrt_pos).
  assert (P0 : 7 / 4 <= k_fact_pc k * a).
  { pose proof (sgn_pc_sqr a A1) as W. assert (0 <= k_fact_pc k * a) by (apply Rmult_le_pos; lra). set (z := k_fact_pc k * a) in *. clearbody z. nra. }
  exists p, flat_env, (cfg_of k), s0, s1, s2, (repeat [a; 0] 4).
  split; [apply k24_sep_constructed|]. split; [reflexivity|]. split; [reflexivity|]. split; [repeat split; reflexivity|]. split; [exact X|]. split; [exact E0|]. split; [exact E1|].
  split. { cbn [repeat map]. rewrite Ropp_0. exact E2. }
  split; [congruence|]. split; [exact V|]. split; [exact P|]. split.
  - change (criterion (cma_num p) (cfg_of k) 2 (t_sol s1)) with (@Ok bool (tol_x p (s_num (t_sol s1)))). f_equal.
    destruct (tol_x p (s_num (t_sol s1))) eqn:T; [exfalso|reflexivity]. unfold tol_x, all_below in T. apply andb_prop in T as [T _]. change (k_dim (p_k p)) with 2%nat in T. cbn [seq forallb] in T. apply andb_prop in T as [T _].
    destruct (Rle_dec _ _) as [|NT] in T; [discriminate|]. apply NT. clear NT T. change (x_sigma (s_num (t_sol s1))) with (sigma_of s1). rewrite S1, N1, sgn_state_pc, (sgn_pc0 x a j1 A1).
    replace (init_sigma p) with 1 by (symmetry; exact (sgn_sig x 0)). change (p_xtol p) with x. rewrite TF. exact P0.
  - change (criterion (cma_num p) (cfg_of k) 2 (t_sol s2)) with (@Ok bool (tol_x p (s_num (t_sol s2)))). f_equal.
    unfold tol_x, all_below. change (k_dim (p_k p)) with 2%nat. change (x_sigma (s_num (t_sol s2))) with (sigma_of s2). rewrite S2.
    replace (init_sigma p) with 1 by (symmetry; exact (sgn_sig x 0)). change (p_xtol p) with x. cbv zeta. rewrite TF.
    apply andb_true_intro. split; apply forallb_forall; intros i Hi; apply in_seq in Hi; assert (Hi' : (i < 2)%nat) by lia; destruct (Rle_dec _ _) as [Y|]; auto; exfalso.
    + rewrite N2, sgn_state_pc in Y. destruct i as [|[|i]]; [rewrite (sgn_pc0 x (- a) j2 A2) in Y; nra|rewrite (sgn_pc1 x (- a) j2 A2) in Y; lra|lia].
    + change (variance p (s_num (t_sol s2)) i) with (x_sep (s_num (t_sol s2)) i) in Y. rewrite N2, sgn_state_sep in Y. pose proof (sgn_var x (- a) j2 A2 i Hi') as W.
      assert (sqrt (rank_mu_sep (sgn_par x) 0 (repeat [- a; 0] 4) (with_pos (eigen_num (sgn_par x) 0 (new_num (sgn_par x) [0; 0] num0)) j2 (x_upos num0)) i) < 7 / 4); [|lra].
      rewrite <- (sqrt_square (7 / 4)) by lra. apply sqrt_lt_1; lra.
Qed.
