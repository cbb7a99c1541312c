(** Instances and counterexamples for C82. *)
From Coq Require Import Reals List Lia Lra Psatz ZArith Permutation.
From Verif Require Import Base Dbl Vec VecProofs Params SpecParams ParamsProofs AdaptProofs ParamSound Config Search SpecSearch SpecSafe SearchInv StopProofs SearchThms CounterProofs SafeProofs NumInv Update SpecUpdate UpdateProofs UpdateProofs2 CorrProofs ActiveProofs ActiveThms NumThms SampleProofs SampleThms TpaThms Corr Demo DemoProofs DemoNum DemoNumProofs SpecAlgo SpecRate AlgoProofs AlgoThms.
Import ListNotations.
Local Open Scope R_scope.

(** The calls of a generation, one by one. *)
Lemma first_generation (p : npar) (x0 : list R) cols : (2 <= k_lambda (p_k p))%nat -> k_fixed (p_k p) = [] -> length cols = k_lambda (p_k p) ->
  exists s0 pop s2 s3 s4 m, let g := cfg_of (p_k p) in st_new (cma_num p) g x0 num0 = Ok s0 /\ ask (cma_num p) flat_env g s0 = Ok (pop, s2) /\
    eval (cma_num p) flat_env g cols [] s2 = Ok s3 /\ tell (cma_num p) flat_env g s3 = Ok s4 /\ s_num (t_sol s0) = new_num p x0 num0 /\
    s_num (t_sol s4) = update_num p 0 cols (with_pos (eigen_num p 0 (new_num p x0 num0)) m (x_upos num0)) /\ s_niter (t_sol s0) = 0%Z.
Proof.
  intros HL HF HC. assert (HF' : forall i v, In (i, v) (k_fixed (p_k p)) -> (0 <= i < Z.of_nat (k_dim (p_k p)))%Z) by (rewrite HF; intros i v []).
  destruct (ask_flat_generation p HL HF' cols x0 num0 HC) as (s0 & s & m & E0 & E & N & _). set (g := cfg_of (p_k p)) in *.
  change (run_ops (cma_num p) flat_env g [OAsk; OGen cols []] s0) with (do s1 <- (do r <- ask (cma_num p) flat_env g s0; Ok (snd r)); do s2 <- (do s2 <- eval (cma_num p) flat_env g cols [] s1; do s3 <- tell (cma_num p) flat_env g s2; Ok (inc_iter s3)); Ok s2) in E.
  destruct (ask (cma_num p) flat_env g s0) as [[pop s2]|] eqn:EA; [|discriminate E]. cbn [bind snd] in E.
  destruct (eval (cma_num p) flat_env g cols [] s2) as [s3|] eqn:EE; [|discriminate E]. cbn [bind] in E.
  destruct (tell (cma_num p) flat_env g s3) as [s4|] eqn:ET; [|discriminate E]. cbn [bind] in E. apply Ok_inj in E. subst s.
  exists s0, pop, s2, s3, s4, m. split; [exact E0|]. split; [exact EA|]. split; [exact EE|]. split; [exact ET|].
  split; [apply st_new_num in E0; exact E0|]. split; [exact N|].
  pose proof (started_niter p flat_env g s0 ltac:(econstructor; exact E0)) as H. exact H.
Qed.

(** * set_sep changes the rate of the path but not its normalisation *)
Definition ksep : cpar := set_sep k24.
Lemma two_rates m : 1 <= m <= 2 -> let c := (4 + m / 2) / (2 + 4 + 2 * m / 2) in let cc := (1 + 1 / 2 + m / 2) / (sqrt 2 + 1 / 2 + 2 * m / 2) in 0 < c < cc /\ cc < 1.
Proof.
  intros M. cbv zeta. assert (S1 : sqrt 2 < 1.42) by (apply Rsqr_incrst_0; [rewrite Rsqr_sqrt by lra; unfold Rsqr; lra|apply sqrt_pos|lra]).
  assert (S0 : 1.4 < sqrt 2) by (apply Rsqr_incrst_0; [rewrite Rsqr_sqrt by lra; unfold Rsqr; lra|lra|apply sqrt_pos]).
  split; [split; [apply Rdiv_lt_0_compat; lra|]|].
  - apply (Rmult_lt_reg_r ((2 + 4 + 2 * m / 2) * (sqrt 2 + 1 / 2 + 2 * m / 2))); [apply Rmult_lt_0_compat; lra|].
    replace ((4 + m / 2) / (2 + 4 + 2 * m / 2) * ((2 + 4 + 2 * m / 2) * (sqrt 2 + 1 / 2 + 2 * m / 2))) with ((4 + m / 2) * (sqrt 2 + 1 / 2 + m)) by (field; lra).
    replace ((1 + 1 / 2 + m / 2) / (sqrt 2 + 1 / 2 + 2 * m / 2) * ((2 + 4 + 2 * m / 2) * (sqrt 2 + 1 / 2 + 2 * m / 2))) with ((1 + 1 / 2 + m / 2) * (6 + m)) by (field; lra).
    apply Rle_lt_trans with ((4 + m / 2) * (1.42 + 1 / 2 + m)); [apply Rmult_le_compat_l; lra|nra].
  - apply (Rmult_lt_reg_r (sqrt 2 + 1 / 2 + 2 * m / 2)); [lra|].
    replace ((1 + 1 / 2 + m / 2) / (sqrt 2 + 1 / 2 + 2 * m / 2) * (sqrt 2 + 1 / 2 + 2 * m / 2)) with (1 + 1 / 2 + m / 2) by (field; lra). lra.
Qed.
Section Sep.
Variable k : cpar.
Hypothesis KC : constructed k.
Hypothesis KD : k_dim k = 2%nat.
Hypothesis KL : k_lambda k = 4%nat.
Hypothesis KF : k_fixed k = [].
Hypothesis KS : k_sep k = true.
Hypothesis KV : k_vd k = false.
Hypothesis KX : 0 < k_chi k.
Hypothesis KN : default_cc k < k_cc k < 1 /\ 0 < default_cc k.
Let p := npar_of k Full.
Let T := sqrt (1 - (1 - k_csigma k) ^ 2) * (1.4 + 2 / 3) * k_chi k.
Let delta := T / (2 * k_fact_ps k + 1).
Let cols := repeat [delta; delta] 4.
Lemma T_pos : 0 < T.
Proof using KC KX.
  clear KD KL KF KS KV KN. pose proof (constructed_sound _ KC) as (_ & (CS & _) & _). unfold T. apply Rmult_lt_0_compat; [|exact KX]. apply Rmult_lt_0_compat; [|lra].
  apply sqrt_lt_R0. assert ((1 - k_csigma k) ^ 2 < 1) by (apply pow_lt_1_compat; [lra|lia]). lra.
Qed.
Lemma fact_nonneg : 0 <= k_fact_ps k.
Proof using KC. destruct (constructed_norm _ KC) as (_ & -> & _). apply sqrt_pos. Qed.
Lemma delta_pos : 0 < delta.
Proof using KC KX. clear KD KL KF KS KV KN. unfold delta. apply Rdiv_lt_0_compat; [apply T_pos|]. pose proof fact_nonneg. lra. Qed.
Lemma sep_refutation : exists s0 pop s2 s3 s4, st_new (cma_num p) (cfg_of k) [0; 0] num0 = Ok s0 /\ ask (cma_num p) flat_env (cfg_of k) s0 = Ok (pop, s2) /\
  eval (cma_num p) flat_env (cfg_of k) cols [] s2 = Ok s3 /\ tell (cma_num p) flat_env (cfg_of k) s3 = Ok s4 /\
  ~ cov_path_rule k (s_niter (t_sol s0)) (dist_of p s0) (dist_of p s4) (k_cc k).
Proof using KC KD KL KF KS KV KX KN.
  destruct (first_generation p [0; 0] cols) as (s0 & pop & s2 & s3 & s4 & m & G); [cbn; lia|exact KF|cbn; rewrite KL; reflexivity|].
  cbv zeta in G. change (p_k p) with k in G. destruct G as (E0 & EA & EE & ET & N0 & N4 & I0).
  exists s0, pop, s2, s3, s4. do 4 (split; [assumption|]). intros CP. rewrite I0 in CP.
  set (n := with_pos (eigen_num p 0 (new_num p [0; 0] num0)) m (x_upos num0)) in *.
  assert (EN : eigen_num p 0 (new_num p [0; 0] num0) = with_solver (new_num p [0; 0] num0) true 0 (init_mean p [0; 0]) (x_dec num0)).
  { unfold eigen_num. change (p_k p) with k. rewrite KS. reflexivity. }
  assert (XM : x_mean n = init_mean p [0; 0]) by (unfold n; rewrite EN; reflexivity).
  assert (XG : x_sigma n = 1). { unfold n. rewrite EN. change (init_sigma p = 1). unfold init_sigma. change (p_sigma0 p) with 1. destruct (Rlt_dec 0 1); [reflexivity|exfalso; lra]. }
  assert (XP : x_psigma n = fun _ => 0) by (unfold n; rewrite EN; reflexivity).
  assert (XC : x_pc n = fun _ => 0) by (unfold n; rewrite EN; reflexivity).
  assert (XS : x_sep n = fun _ => 1) by (unfold n; rewrite EN; reflexivity).
  assert (XS0 : 0 < x_sigma n) by lra.
  assert (E1 : d_mean (dist_of p s0) = x_mean n) by (unfold dist_of; rewrite N0, XM; reflexivity).
  assert (E2 : d_sigma (dist_of p s0) = x_sigma n). { unfold dist_of. rewrite N0. unfold n. rewrite EN. reflexivity. }
  assert (E4 : d_pc (dist_of p s0) = x_pc n) by (unfold dist_of; rewrite N0, XC; reflexivity).
  assert (F1 : d_mean (dist_of p s4) = new_mean p cols n) by (unfold dist_of; rewrite N4; reflexivity).
  assert (F3 : d_ps (dist_of p s4) = new_psigma p cols n) by (unfold dist_of; rewrite N4; reflexivity).
  assert (F4 : d_pc (dist_of p s4) = new_pc p 0 cols n) by (unfold dist_of; rewrite N4; reflexivity).
  pose proof delta_pos as DP. pose proof fact_nonneg as FP. pose proof T_pos as TP.
  assert (NM : forall i, (i < 2)%nat -> new_mean p cols n i = delta).
  { intros i Hi. rewrite (new_mean_sum p (constructed_sound _ KC)). rewrite (rsum_ext _ _ (fun l => wgt p l * delta)).
    - rewrite rsum_scal_r, (wgt_sum p (constructed_sound _ KC)). ring.
    - intros l Hl. f_equal. assert (L4 : (l < 4)%nat). { pose proof (constructed_sound _ KC) as (_ & _ & GW & _). destruct GW as (_ & _ & Q & _). change (p_k p) with k in Hl. lia. }
      unfold pt, at0, cols. destruct l as [|[|[|[|]]]]; [| | | |lia]; (destruct i as [|[|]]; [reflexivity|reflexivity|lia]). }
  assert (MS : forall i, (i < 2)%nat -> mean_step p cols n i = delta).
  { intros i Hi. rewrite <- (y_step p cols n (dist_of p s0) (dist_of p s4) E1 E2 F1 XS0 i). unfold y_mean. rewrite F1, E1, E2, XG, XM, (NM i Hi).
    unfold init_mean. cbn [p npar_of p_scale p_k]. rewrite KF, KD, at0_tab by exact Hi. cbn [put_fixed fold_left]. destruct i as [|[|]]; [| |lia]; cbn; field. }
  assert (PS : forall i, (i < 2)%nat -> new_psigma p cols n i = k_fact_ps k * delta).
  { intros i Hi. unfold new_psigma. change (p_k p) with k. change (p_upd p) with Full. cbv iota. rewrite KS, (MS i Hi), XP, XS. replace (1 / 1) with 1 by field. rewrite sqrt_1. ring. }
  assert (HH : h_sigma k 0 (dist_of p s4) = 1).
  { refine (eq_trans (rule_h p KC 0 cols n (dist_of p s4) ltac:(lia) F3) _). unfold hsig. change (p_k p) with k. rewrite KD, KF. cbn [length INR].
    replace (2 * Z.to_nat (0 + 1))%nat with 2%nat by lia.
    destruct (Rlt_dec _ _) as [_|B]; [reflexivity|exfalso; apply B]. replace (1.4 + 2 / (1 + 1 + 1 - 0)) with (1.4 + 2 / 3) by lra. fold T.
    unfold norm, dot. cbn [rsum]. rewrite !PS by lia.
    apply Rle_lt_trans with (2 * (k_fact_ps k * delta)).
    - rewrite <- (sqrt_Rsqr (2 * (k_fact_ps k * delta))) by (apply Rmult_le_pos; [lra|apply Rmult_le_pos; lra]). apply sqrt_le_1_alt. unfold Rsqr.
      assert (0 <= k_fact_ps k * delta * (k_fact_ps k * delta)) by (apply (Rle_0_sqr (k_fact_ps k * delta))). lra.
    - unfold delta. apply (Rmult_lt_reg_r (2 * k_fact_ps k + 1)); [lra|]. replace (2 * (k_fact_ps k * (T / (2 * k_fact_ps k + 1))) * (2 * k_fact_ps k + 1)) with (T * (2 * k_fact_ps k)) by (field; lra). nra. }
  pose proof (rule_pc p KC 0 cols n (dist_of p s0) (dist_of p s4) ltac:(lia) E1 E2 E4 F1 F3 F4 XS0 (default_cc k)) as DP0.
  destruct (constructed_norm _ KC) as (M & _ & N1 & _). cbv zeta in N1.
  assert (CP' : cov_path_rule k 0 (dist_of p s0) (dist_of p s4) (default_cc k)). { apply DP0. change (p_k p) with k. rewrite N1. unfold default_cc. rewrite <- M. reflexivity. }
  assert (Y : y_mean (dist_of p s0) (dist_of p s4) 0%nat = delta). { rewrite (y_step p cols n (dist_of p s0) (dist_of p s4) E1 E2 F1 XS0). apply MS. lia. }
  specialize (CP 0%nat ltac:(lia)). specialize (CP' 0%nat ltac:(lia)). rewrite HH, Y in CP, CP'. rewrite CP in CP'. clear - CP' DP KN KC M.
  pose proof (constructed_muw _ KC) as MU. rewrite M in MU. set (c := default_cc k) in *. set (cc := k_cc k) in *. set (w := mu_eff (k_w k)) in *.
  assert (Q : sqrt (cc * (2 - cc) * w) = sqrt (c * (2 - c) * w)) by (apply (Rmult_eq_reg_r delta); lra).
  assert (P1 : 0 < c * (2 - c)) by (apply Rmult_lt_0_compat; lra). assert (P2 : c * (2 - c) < cc * (2 - cc)) by nra.
  assert (c * (2 - c) * w < cc * (2 - cc) * w) by (apply Rmult_lt_compat_r; lra).
  assert (0 < c * (2 - c) * w) by (apply Rmult_lt_0_compat; lra).
  apply sqrt_inj in Q; lra.
Qed.
End Sep.
Lemma ksep_norm : default_cc ksep < k_cc ksep < 1 /\ 0 < default_cc ksep.
Proof.
  destruct (constructed_norm _ k24_sep_constructed) as (M & _). fold ksep in M. unfold default_cc. rewrite <- M.
  change (k_muw ksep) with (muw_of 2). change (k_cc ksep) with ((1 + 1 / 2 + muw_of 2 / 2) / (sqrt 2 + 1 / 2 + 2 * muw_of 2 / 2)). change (INR (k_dim ksep)) with 2.
  pose proof (two_rates (muw_of 2) muw_2) as H. cbv zeta in H. lra.
Qed.
Lemma sep_refuted_thm : exists p e g x0 n0 s0 pop s2 cols s3 s4,
  constructed (p_k p) /\ p_upd p = Full /\ k_sep (p_k p) = true /\ k_vd (p_k p) = false /\ k_c1 (p_k p) + k_cmu (p_k p) < 1 /\ (k_tpa (p_k p) < 2)%Z /\ g_uh g = false /\
  st_new (cma_num p) g x0 n0 = Ok s0 /\ ask (cma_num p) e g s0 = Ok (pop, s2) /\ eval (cma_num p) e g cols [] s2 = Ok s3 /\ tell (cma_num p) e g s3 = Ok s4 /\
  forall b, ~ sep_step (p_k p) 0 (map c_x (s_cands (t_sol s4))) b (k_cc (p_k p)) (dist_of p s0) (dist_of p s4).
Proof.
  assert (CH : 0 < k_chi ksep) by (apply (chi_pos 2); lra).
  destruct (sep_refutation ksep k24_sep_constructed eq_refl eq_refl eq_refl eq_refl eq_refl CH ksep_norm) as (s0 & pop & s2 & s3 & s4 & E0 & EA & EE & ET & H).
  eexists (npar_of ksep Full), flat_env, (cfg_of ksep), [0; 0], num0, s0, pop, s2, _, s3, s4.
  split; [exact k24_sep_constructed|]. do 3 (split; [reflexivity|]). split; [exact k24_sep_rates|]. split; [cbn; lia|]. split; [reflexivity|].
  split; [exact E0|]. split; [exact EA|]. split; [exact EE|]. split; [exact ET|].
  intros b (_ & _ & C & _). apply H. rewrite (started_niter (npar_of ksep Full) flat_env (cfg_of ksep) s0 ltac:(econstructor; exact E0)). exact C.
Qed.

(** * VD: the path is not whitened *)
Lemma mv_linear n a x y i : mv n a (fun j => x j - y j) i = mv n a x i - mv n a y i.
Proof. unfold mv. rewrite <- rsum_minus. apply rsum_ext. intros. ring. Qed.
Lemma pd_injective n a x : pos_def n a -> (forall i, (i < n)%nat -> mv n a x i = 0) -> forall i, (i < n)%nat -> x i = 0.
Proof.
  intros P H i Hi. destruct (Req_dec (x i) 0) as [E|E]; [exact E|exfalso]. assert (Q : 0 < quad n a x) by (apply P; exists i; auto).
  unfold quad, dot in Q. rewrite (rsum_ext n _ (fun _ => 0)) in Q by (intros j Hj; rewrite (H j Hj); ring). rewrite rsum_0 in Q. lra.
Qed.
(** Whatever the inverse square root, the whitened vector of C z has the length of z in the metric C. *)
Lemma white_norm n b c z : inverse_root n b c -> pos_def n c -> dot n (mv n b (mv n c z)) (mv n b (mv n c z)) = quad n c z.
Proof.
  intros (S & P & I) PC. set (r := mv n b (mv n c z)).
  assert (B : forall x i, (i < n)%nat -> mv n b (mv n c (mv n b x)) i = x i).
  { intros x i Hi. transitivity (mv n (fun i j => rsum n (fun l => rsum n (fun m => b i l * c l m * b m j))) x i).
    - unfold mv. rewrite (rsum_ext n _ (fun l => rsum n (fun j => rsum n (fun m => b i l * c l m * b m j) * x j))).
      + rewrite rsum_swap. apply rsum_ext. intros j _. rewrite <- rsum_scal_r. reflexivity.
      + intros l _. rewrite <- rsum_scal. rewrite (rsum_ext n _ (fun m => rsum n (fun j => b i l * c l m * b m j * x j))).
        * rewrite rsum_swap. apply rsum_ext. intros j _. rewrite <- rsum_scal_r. reflexivity.
        * intros m _. rewrite <- !rsum_scal. apply rsum_ext. intros j _. ring.
    - rewrite (mv_ext n _ ident x x) by (auto; intros; unfold ident, diag; apply I; auto). apply mv_ident, Hi. }
  assert (Z : forall i, (i < n)%nat -> z i = mv n b r i).
  { intros i Hi. enough (z i - mv n b r i = 0) by lra. revert i Hi. apply (pd_injective n c (fun i => z i - mv n b r i) PC).
    apply (pd_injective n b _ P). intros i Hi. rewrite (mv_ext n b b _ (fun j => mv n c z j - mv n c (mv n b r) j)); auto; [|intros j _; apply mv_linear].
    rewrite mv_linear, (B r i Hi). fold r. unfold r. ring. }
  unfold quad. rewrite (dot_ext n z (mv n b r) (mv n c z) (mv n c z)) by auto. rewrite <- (dot_mv_sym n b r (mv n c z) S). reflexivity.
Qed.
Definition kvd6 : cpar := set_vd (set_algo 12 (cma_params 6 4)).
Section VdPath.
Variable k : cpar.
Hypothesis KD : k_dim k = 6%nat.
Hypothesis KL : k_lambda k = 4%nat.
Hypothesis KM : k_mu k = 2%nat.
Hypothesis KW : length (k_w k) = 2%nat /\ sumR (k_w k) = 1.
Hypothesis KV : k_vd k = true.
Hypothesis KF : k_fixed k = [].
Hypothesis KP : k_fact_ps k = sqrt (k_csigma k * (2 - k_csigma k) * mu_eff (k_w k)).
Hypothesis KQ : 0 < k_fact_ps k.
Let p := pvd k.
Let y : vec := fun i => match i with 0%nat => -1 | 1%nat => 1 | _ => 0 end.
Let cols := repeat [-1; 1; 0; 0; 0; 0] 4.
Lemma vd_path : exists s0 pop s2 s3 s4, st_new (cma_num p) (cfg_of k) (repeat 0 6) num0 = Ok s0 /\ ask (cma_num p) flat_env (cfg_of k) s0 = Ok (pop, s2) /\
  eval (cma_num p) flat_env (cfg_of k) cols [] s2 = Ok s3 /\ tell (cma_num p) flat_env (cfg_of k) s3 = Ok s4 /\ pos_def 6 (d_cov (dist_of p s0)) /\
  forall b, inverse_root 6 b (d_cov (dist_of p s0)) -> ~ sigma_path_rule k (dist_of p s0) (dist_of p s4) b.
Proof using KD KL KM KW KV KF KP KQ.
  destruct (first_generation p (repeat 0 6) cols) as (s0 & pop & s2 & s3 & s4 & m & G); [cbn; lia|exact KF|cbn; rewrite KL; reflexivity|].
  cbv zeta in G. change (p_k p) with k in G. destruct G as (E0 & EA & EE & ET & N0 & N4 & _).
  exists s0, pop, s2, s3, s4. do 4 (split; [assumption|]).
  set (n := with_pos (eigen_num p 0 (new_num p (repeat 0 6) num0)) m (x_upos num0)) in *.
  assert (EN : eigen_num p 0 (new_num p (repeat 0 6) num0) = with_solver (new_num p (repeat 0 6) num0) true 0 (init_mean p (repeat 0 6)) (x_dec num0)).
  { unfold eigen_num. change (p_k p) with k. rewrite KV, orb_true_r. reflexivity. }
  assert (XM : x_mean n = init_mean p (repeat 0 6)) by (unfold n; rewrite EN; reflexivity).
  assert (XG : x_sigma n = 1). { unfold n. rewrite EN. change (init_sigma p = 1). unfold init_sigma. change (p_sigma0 p) with 1. destruct (Rlt_dec 0 1); [reflexivity|exfalso; lra]. }
  assert (XP : x_psigma n = fun _ => 0) by (unfold n; rewrite EN; reflexivity).
  assert (XS : x_sep n = fun _ => 1) by (unfold n; rewrite EN; reflexivity).
  set (q := 1 / sqrt (INR 6)).
  assert (XV : x_v n = fun _ => q). { unfold n. rewrite EN. change ((if k_vd (p_k p) then init_v p (x_pos num0) else fun _ => 0) = fun _ => q). change (p_k p) with k. rewrite KV. unfold init_v. change (p_k p) with k. rewrite KD. reflexivity. }
  assert (QQ : q * q = 1 / 6).
  { unfold q. assert (SQ : sqrt (INR 6) * sqrt (INR 6) = 6) by (rewrite sqrt_sqrt; cbn; lra). assert (0 < sqrt (INR 6)) by (apply sqrt_lt_R0; cbn; lra).
    replace (1 / sqrt (INR 6) * (1 / sqrt (INR 6))) with (1 / (sqrt (INR 6) * sqrt (INR 6))) by (field; lra). rewrite SQ. reflexivity. }
  assert (XS0 : 0 < x_sigma n) by lra.
  assert (E1 : d_mean (dist_of p s0) = x_mean n) by (unfold dist_of; rewrite N0, XM; reflexivity).
  assert (E2 : d_sigma (dist_of p s0) = x_sigma n). { unfold dist_of. rewrite N0. unfold n. rewrite EN. reflexivity. }
  assert (E3 : d_ps (dist_of p s0) = fun _ => 0) by (unfold dist_of; rewrite N0; reflexivity).
  assert (F1 : d_mean (dist_of p s4) = new_mean p cols n) by (unfold dist_of; rewrite N4; reflexivity).
  assert (F3 : d_ps (dist_of p s4) = new_psigma p cols n) by (unfold dist_of; rewrite N4; reflexivity).
  assert (CV : forall i j, d_cov (dist_of p s0) i j = ident i j + q * q).
  { intros i j. unfold dist_of, full_cov. cbn [d_cov]. change (p_k p) with k. rewrite KV, orb_true_r. cbn [negb]. unfold vd_cov. rewrite N0.
    assert (X1 : x_sep (new_num p (repeat 0 6) num0) = x_sep n) by (rewrite XS; reflexivity).
    assert (X2 : x_v (new_num p (repeat 0 6) num0) = x_v n). { unfold n. rewrite EN. reflexivity. }
    rewrite X1, X2, XS, XV. unfold ident, diag. ring. }
  assert (PD : pos_def 6 (d_cov (dist_of p s0))).
  { intros x HX. rewrite (quad_ext 6 _ (fun i j => ident i j + q * q)) by (intros; apply CV).
    rewrite (quad_plus 6 ident (fun i j => q * q)), quad_ident, (quad_outer 6 (fun _ => q)).
    destruct HX as (i & Hi & Hx). assert (0 < dot 6 x x). { pose proof (dot_self_nonneg 6 x). destruct (Req_dec (dot 6 x x) 0) as [E|E]; [exfalso; apply Hx, (dot_self_zero 6 x E i Hi)|lra]. }
    pose proof (Rle_0_sqr (dot 6 (fun _ => q) x)) as R0. unfold Rsqr in R0. lra. }
  split; [exact PD|]. intros b HB SP.
  assert (NM : forall i, (i < 6)%nat -> new_mean p cols n i = y i).
  { intros i Hi. unfold new_mean. cbn [p pvd p_upd p_k]. rewrite KM. destruct KW as [W1 W2]. cbn [rsum].
    assert (P1 : forall c, (c < 2)%nat -> pt cols c i = y i).
    { intros c Hc. unfold pt, at0, cols. destruct c as [|[|]]; [| |lia]; do 6 (destruct i as [|i]; [reflexivity|]); lia. }
    rewrite !P1 by lia. unfold wgt. cbn [p pvd p_k]. destruct (k_w k) as [|u [|w [|]]]; try discriminate W1. cbn [nth sumR fold_right] in *. replace w with (1 - u) by lra. ring. }
  assert (Y : forall i, (i < 6)%nat -> y_mean (dist_of p s0) (dist_of p s4) i = y i).
  { intros i Hi. unfold y_mean. rewrite F1, E1, E2, XG, XM, (NM i Hi). unfold init_mean. cbn [p pvd p_scale p_k]. rewrite KF, KD, at0_tab by exact Hi. cbn [put_fixed fold_left].
    unfold at0. rewrite nth_repeat. field. }
  assert (PS : forall i, (i < 6)%nat -> new_psigma p cols n i = k_fact_ps k * (1 / sqrt (1 + 1 / 6)) * y i).
  { intros i Hi. unfold new_psigma. change (p_k p) with k. change (p_upd p) with Vd. cbv iota. rewrite <- (y_step p cols n (dist_of p s0) (dist_of p s4) E1 E2 F1 XS0 i), (Y i Hi), XP, XS, XV, QQ. field.
    assert (0 < sqrt (1 + 1 / 6)) by (apply sqrt_lt_R0; lra). lra. }
  assert (CY : forall i, (i < 6)%nat -> mv 6 (d_cov (dist_of p s0)) y i = y i).
  { intros i Hi. rewrite (mv_ext 6 _ (fun a c => ident a c + q * q) y y) by (auto; intros; apply CV). unfold mv.
    rewrite (rsum_ext 6 _ (fun j => ident i j * y j + q * q * y j)) by (intros; ring). rewrite rsum_plus, rsum_scal. fold (mv 6 ident y i). rewrite mv_ident by exact Hi. cbn [rsum y]. ring. }
  assert (QY : quad 6 (d_cov (dist_of p s0)) y = 2).
  { unfold quad. rewrite (dot_ext 6 y y _ y) by auto. unfold dot. cbn [rsum y]. ring. }
  pose proof (white_norm 6 b _ y HB PD) as WN. rewrite QY in WN. set (r := mv 6 b (mv 6 (d_cov (dist_of p s0)) y)) in *.
  assert (RI : forall i, (i < 6)%nat -> r i = 1 / sqrt (1 + 1 / 6) * y i).
  { intros i Hi. specialize (SP i ltac:(lia)). rewrite F3, E3, (PS i Hi), <- KP, KD in SP.
    rewrite (mv_ext 6 b b _ (mv 6 (d_cov (dist_of p s0)) y)) in SP; auto; [|intros j Hj; rewrite (Y j Hj), (CY j Hj); reflexivity]. fold r in SP.
    apply (Rmult_eq_reg_l (k_fact_ps k)); [|lra]. lra. }
  rewrite (dot_ext 6 r (fun i => 1 / sqrt (1 + 1 / 6) * y i) r (fun i => 1 / sqrt (1 + 1 / 6) * y i)) in WN by auto.
  unfold dot in WN. cbn [rsum y] in WN. assert (S0 : 0 < sqrt (1 + 1 / 6)) by (apply sqrt_lt_R0; lra).
  assert (SS : sqrt (1 + 1 / 6) * sqrt (1 + 1 / 6) = 1 + 1 / 6) by (apply sqrt_sqrt; lra).
  assert (II : 1 / sqrt (1 + 1 / 6) * (1 / sqrt (1 + 1 / 6)) = 6 / 7).
  { replace (1 / sqrt (1 + 1 / 6) * (1 / sqrt (1 + 1 / 6))) with (1 / (sqrt (1 + 1 / 6) * sqrt (1 + 1 / 6))) by (field; lra). rewrite SS. lra. }
  nra.
Qed.
End VdPath.
Lemma vd_refuted_thm : exists p e g x0 n0 s0 pop s2 cols s3 s4,
  constructed_any (p_k p) /\ p_upd p = Vd /\ k_vd (p_k p) = true /\ (k_tpa (p_k p) < 2)%Z /\ g_uh g = false /\
  st_new (cma_num p) g x0 n0 = Ok s0 /\ ask (cma_num p) e g s0 = Ok (pop, s2) /\ eval (cma_num p) e g cols [] s2 = Ok s3 /\ tell (cma_num p) e g s3 = Ok s4 /\
  pos_def (k_dim (p_k p)) (d_cov (dist_of p s0)) /\
  forall b, inverse_root (k_dim (p_k p)) b (d_cov (dist_of p s0)) -> ~ sigma_path_rule (p_k p) (dist_of p s0) (dist_of p s4) b.
Proof.
  assert (C : constructed (cma_params 6 4)) by (exists 6%nat, 4%nat, []; repeat split; cbn; lia).
  assert (CA : constructed_any kvd6) by (right; exists (cma_params 6 4), 12%Z; split; [exact C|reflexivity]).
  destruct (constructed_norm _ C) as (M & _). pose proof (constructed_sound _ C) as (_ & _ & (W1 & _ & _ & _ & W2) & _).
  assert (MU : 1 <= mu_eff (k_w (cma_params 6 4))) by (rewrite <- M; apply constructed_muw, C).
  assert (KW : length (k_w kvd6) = 2%nat /\ sumR (k_w kvd6) = 1) by (split; [exact W1|exact W2]).
  assert (KP : k_fact_ps kvd6 = sqrt (k_csigma kvd6 * (2 - k_csigma kvd6) * mu_eff (k_w kvd6))).
  { change (k_w kvd6) with (k_w (cma_params 6 4)). rewrite <- M. reflexivity. }
  assert (CS : 0 < k_csigma kvd6 < 1).
  { change (k_csigma kvd6) with (sqrt (k_muw (cma_params 6 4)) / (2 * (sqrt (INR 6) + sqrt (k_muw (cma_params 6 4))))). rewrite M.
    assert (S1 : 0 < sqrt (mu_eff (k_w (cma_params 6 4)))) by (apply sqrt_lt_R0; lra). assert (S2 : 0 < sqrt (INR 6)) by (apply sqrt_lt_R0; cbn; lra).
    revert S1 S2. generalize (sqrt (mu_eff (k_w (cma_params 6 4)))) (sqrt (INR 6)). intros u v U V. split; [apply Rdiv_lt_0_compat; lra|].
    apply (Rmult_lt_reg_r (2 * (v + u))); [lra|]. replace (u / (2 * (v + u)) * (2 * (v + u))) with u by (field; lra). lra. }
  assert (KQ : 0 < k_fact_ps kvd6).
  { rewrite KP. apply sqrt_lt_R0. apply Rmult_lt_0_compat; [apply Rmult_lt_0_compat; lra|]. change (k_w kvd6) with (k_w (cma_params 6 4)). lra. }
  assert (KD : k_dim kvd6 = 6%nat) by reflexivity. assert (KL : k_lambda kvd6 = 4%nat) by reflexivity. assert (KM : k_mu kvd6 = 2%nat) by reflexivity.
  assert (KV : k_vd kvd6 = true) by reflexivity. assert (KF : k_fixed kvd6 = []) by reflexivity. assert (KT : (k_tpa kvd6 < 2)%Z) by (cbn; lia).
  clear C M W1 W2 MU CS. generalize dependent kvd6. intros k CA KW KP KQ KD KL KM KV KF KT.
  destruct (vd_path k KD KL KM KW KV KF KP KQ) as (s0 & pop & s2 & s3 & s4 & E0 & EA & EE & ET & PD & H).
  eexists (pvd k), flat_env, (cfg_of k), (repeat 0 6), num0, s0, pop, s2, _, s3, s4.
  split; [exact CA|]. split; [reflexivity|]. split; [exact KV|]. split; [exact KT|]. split; [reflexivity|].
  split; [exact E0|]. split; [exact EA|]. split; [exact EE|]. split; [exact ET|]. cbn [pvd p_k]. rewrite KD. split; [exact PD|exact H].
Qed.

(** * Instances: a generation after the history h24 *)
Lemma gen_instance p : p_k p = k24 \/ p_k p = ksep -> exists s0 s1 pop s2 s3 s4, let g := cfg_of (p_k p) in
  st_new (cma_num p) g [1; 2] num0 = Ok s0 /\ run_ops (cma_num p) (call_env zig) g h24 s0 = Ok s1 /\
  ask (cma_num p) (call_env zig) g s1 = Ok (pop, s2) /\ eval (cma_num p) (call_env zig) g [[1; 2]; [3; 1]; [0; 2]; [1; 5]] [] s2 = Ok s3 /\ tell (cma_num p) (call_env zig) g s3 = Ok s4.
Proof.
  intros K. assert (KL : k_lambda (p_k p) = 4%nat) by (destruct K as [-> | ->]; reflexivity). assert (KF : k_fixed (p_k p) = []) by (destruct K as [-> | ->]; reflexivity). clear K.
  assert (HL : (2 <= k_lambda (p_k p))%nat) by lia.
  assert (HF : forall i v, In (i, v) (k_fixed (p_k p)) -> (0 <= i < Z.of_nat (k_dim (p_k p)))%Z) by (rewrite KF; intros i v []).
  destruct (new_ok p HL [1; 2] num0) as [s0 E0]. set (g := cfg_of (p_k p)) in *. set (last := OGen [[1; 2]; [3; 1]; [0; 2]; [1; 5]] []).
  assert (LG : g_lambda g = 4%nat) by (exact KL).
  assert (W : Forall (proper_op g) (h24 ++ [OAsk; last])).
  { unfold h24, last. cbn [app]. repeat apply Forall_cons; try apply Forall_nil; cbn; rewrite ?KL; auto. }
  destruct (runs_ok p HL HF zig (h24 ++ [OAsk; last]) eq_refl [1; 2] num0 s0 E0 W) as [s E]. apply run_split in E as (s1 & E1 & E2).
  change (run_ops (cma_num p) (call_env zig) (cfg_of (p_k p)) [OAsk; last] s1) with (do s1 <- (do r <- ask (cma_num p) (call_env zig) g s1; Ok (snd r)); do s2 <- (do s2 <- eval (cma_num p) (call_env zig) g [[1; 2]; [3; 1]; [0; 2]; [1; 5]] [] s1; do s3 <- tell (cma_num p) (call_env zig) g s2; Ok (inc_iter s3)); Ok s2) in E2.
  destruct (ask (cma_num p) (call_env zig) g s1) as [[pop s2]|] eqn:EA; [|discriminate E2]. cbn [bind snd] in E2.
  destruct (eval (cma_num p) (call_env zig) g [[1; 2]; [3; 1]; [0; 2]; [1; 5]] [] s2) as [s3|] eqn:EE; [|discriminate E2]. cbn [bind] in E2.
  destruct (tell (cma_num p) (call_env zig) g s3) as [s4|] eqn:ET; [|discriminate E2].
  exists s0, s1, pop, s2, s3, s4. auto.
Qed.
