(** Reachable states have variances; the two failures. *)
From Coq Require Import Reals Lra Lia Bool ZArith List.
From Verif Require Import Base Dbl Vec EoMatrix Pwq PwqProofs Scaling GenoPheno SpecBounds GenoPhenoProofs
  Params SpecParams Config Search SpecSearch NumInv Update Corr SpecUpdate VecProofs UpdateProofs CorrProofs ParamSound DemoNum DemoNumProofs NumThms
  ActiveProofs ActiveThms SampleThms Report SpecReport ReportProofs.
Import ListNotations.
Open Scope R_scope.

Lemma psd_diag n a i : psd n a -> (i < n)%nat -> 0 <= a i i.
Proof.
  intros H Hi. pose proof (H (fun l => if Nat.eqb l i then 1 else 0)) as Q. unfold quad, dot in Q.
  rewrite (rsum_single n _ i Hi) in Q by (intros j _ D; apply Nat.eqb_neq in D; rewrite D; ring).
  rewrite Nat.eqb_refl in Q. unfold mv in Q. rewrite (rsum_single n _ i Hi) in Q by (intros j _ D; apply Nat.eqb_neq in D; rewrite D; ring).
  rewrite Nat.eqb_refl in Q. rewrite Rmult_1_l, Rmult_1_r in Q. exact Q.
Qed.
Lemma variances_full p e g h s0 s : constructed (p_k p) -> p_upd p = Full -> started p e g s0 -> run_ops (cma_num p) e g h s0 = Ok s -> has_variances p s.
Proof.
  intros C F H1 H2. pose proof (constructed_vd _ C) as V. split; [rewrite V; apply andb_false_r|].
  intros i Hi. unfold full_cov. rewrite V, orb_false_r. destruct (k_sep (p_k p)); cbn [negb].
  - unfold diag. rewrite Nat.eqb_refl. eapply sep_nonneg; eauto.
  - destruct (cov_psd_thm p e g h s0 s C F H1 H2) as [_ P]. eapply psd_diag; eauto.
Qed.
Lemma variances_active p e g h s0 s : constructed (p_k p) -> p_upd p = Active -> k_sep (p_k p) = false -> p_lazy p = false ->
  eigensolver_ok p -> k_c1 (p_k p) + 0.66 * k_cmu (p_k p) < 0.66 -> started p e g s0 -> asked false h -> run_ops (cma_num p) e g h s0 = Ok s -> has_variances p s.
Proof.
  intros C A S L E R H1 W H2. pose proof (constructed_vd _ C) as V. split; [rewrite V; apply andb_false_r|].
  intros i Hi. unfold full_cov. rewrite V, S. cbn [negb orb].
  destruct (active_pd_thm p e g h s0 s C A S V L E R H1 W H2) as [_ P]. apply Rlt_le. eapply pos_def_diag; eauto.
Qed.
Lemma variances_active_sep p e g h x0 n0 s0 s : constructed (p_k p) -> p_upd p = Active -> k_sep (p_k p) = true ->
  k_c1 (p_k p) + 0.66 * k_cmu (p_k p) < 0.66 -> st_new (cma_num p) g x0 n0 = Ok s0 -> run_ops (cma_num p) e g h s0 = Ok s -> has_variances p s.
Proof.
  intros C A S R H1 H2. pose proof (constructed_vd _ C) as V. split; [rewrite V; apply andb_false_r|].
  intros i Hi. unfold full_cov. rewrite V, S. cbn [negb orb]. unfold diag. rewrite Nat.eqb_refl. apply Rlt_le. eapply active_sep_thm; eauto.
Qed.
Lemma variances_vd p (s : st R num) : k_vd (p_k p) = true -> k_sep (p_k p) = false -> has_variances p s.
Proof.
  intros V S. split; [rewrite V, S; reflexivity|]. intros i _. unfold full_cov. rewrite V, S. cbn [negb orb]. rewrite vd_diag.
  apply Rmult_le_pos.
  - pose proof (Rle_0_sqr (x_v (s_num (t_sol s)) i)) as Q; unfold Rsqr in Q; lra.
  - pose proof (Rle_0_sqr (x_sep (s_num (t_sol s)) i)) as Q; unfold Rsqr in Q; lra.
Qed.
Lemma errors_thm p e g h s0 s : has_variances p s -> configured (p_k p) -> started p e g s0 -> run_ops (cma_num p) e g h s0 = Ok s ->
  exists v, errors p gp_default_nb (s_num (t_sol s)) = Ok v /\
  coords (k_dim (p_k p)) (fun i a => (is_sampling_std p s i a <-> (sigma_of s = 1 \/ full_cov p (s_num (t_sol s)) i i = 0)) /\
    forall sd, is_sampling_std p s i sd -> sd = sqrt (sigma_of s) * a) v.
Proof. intros V C H1 H2. apply errors_plain; auto. eapply sigma_thm; eauto. Qed.

(** one parameter in [0,1], started at 0.6 *)
Definition k1 : cpar := cma_params 1 4.
Lemma k1_constructed : constructed k1.
Proof. exists 1%nat, 4%nat, (@nil adapt). cbn. repeat split; lia. Qed.
Definition q01 : pwqc := pwq_coord 0 1 0 1.
Lemma q01_al : q_al q01 = 0.05.
Proof. unfold q01. cbn [pwq_coord q_al]. rewrite Rabs_R0. apply Rmin_case_strong; lra. Qed.
Lemma q01_au : q_au q01 = 0.1.
Proof. unfold q01. cbn [pwq_coord q_au]. rewrite Rabs_R1. apply Rmin_case_strong; lra. Qed.
Lemma q01_good : good q01.
Proof. apply good_of_bounds; lra. Qed.
Lemma q01_same : tof q01 0.6 = Ok 0.6 /\ tof q01 1.6 = Ok 0.6.
Proof.
  pose proof q01_good as Gq. pose proof q01_al as A. pose proof q01_au as B. pose proof (g_xlow _ Gq) as XL. pose proof (g_xup _ Gq) as XU.
  assert (L : q_lb q01 = 0) by reflexivity. assert (U : q_ub q01 = 1) by reflexivity. rewrite L, U, ?A, ?B in XL, XU.
  split.
  - apply tof_core; [exact Gq|]. rewrite A, B, L, U. lra.
  - unfold tof, shift_coord, shift_up, shift_down. rewrite XL, XU.
    destruct (Rlt_dec 1.6 _) as [H|_]; [exfalso; lra|]. cbn [bind]. destruct (Rlt_dec _ 1.6) as [H|_]; [exfalso; lra|]. cbn [bind].
    unfold reflect_up, reflect_low. rewrite L, U, A, B. destruct (Rlt_dec 1.6 (0 - 0.05)) as [H|_]; [exfalso; lra|].
    destruct (Rlt_dec (1 + 0.1) 1.6) as [_|H]; [|exfalso; lra]. rewrite quad_mid by (rewrite A, B, L, U; lra). f_equal; lra.
Qed.
Definition gp01 : genopheno := mkGP (PwqBound [q01]) None NoScaling.
Lemma gp01_is : gp_bounds None [0] [1] = Ok gp01.
Proof. reflexivity. Qed.
Lemma gp01_pheno x y : tof q01 x = Ok y -> pheno gp01 [x] = Ok [y].
Proof.
  intros H. unfold pheno, gp01. cbn [gp_bound gp_scale custom_pheno gp_custom]. rewrite pwq_to_f_tof.
  - cbn [mapM2]. rewrite H. reflexivity.
  - intros [|[|i]] q Hq; cbn in Hq; try discriminate. injection Hq as <-. apply q01_good.
  - reflexivity.
Qed.
Lemma start_num p g x0 n s : st_new (cma_num p) g x0 n = Ok s -> s_num (t_sol s) = new_num p x0 n.
Proof. intros H. apply st_new_num in H. exact H. Qed.
Lemma stds_zero : let p := npar_of k1 Full in exists s, st_new (cma_num p) (cfg_of k1) [0.6] num0 = Ok s /\
  stds p gp01 (s_num (t_sol s)) = Ok [0] /\ is_std p s 0 1.
Proof.
  intros p. destruct (new_ok p ltac:(cbn; lia) [0.6] num0) as [s E]. exists s. split; [exact E|].
  unfold is_std, full_cov. rewrite (start_num _ _ _ _ _ E).
  assert (V : k_vd (p_k p) = false) by reflexivity. assert (Sp : k_sep (p_k p) = false) by reflexivity.
  assert (D : k_dim (p_k p) = 1%nat) by reflexivity. assert (F : k_fixed (p_k p) = []) by reflexivity.
  assert (Z : p_scale p = fun x => x) by reflexivity.
  clearbody p. split.
  - unfold stds, raw_stds. rewrite V, Sp, D. cbn [negb andb].
    assert (M : x_mean (new_num p [0.6] num0) 0%nat = 0.6).
    { cbn [new_num x_mean]. unfold init_mean. rewrite F, Z, D. reflexivity. }
    unfold tab. cbn [seq map]. rewrite M. cbn [new_num x_cov]. unfold ident, diag. cbn [Nat.eqb]. rewrite sqrt_1.
    replace (0.6 + 1) with 1.6 by lra. destruct q01_same as [Q1 Q2].
    rewrite (gp01_pheno _ _ Q1), (gp01_pheno _ _ Q2). cbn [bind mapM2]. repeat f_equal. rewrite Rminus_diag_eq by reflexivity. apply Rabs_R0.
  - rewrite V, Sp. cbn [negb orb new_num x_cov]. unfold ident, diag. cbn [Nat.eqb]. lra.
Qed.

(** initial step size 4 *)
Definition npar4 : npar :=
  mkNpar k1 Full 4 false (/ 1000000000000) 0.3 (/ 10000000) (fun _ => (fun _ => 1, ident)) demo_normal (fun _ => 1 / 2)
    (fun x => x) (fun x => x) (fun _ => None) (fun x => x).
Lemma errors_half : let p := npar4 in exists s, st_new (cma_num p) (cfg_of k1) [0] num0 = Ok s /\
  errors p gp_default_nb (s_num (t_sol s)) = Ok [2] /\ is_sampling_std p s 0 4.
Proof.
  intros p. destruct (new_ok p ltac:(cbn; lia) [0] num0) as [s E]. exists s. split; [exact E|].
  unfold is_sampling_std, full_cov, sigma_of. rewrite (start_num _ _ _ _ _ E).
  assert (V : k_vd (p_k p) = false) by reflexivity. assert (Sp : k_sep (p_k p) = false) by reflexivity.
  assert (D : k_dim (p_k p) = 1%nat) by reflexivity. assert (G : p_sigma0 p = 4) by reflexivity.
  clearbody p. assert (SG : x_sigma (new_num p [0] num0) = 4).
  { cbn [new_num x_sigma]. unfold init_sigma. rewrite G. destruct (Rlt_dec 0 4); [reflexivity|exfalso; lra]. }
  split.
  - unfold errors, stds, raw_stds. rewrite V, Sp, D, SG. cbn [negb andb pheno gp_default_nb gp_bound gp_scale custom_pheno gp_custom bind].
    unfold tab. cbn [seq map mapM2 bind new_num x_cov]. unfold ident, diag. cbn [Nat.eqb]. rewrite sqrt_1, plus_minus_l, Rabs_R1, Rmult_1_r.
    repeat f_equal. replace 4 with (2 * 2) by lra. apply sqrt_square. lra.
  - rewrite SG, V, Sp. cbn [negb orb new_num x_cov]. unfold ident, diag. cbn [Nat.eqb]. lra.
Qed.
