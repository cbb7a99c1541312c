(** Properties of the distribution the optimiser adapts (C21-C23, C25-C27, C61,
    C64), in exact real arithmetic.  [started p e g s0]: any optimiser a user can
    hold; [h]: any calls; [p]: parameters, eigensolver and random streams. *)
From Coq Require Import Reals List Permutation Lia Lra.
From Verif Require Import Base Dbl Vec Params SpecParams Config Search SpecSearch SpecSafe SpecUh Demo DemoProofs.
From Verif Require Import Update SpecUpdate Corr UpdateProofs2 CorrProofs TpaProofs DemoNum DemoNumProofs LargeLambda ParamSound NumThms Scaling GenoPheno StartThms.
Import ListNotations.
Local Open Scope R_scope.

(** C21 *)
Theorem C21_symmetric_psd : forall p e g h s0 s,
  constructed (p_k p) -> p_upd p = Full -> started p e g s0 -> run_ops (cma_num p) e g h s0 = Ok s ->
  symmetric (k_dim (p_k p)) (cov_of s) /\ psd (k_dim (p_k p)) (cov_of s).
Proof. exact cov_psd_thm. Qed.
Print Assumptions C21_symmetric_psd.
Example C21_example : constructed k24 /\ exists s0 s, started (npar_of k24 Full) (call_env zig) (cfg_of k24) s0 /\
  run_ops (cma_num (npar_of k24 Full)) (call_env zig) (cfg_of k24) h24 s0 = Ok s.
Proof.
  split; [apply k24_constructed|]. destruct (run24 k24 Full eq_refl eq_refl) as (s0 & s & H0 & H). exists s0, s. split; [econstructor; eauto|exact H].
Qed.

(** C22 *)
Theorem C22_lower_bound : forall p e g h s0 s,
  constructed (p_k p) -> p_upd p = Full -> started p e g s0 ->
  Forall iteration h -> run_ops (cma_num p) e g h s0 = Ok s ->
  forall x, (1 - k_c1 (p_k p) - k_cmu (p_k p)) ^ Z.to_nat (s_niter (t_sol s)) * dot (k_dim (p_k p)) x x <= quad (k_dim (p_k p)) (cov_of s) x.
Proof. exact cov_lower_thm. Qed.
Print Assumptions C22_lower_bound.
Theorem C22_positive_definite : forall p e g h s0 s,
  constructed (p_k p) -> p_upd p = Full -> k_c1 (p_k p) + k_cmu (p_k p) < 1 -> started p e g s0 ->
  run_ops (cma_num p) e g h s0 = Ok s -> pos_def (k_dim (p_k p)) (cov_of s).
Proof. exact cov_pd_thm. Qed.
Print Assumptions C22_positive_definite.
Example C22_example : constructed k24 /\ k_c1 k24 + k_cmu k24 < 1 /\ Forall iteration h24 /\
  exists s0 s, started (npar_of k24 Full) (call_env zig) (cfg_of k24) s0 /\
  run_ops (cma_num (npar_of k24 Full)) (call_env zig) (cfg_of k24) h24 s0 = Ok s.
Proof. split; [apply k24_constructed|]. split; [apply k24_rates|]. split; [apply h24_iters|apply C21_example]. Qed.

(** C23 *)
Theorem C23_positive_partial : forall p e g h x0 n0 s0 s,
  constructed (p_k p) -> p_upd p = Full -> k_c1 (p_k p) + k_cmu (p_k p) < 1 ->
  st_new (cma_num p) g x0 n0 = Ok s0 -> run_ops (cma_num p) e g h s0 = Ok s -> forall j, 0 < variances_of s j.
Proof. exact sep_pos_thm. Qed.
Print Assumptions C23_positive_partial.
Theorem C23_lower_bound : forall p e g h x0 n0 s0 s,
  constructed (p_k p) -> p_upd p = Full ->
  st_new (cma_num p) g x0 n0 = Ok s0 -> Forall iteration h -> run_ops (cma_num p) e g h s0 = Ok s ->
  forall j, (1 - k_c1 (p_k p) - k_cmu (p_k p)) ^ Z.to_nat (s_niter (t_sol s)) <= variances_of s j.
Proof. exact sep_lower_thm. Qed.
Print Assumptions C23_lower_bound.
(** With 1022 points in dimension 1 the two rates add up to one, and a
    generation of coinciding points leaves a zero variance. *)
Theorem C23_positive_refuted : exists p e g x0 n s0 s cols,
  p_upd p = Full /\ constructed (p_k p) /\ k_sep (p_k p) = true /\ same_problem p g /\ length cols = g_lambda g /\
  st_new (cma_num p) g x0 n = Ok s0 /\ run_ops (cma_num p) e g [OGen cols []] s0 = Ok s /\ variances_of s 0%nat = 0.
Proof. exact sep_variance_lost. Qed.
Print Assumptions C23_positive_refuted.
Example C23_example : constructed (set_sep k24) /\ k_sep (set_sep k24) = true /\ k_c1 (set_sep k24) + k_cmu (set_sep k24) < 1 /\
  exists s0 s, st_new (cma_num (npar_of (set_sep k24) Full)) (cfg_of (set_sep k24)) [1; 2] num0 = Ok s0 /\
  run_ops (cma_num (npar_of (set_sep k24) Full)) (call_env zig) (cfg_of (set_sep k24)) h24 s0 = Ok s.
Proof. split; [apply k24_sep_constructed|]. split; [reflexivity|]. split; [apply k24_sep_rates|]. apply run24; reflexivity. Qed.

(** C25 *)
Theorem C25_sigma_positive : forall p e g h s0 s,
  configured (p_k p) -> started p e g s0 -> run_ops (cma_num p) e g h s0 = Ok s -> 0 < sigma_of s.
Proof. exact sigma_thm. Qed.
Print Assumptions C25_sigma_positive.
Example C25_example : forall fl, configured (set_vd k24) /\ exists s0 s,
  started (npar_of (set_vd k24) fl) (call_env zig) (cfg_of (set_vd k24)) s0 /\
  run_ops (cma_num (npar_of (set_vd k24) fl)) (call_env zig) (cfg_of (set_vd k24)) h24 s0 = Ok s.
Proof.
  intros fl. split; [exists 2%nat, 4%nat, [VdRates]; split; [lia|reflexivity]|].
  assert (L : k_lambda (set_vd k24) = 4%nat /\ k_fixed (set_vd k24) = []) by (unfold set_vd; destruct (_ || _ || _)%bool; split; reflexivity).
  destruct (run24 (set_vd k24) fl (proj1 L) (proj2 L)) as (s0 & s & H0 & H). exists s0, s. split; [econstructor; eauto|exact H].
Qed.

(** C26 *)
Theorem C26_weighted_mean : forall p e g s s',
  constructed (p_k p) -> g_uh g = false -> (forall c, In c (s_cands (t_sol s)) -> c_f c <> NaN) ->
  tell (cma_num p) e g s = Ok s' ->
  let k := p_k p in let best i := at0 (nth i (map c_x (s_cands (t_sol s'))) []) in
  Permutation (s_cands (t_sol s')) (s_cands (t_sol s)) /\ ascending (s_cands (t_sol s')) /\
  length (k_w k) = k_mu k /\ (forall w, In w (k_w k) -> 0 < w) /\ sumR (k_w k) = 1 /\
  (forall c, mean_of s' c = rsum (k_mu k) (fun i => nth i (k_w k) 0 * best i c)) /\
  (forall c lo hi, (forall i, (i < k_mu k)%nat -> lo <= best i c <= hi) -> lo <= mean_of s' c <= hi).
Proof. exact mean_thm. Qed.
Print Assumptions C26_weighted_mean.
(** Whatever the ranking, uncertainty handling included. *)
Theorem C26_any_ranking : forall p e g s s', constructed (p_k p) -> tell (cma_num p) e g s = Ok s' ->
  let k := p_k p in let best i := at0 (nth i (map c_x (s_cands (t_sol s'))) []) in
  (forall c, mean_of s' c = rsum (k_mu k) (fun i => nth i (k_w k) 0 * best i c)) /\
  (forall c lo hi, (forall i, (i < k_mu k)%nat -> lo <= best i c <= hi) -> lo <= mean_of s' c <= hi).
Proof. exact mean_any. Qed.
Print Assumptions C26_any_ranking.
Example C26_example : constructed k24 /\ exists s0 s1 s, st_new (cma_num (npar_of k24 Full)) (cfg_of k24) [1; 2] num0 = Ok s0 /\
  eval (cma_num (npar_of k24 Full)) flat_env (cfg_of k24) [[1; 2]; [3; 1]; [0; 2]; [1; 5]] [] s0 = Ok s1 /\
  tell (cma_num (npar_of k24 Full)) flat_env (cfg_of k24) s1 = Ok s.
Proof.
  split; [apply k24_constructed|].
  destruct (flat_generation (npar_of k24 Full) (le_S _ _ (le_S _ _ (le_n 2))) (fun i v H => match H with end) [[1; 2]; [3; 1]; [0; 2]; [1; 5]] [1; 2] num0 eq_refl) as (s0 & s & E0 & E & _).
  cbn [run_ops] in E. apply bind_ok in E as (s3 & E & _). unfold do_op in E. apply bind_ok in E as (s1 & E1 & E). apply bind_ok in E as (s2 & E2 & _). exists s0, s1, s2. auto.
Qed.

(** C27 *)
Theorem C27_candidates : forall p e g s pop s',
  same_problem p g -> fixed_ok p -> ask (cma_num p) e g s = Ok (pop, s') ->
  length pop = g_lambda g /\ Forall (has_fixed (g_fixed g)) pop.
Proof. exact fixed_candidates. Qed.
Print Assumptions C27_candidates.
Theorem C27_mean_partial : forall p e g h x0 n s0 s,
  constructed (p_k p) -> same_problem p g -> fixed_ok p -> elitism_le1 g -> std_sort_ok e -> (forall x, p_scale p x = x) ->
  st_new (cma_num p) g x0 n = Ok s0 -> Forall (fixed_op g) h -> run_ops (cma_num p) e g h s0 = Ok s ->
  forall i v, In (i, v) (g_fixed g) -> mean_of s (Z.to_nat i) = v.
Proof. exact fixed_mean_thm. Qed.
Print Assumptions C27_mean_partial.
Theorem C27_evaluated_partial : forall p e g h x0 n s0 s,
  constructed (p_k p) -> same_problem p g -> fixed_ok p -> elitism_le1 g -> std_sort_ok e -> (forall x, p_scale p x = x) ->
  (forall x, length x = g_dim g -> e_pheno e x = Ok x) -> g_gradient g = false -> g_uh g = false -> g_edm g = false ->
  st_new (cma_num p) g x0 n = Ok s0 -> Forall (fixed_op g) h -> run_ops (cma_num p) e g h s0 = Ok s ->
  forall y v, In (y, v) (t_log s) -> has_fixed (g_fixed g) y.
Proof. exact fixed_evaluated_thm. Qed.
Print Assumptions C27_evaluated_partial.
(** With a scaling given by the user, every candidate has the value as it was
    given before the scaling is undone, so that the objective gets another one. *)
Theorem C27_scaling_values : forall p e g sc sh gp s pop s' i v k h c y,
  same_problem p g -> fixed_ok p -> gp_scaling_nb sc sh = Ok gp ->
  In (i, v) (g_fixed g) -> nth_error sc (Z.to_nat i) = Some k -> nth_error sh (Z.to_nat i) = Some h -> k <> 0 ->
  ask (cma_num p) e g s = Ok (pop, s') -> In c pop -> pheno gp c = Ok y -> nth_error y (Z.to_nat i) = Some ((v - h) / k).
Proof. exact scaled_fixed. Qed.
Print Assumptions C27_scaling_values.
Theorem C27_scaling_refuted : exists p e g gp x0 n s0 s y v, constructed (p_k p) /\ same_problem p g /\ fixed_ok p /\
  gp_scaling_nb [2] [0] = Ok gp /\ (forall x z, scale_i_step (gp_scale gp) x = Ok z -> p_scale p x = z) /\ (forall x, e_pheno e x = pheno gp x) /\
  g_gradient g = false /\ st_new (cma_num p) g x0 n = Ok s0 /\ round (cma_num p) e g s0 = Ok s /\ In (y, v) (t_log s) /\ ~ has_fixed (g_fixed g) y.
Proof. exact fixed_scaled_seen. Qed.
Print Assumptions C27_scaling_refuted.
(** With the numerical gradient, points with another value are evaluated. *)
Theorem C27_gradient_refuted : exists p e g x0 n s0 pop s y v, constructed (p_k p) /\ same_problem p g /\ fixed_ok p /\ (forall x, p_scale p x = x) /\
  (forall x, e_pheno e x = Ok x) /\ g_gradient g = true /\
  st_new (cma_num p) g x0 n = Ok s0 /\ ask (cma_num p) e g s0 = Ok (pop, s) /\ In (y, v) (t_log s) /\ ~ has_fixed (g_fixed g) y.
Proof. exact fixed_gradient. Qed.
Print Assumptions C27_gradient_refuted.
Example C27_example : let k := set_fixed_p 1 7 k24 in let h := [OAsk; OGen [[1; 7]; [3; 7]; [0; 7]; [1; 7]] []; OStop; OAsk] in
  constructed k /\ same_problem (npar_of k Full) (cfg_of k) /\ fixed_ok (npar_of k Full) /\ elitism_le1 (cfg_of k) /\ std_sort_ok (call_env zig) /\
  In (1%Z, 7) (g_fixed (cfg_of k)) /\ Forall (fixed_op (cfg_of k)) h /\
  exists s0 s, st_new (cma_num (npar_of k Full)) (cfg_of k) [1; 2] num0 = Ok s0 /\ run_ops (cma_num (npar_of k Full)) (call_env zig) (cfg_of k) h s0 = Ok s.
Proof.
  set (k := set_fixed_p 1 7 k24).
  assert (R : forall i v, In (i, v) (k_fixed k) -> (0 <= i < Z.of_nat (k_dim k))%Z) by (intros i v [Q|[]]; injection Q as <- <-; cbn; lia).
  split; [exists 2%nat, 4%nat, [Fix 1 7]; repeat split; cbn; lia|]. split; [repeat split|].
  split; [split; [repeat constructor; intros []|exact R]|]. split; [split; reflexivity|]. split; [apply call_env_sort|].
  split; [left; reflexivity|]. split.
  - repeat constructor; intros i v [Q|[]]; injection Q as <- <-; reflexivity.
  - assert (A : (2 <= k_lambda (p_k (npar_of k Full)))%nat) by (cbn; lia).
    destruct (new_ok (npar_of k Full) A [1; 2] num0) as [s0 E0]. exists s0.
    destruct (runs_ok (npar_of k Full) A R zig [OAsk; OGen [[1; 7]; [3; 7]; [0; 7]; [1; 7]] []; OStop; OAsk] eq_refl [1; 2] num0 s0 E0) as [s E]; [|exists s; auto].
    repeat constructor; cbn; auto.
Qed.

(** C61 *)
Theorem C61_bounded : forall p e g h x0 n s0 s,
  no_elitism g -> g_lambda g = k_lambda (p_k p) -> room g -> std_sort_ok e -> 0 <= p_tpac p <= 1 ->
  Forall (whole_gen g) h -> st_new (cma_num p) g x0 n = Ok s0 -> run_ops (cma_num p) e g h s0 = Ok s -> Rabs (path_of s) <= 1.
Proof. intros p e g h x0 n s0 s H1 H2 H3 H4 H5 H6 H7 H8. exact (path_bounded p e g H1 H2 H3 H4 H5 h x0 n s0 s H6 H7 H8). Qed.
Print Assumptions C61_bounded.
Example C61_example : let k := set_tpa 2 k24 in no_elitism (cfg_of k) /\ g_tpa (cfg_of k) = 2%Z /\ room (cfg_of k) /\ std_sort_ok (call_env zig) /\
  0 <= p_tpac (npar_of k Full) <= 1 /\ Forall (whole_gen (cfg_of k)) h24 /\
  exists s0 s, st_new (cma_num (npar_of k Full)) (cfg_of k) [1; 2] num0 = Ok s0 /\ run_ops (cma_num (npar_of k Full)) (call_env zig) (cfg_of k) h24 s0 = Ok s.
Proof.
  cbv zeta. split; [reflexivity|]. split; [reflexivity|]. split; [split; [cbn; lia|discriminate]|]. split; [apply call_env_sort|].
  split; [cbn; lra|]. split; [repeat constructor|]. apply run24; reflexivity.
Qed.

(** C64 *)
Theorem C64_full_partial : forall p e g h s0 s,
  constructed (p_k p) -> p_upd p = Full -> k_sep (p_k p) = false -> k_vd (p_k p) = false -> k_c1 (p_k p) + k_cmu (p_k p) < 1 ->
  started p e g s0 -> run_ops (cma_num p) e g h s0 = Ok s ->
  let d := k_dim (p_k p) in let n := s_num (t_sol s) in
  is_correlation d (corr_ij p n) /\
  exists m, corr_matrix p n = (d, d, m) /\ forall i j, (i < d)%nat -> (j < d)%nat -> m i j = corr_ij p n i j.
Proof.
  intros p e g h s0 s C F S V R H0 H. apply corr_full; auto; [apply (cov_psd_thm p e g h s0 s)|apply (cov_pd_thm p e g h s0 s)]; auto.
Qed.
Print Assumptions C64_full_partial.
Theorem C64_sep : forall p n, k_sep (p_k p) = true -> k_vd (p_k p) = false -> is_correlation (k_dim (p_k p)) (corr_ij p n).
Proof. exact corr_sep. Qed.
Print Assumptions C64_sep.
Theorem C64_vd_partial : forall p n, k_vd (p_k p) = true -> (forall i, (i < k_dim (p_k p))%nat -> x_sep n i <> 0) ->
  let d := k_dim (p_k p) in is_correlation d (corr_ij p n) /\
  exists m, corr_matrix p n = (d, d, m) /\ forall i j, (i < d)%nat -> (j < d)%nat -> m i j = corr_ij p n i j.
Proof. exact corr_vd. Qed.
Print Assumptions C64_vd_partial.
(** corr() of sep-CMA-ES is a single column. *)
Theorem C64_sep_matrix_refuted : exists p n, constructed (p_k p) /\ k_sep (p_k p) = true /\ k_dim (p_k p) = 2%nat /\ fst (corr_matrix p n) = (2%nat, 1%nat).
Proof. exists (npar_of (set_sep k24) Full), num0. split; [apply k24_sep_constructed|]. repeat split. Qed.
Print Assumptions C64_sep_matrix_refuted.
Example C64_example : constructed k24 /\ k_sep k24 = false /\ k_vd k24 = false /\ k_c1 k24 + k_cmu k24 < 1 /\
  (exists s0 s, started (npar_of k24 Full) (call_env zig) (cfg_of k24) s0 /\
     run_ops (cma_num (npar_of k24 Full)) (call_env zig) (cfg_of k24) h24 s0 = Ok s) /\
  (forall i, (i < 2)%nat -> x_sep (new_num (npar_of k24 Full) [1; 2] num0) i <> 0).
Proof.
  split; [apply k24_constructed|]. split; [reflexivity|]. split; [reflexivity|]. split; [apply k24_rates|]. split; [apply C21_example|].
  intros i _. cbn. lra.
Qed.
