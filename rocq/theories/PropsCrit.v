(** Property C49: the numeric stopping criteria. *)
From Coq Require Import Reals List Lia Lra ZArith.
From Verif Require Import Base Dbl Vec Params Config Search SpecSearch SpecInvar SpecSafe SpecUh SpecStop SpecWindow Demo DemoProofs SearchThms2 Update SpecUpdate ParamSound DemoNum DemoNumProofs NumThms ActiveThms SpecCrit CritProofs CritThms HistCrit.
Import ListNotations.
Open Scope R_scope.

(** CONDITIONCOV, after ask and a generation, fires exactly when the condition
    number of the covariance the points were drawn from exceeds 10^14. *)
Theorem C49_condition_partial : forall p e g s cols phen s',
  (1 <= k_dim (p_k p))%nat -> k_sep (p_k p) = false -> k_vd (p_k p) = false -> p_lazy p = false -> eigensolver_ok p ->
  symmetric (k_dim (p_k p)) (cov_of s) -> psd (k_dim (p_k p)) (cov_of s) -> run_ops (cma_num p) e g [OAsk; OGen cols phen] s = Ok s' ->
  (criterion (cma_num p) g (-15) (t_sol s') = Ok true <-> cond_above (k_dim (p_k p)) (cov_of s) (10 ^ 14)).
Proof. exact condition_gen. Qed.
Print Assumptions C49_condition_partial.
(** The separable variant: the current variances. *)
Theorem C49_condition_sep_partial : forall p e g s cols phen s', (1 <= k_dim (p_k p))%nat -> k_sep (p_k p) = true ->
  run_ops (cma_num p) e g [OGen cols phen] s = Ok s' ->
  (forall i, (i < k_dim (p_k p))%nat -> 0 <= variances_of s' i) ->
  (criterion (cma_num p) g (-15) (t_sol s') = Ok true <->
   exists i j, (i < k_dim (p_k p))%nat /\ (j < k_dim (p_k p))%nat /\ 10 ^ 14 * variances_of s' j < variances_of s' i).
Proof. exact condition_sep_gen. Qed.
Print Assumptions C49_condition_sep_partial.
(** TOLUPSIGMA: the step size has grown by more than 10^20 times the largest
    standard deviation of the covariance the points were drawn from. *)
Theorem C49_tolupsigma_partial : forall p e g s cols phen s',
  (1 <= k_dim (p_k p))%nat -> k_sep (p_k p) = false -> k_vd (p_k p) = false -> p_lazy p = false -> eigensolver_ok p ->
  symmetric (k_dim (p_k p)) (cov_of s) -> run_ops (cma_num p) e g [OAsk; OGen cols phen] s = Ok s' ->
  (criterion (cma_num p) g (-13) (t_sol s') = Ok true <->
   forall u, dot (k_dim (p_k p)) u u = 1 -> 10 ^ 20 * sqrt (quad (k_dim (p_k p)) (cov_of s) u) < sigma_of s' / sigma_init p).
Proof. exact upsigma_gen. Qed.
Print Assumptions C49_tolupsigma_partial.
Theorem C49_tolupsigma_sep_partial : forall p e g s cols phen s', (1 <= k_dim (p_k p))%nat -> k_sep (p_k p) = true ->
  run_ops (cma_num p) e g [OGen cols phen] s = Ok s' ->
  (criterion (cma_num p) g (-13) (t_sol s') = Ok true <->
   forall i, (i < k_dim (p_k p))%nat -> 10 ^ 20 * sqrt (variances_of s' i) < sigma_of s' / sigma_init p).
Proof. exact upsigma_sep_gen. Qed.
Print Assumptions C49_tolupsigma_sep_partial.
(** TOLX compares the spreads with the tolerance times sigma / sigma0 instead of
    the spreads times sigma / sigma0 with the tolerance.  It misses states where
    every coordinate is below the tolerance ... *)
Theorem C49_tolx_refuted : exists p e g x0 n s0 s h,
  constructed (p_k p) /\ p_upd p = Full /\ same_problem p g /\ / 1000000000000 <= p_xtol p /\
  st_new (cma_num p) g x0 n = Ok s0 /\ Forall (whole_gen g) h /\ run_ops (cma_num p) e g h s0 = Ok s /\
  spreads_below p s (p_xtol p) /\ criterion (cma_num p) g 2 (t_sol s) = Ok false.
Proof. exact tolx_missed. Qed.
Print Assumptions C49_tolx_refuted.
(** ... it fires as documented while the step size is not below the initial one ... *)
Theorem C49_tolx_fires_partial : forall p g s, 0 < sigma_init p <= sigma_of s ->
  spreads_below p s (Rmax (p_xtol p) (/ 1000000000000)) -> criterion (cma_num p) g 2 (t_sol s) = Ok true.
Proof. exact tolx_complete. Qed.
Print Assumptions C49_tolx_fires_partial.
(** ... and fires only as documented while it is not above. *)
Theorem C49_tolx_only_partial : forall p g s, 0 < sigma_of s <= sigma_init p -> criterion (cma_num p) g 2 (t_sol s) = Ok true ->
  forall i, (i < k_dim (p_k p))%nat -> sigma_of s / sigma_init p * spread_of p s i < Rmax (p_xtol p) (/ 1000000000000).
Proof. exact tolx_sound. Qed.
Print Assumptions C49_tolx_only_partial.
(** EQUALFUNVALS fires exactly when the dimension is at least the length of the
    histories and best and k-th best values were equal in more than a third of
    the last iterations. *)
Theorem C49_equalfunvals_partial : forall T N (no : numops T N) (g : cfg T) (so : sol T N), length (s_hist so) = length (s_khist so) ->
  let h := Nat.min (g_dim g) (length (s_hist so)) in
  (criterion no g 5 so = Ok true <-> (s_maxhist so <= Z.of_nat h)%Z /\ (h < 3 * equal_iters h (s_hist so) (s_khist so))%nat).
Proof. exact @equal_iff. Qed.
Print Assumptions C49_equalfunvals_partial.
(** So not for a constant objective, in dimension 2 with default settings. *)
Theorem C49_equalfunvals_refuted : exists s,
  (do s0 <- st_new demo_no (mk_cfg 2 4) [4; 4]%Z 0%nat; rounds demo_no (mk_cfg 2 4) const_e 30 s0) = Ok s /\
  Z.of_nat (length (s_hist (t_sol s))) = s_maxhist (t_sol s) /\
  Forall (fun c => c_f c = dint 0) (s_hist (t_sol s)) /\ Forall (fun c => c_f c = dint 0) (s_khist (t_sol s)) /\
  criterion demo_no (mk_cfg 2 4) 5 (t_sol s) = Ok false.
Proof. exact equal_missed. Qed.
Print Assumptions C49_equalfunvals_refuted.
(** TOLHISTFUN fires exactly when the last [tol_window] best values, of the
    generations told since the start or the last elitist restart, are within
    max (ftolerance, 1e-12) of each other.  [since], [ranks] as in C38. *)
Theorem C49_tolhistfun_partial : forall T N (no : numops T N) (e : env T N) (g : cfg T),
  samples_ok no -> (forall n, length (n_xmean no n) = g_dim g) -> std_sort_ok e -> forall h x0 n s0 s,
  st_new no g x0 n = Ok s0 -> Forall (whole_gen g) h -> run_ops no e g h s0 = Ok s ->
  exists before since ranks bests,
    t_gens s = before ++ since /\ s_niter (t_sol s) = Z.of_nat (length since) /\
    Forall2 (ranking_of g) since ranks /\ Forall2 (at_rank 0) ranks bests /\
    ((forall b, In b bests -> finite_dbl (c_f b)) ->
     (criterion no g 1 (t_sol s) = Ok true <->
      (tol_window g <= length since)%nat /\
      forall a b, In a (lastn (tol_window g) bests) -> In b (lastn (tol_window g) bests) ->
        dlt (dabs (dsub (c_f a) (c_f b))) (dmax (g_ftol g) dbl_1em12) = true)).
Proof. exact @tolhist_along. Qed.
Print Assumptions C49_tolhistfun_partial.
(** Not with a best value that is NaN: it hides the values after it. *)
Theorem C49_tolhistfun_nan_refuted : exists s, (do s0 <- st_new demo_no gap_g [4; 4]%Z 0%nat; rounds demo_no gap_g gap_e 3 s0) = Ok s /\
  map c_f (s_hist (t_sol s)) = [dint 0; NaN; dint 100] /\ criterion demo_no gap_g 1 (t_sol s) = Ok true.
Proof. exact tolhist_gap. Qed.
Print Assumptions C49_tolhistfun_nan_refuted.
(** The documented window is 10 + ceil (30 n / lambda) iterations: 19 here. *)
Theorem C49_tolhistfun_window_refuted : exists s,
  (do s0 <- st_new demo_no (mk_cfg 2 7) [4; 4]%Z 0%nat; rounds demo_no (mk_cfg 2 7) flat_e 18 s0) = Ok s /\
  s_niter (t_sol s) = 18%Z /\ criterion demo_no (mk_cfg 2 7) 1 (t_sol s) = Ok true.
Proof. exact tolhist_early. Qed.
Print Assumptions C49_tolhistfun_window_refuted.
(** STAGNATION fires exactly when the median of the last 20 best values is not
    below the median of the 20 oldest of the medians that are kept (C38). *)
Theorem C49_stagnation_partial : forall T N (no : numops T N) (e : env T N) (g : cfg T),
  samples_ok no -> (forall n, length (n_xmean no n) = g_dim g) -> std_sort_ok e -> forall h x0 n s0 s,
  st_new no g x0 n = Ok s0 -> Forall (whole_gen g) h -> run_ops no e g h s0 = Ok s ->
  exists before since ranks bests meds,
    t_gens s = before ++ since /\ s_niter (t_sol s) = Z.of_nat (length since) /\
    Forall2 (ranking_of g) since ranks /\ Forall2 (at_rank 0) ranks bests /\ Forall2 middle_value ranks meds /\
    ((forall b, In b bests -> c_f b <> NaN) -> (forall m, In m meds -> m <> NaN) ->
     (criterion no g 6 (t_sol s) = Ok true <->
      (20 <= length since)%nat /\
      exists a b, is_median (lastn 20 (map c_f bests)) a /\ is_median (firstn 20 (lastn (medians_limit g (length since - 1)) meds)) b /\ dle b a = true)).
Proof. exact @stagnation_along. Qed.
Print Assumptions C49_stagnation_partial.
(** Twenty iterations on a constant objective: both fire. *)
Example C49_history_example : samples_ok demo_no /\ (forall n, length (n_xmean demo_no n) = g_dim (mk_cfg 2 7)) /\ std_sort_ok flat_e /\
  let h := [OGen (repeat [1; 2]%Z 7) []] in Forall (whole_gen (mk_cfg 2 7)) (concat (repeat h 20)) /\
  match (do s0 <- st_new demo_no (mk_cfg 2 7) [4; 4]%Z 0%nat; run_ops demo_no flat_e (mk_cfg 2 7) (concat (repeat h 20)) s0) with
  | Ok s => tol_window (mk_cfg 2 7) = 18%nat /\ criterion demo_no (mk_cfg 2 7) 1 (t_sol s) = Ok true /\ criterion demo_no (mk_cfg 2 7) 6 (t_sol s) = Ok true
  | Fault _ => False end.
Proof.
  split; [apply toy_samples|]. split; [reflexivity|]. split; [apply mk_env_sort|]. cbv zeta. split; [repeat constructor|].
  vm_compute. auto.
Qed.
Example C49_condition_example : let p := npar_eig k24 Full eig2 in eigensolver_ok p /\
  exists s0 s, st_new (cma_num p) (cfg_of k24) [1; 2] num0 = Ok s0 /\
  symmetric 2 (cov_of s0) /\ pos_def 2 (cov_of s0) /\ run_ops (cma_num p) flat_env (cfg_of k24) [OAsk; OGen [[1; 2]; [3; 1]; [0; 2]; [1; 5]] []] s0 = Ok s.
Proof. split; [apply eig2_ok; reflexivity|exact condition_example]. Qed.
Example C49_equalfunvals_example : exists s, (do s0 <- st_new demo_no short_g [4; 4]%Z 0%nat; rounds demo_no short_g const_e 4 s0) = Ok s /\
  length (s_hist (t_sol s)) = length (s_khist (t_sol s)) /\ criterion demo_no short_g 5 (t_sol s) = Ok true.
Proof. exact equal_fires. Qed.
(** Tolerance 2 in a fresh state: step size 1, standard deviations 1, path 0. *)
Example C49_tolx_example : exists s, st_new (cma_num (tol_par 2)) (cfg_of k24) [1; 2] num0 = Ok s /\
  0 < sigma_init (tol_par 2) <= sigma_of s /\ sigma_of s <= sigma_init (tol_par 2) /\ spreads_below (tol_par 2) s 2.
Proof.
  eexists. split; [reflexivity|]. split; [unfold sigma_of, sigma_init; cbn; unfold init_sigma; cbn; destruct (Rlt_dec 0 1); lra|].
  split; [apply Rle_refl|]. intros i _. unfold sigma_of, spread_of, evo_path, cov_of, sigma_init, ident, diag. cbn. unfold ident, diag. rewrite Nat.eqb_refl, sqrt_1, Rabs_R0.
  unfold init_sigma. cbn. destruct (Rlt_dec 0 1); lra.
Qed.
