(** C81: how fast the step size may change, in exact real arithmetic. *)
From Coq Require Import Reals List ZArith Lia Lra.
From Verif Require Import Base Dbl Vec Params SpecParams Config Search SpecSearch SpecSafe SpecUh SearchInv Update SpecUpdate SpecRate SigmaRate TpaThms Demo DemoProofs DemoNum DemoNumProofs NumThms SampleThms.
Import ListNotations.
Open Scope R_scope.

(** Cumulative step-size adaptation: n iterations divide the step size by at
    most exp(n c/d), whatever the objective. *)
Theorem C81_floor : forall p e g h x0 n0 s0 s,
  constructed_any (p_k p) -> (length (k_fixed (p_k p)) < k_dim (p_k p))%nat -> (k_tpa (p_k p) < 2)%Z ->
  st_new (cma_num p) g x0 n0 = Ok s0 -> Forall (okop (fun _ => True)) h -> run_ops (cma_num p) e g h s0 = Ok s ->
  sigma_of s0 * exp (- (k_csigma (p_k p) / k_dsigma (p_k p) * IZR (s_niter (t_sol s)))) <= sigma_of s.
Proof. exact floor_thm. Qed.
Print Assumptions C81_floor.
(** It grows exactly when the evolution path is longer than expected, and
    shrinks exactly when it is shorter. *)
Theorem C81_direction_partial : forall p e g h s0 s cols phen s',
  constructed_any (p_k p) -> (length (k_fixed (p_k p)) < k_dim (p_k p))%nat -> (k_tpa (p_k p) < 2)%Z ->
  g_tpa g = k_tpa (p_k p) -> g_uh g = false -> started p e g s0 -> run_ops (cma_num p) e g h s0 = Ok s -> run_ops (cma_num p) e g [OGen cols phen] s = Ok s' ->
  (sigma_of s < sigma_of s' <-> k_chi (p_k p) < path_length p s') /\ (sigma_of s' < sigma_of s <-> path_length p s' < k_chi (p_k p)).
Proof. exact direction_thm. Qed.
Print Assumptions C81_direction_partial.
(** Two-point adaptation: one iteration changes the step size by a factor
    between exp(-1/d) and exp(1/d). *)
Theorem C81_two_point_partial : forall p e g h x0 n0 s0 s1 pop s2 cols phen s,
  constructed (p_k p) -> no_elitism g -> g_uh g = false -> g_tpa g = 2%Z -> k_tpa (p_k p) = 2%Z -> g_lambda g = k_lambda (p_k p) ->
  room g -> std_sort_ok e -> 0 <= p_tpac p <= 1 -> st_new (cma_num p) g x0 n0 = Ok s0 -> Forall (whole_gen g) h -> run_ops (cma_num p) e g h s0 = Ok s1 ->
  (0 < s_niter (t_sol s1))%Z -> ask (cma_num p) e g s1 = Ok (pop, s2) -> length cols = g_lambda g -> run_ops (cma_num p) e g [OGen cols phen] s2 = Ok s ->
  sigma_of s1 * exp (- (1 / k_dsigma (p_k p))) <= sigma_of s <= sigma_of s1 * exp (1 / k_dsigma (p_k p)).
Proof. exact tpa_thm. Qed.
Print Assumptions C81_two_point_partial.

Example C81_floor_example : let p := npar_of k24 Full in
  constructed_any (p_k p) /\ (length (k_fixed (p_k p)) < k_dim (p_k p))%nat /\ (k_tpa (p_k p) < 2)%Z /\ Forall (okop (fun _ => True)) h24 /\
  exists s0 s, st_new (cma_num p) (cfg_of k24) [1; 2] num0 = Ok s0 /\ run_ops (cma_num p) (call_env zig) (cfg_of k24) h24 s0 = Ok s.
Proof.
  cbv zeta. split; [left; apply k24_constructed|]. split; [cbn; lia|]. split; [cbn; lia|]. split; [apply h24_iters|]. apply run24; reflexivity.
Qed.
(** VD parameters, too. *)
Example C81_floor_vd_example : let p := npar_of kvd24 Vd in
  constructed_any (p_k p) /\ (length (k_fixed (p_k p)) < k_dim (p_k p))%nat /\ (k_tpa (p_k p) < 2)%Z /\
  exists s0 s, st_new (cma_num p) (cfg_of kvd24) [1; 2] num0 = Ok s0 /\ run_ops (cma_num p) (call_env zig) (cfg_of kvd24) h24 s0 = Ok s.
Proof.
  cbv zeta. split; [right; exists k24, 12%Z; split; [apply k24_constructed|reflexivity]|]. split; [cbn; lia|]. split; [cbn; lia|]. apply run24; reflexivity.
Qed.
Example C81_direction_example : let p := npar_of k24 Full in
  g_tpa (cfg_of k24) = k_tpa (p_k p) /\ g_uh (cfg_of k24) = false /\ exists s0 s s', started p (call_env zig) (cfg_of k24) s0 /\
    run_ops (cma_num p) (call_env zig) (cfg_of k24) (firstn 4 h24) s0 = Ok s /\
    run_ops (cma_num p) (call_env zig) (cfg_of k24) [OGen [[1; 1]; [1; 0]; [4; 4]; [0; 5]] []] s = Ok s'.
Proof.
  cbv zeta. split; [reflexivity|]. split; [reflexivity|]. destruct (run24 k24 Full eq_refl eq_refl) as (s0 & s' & E0 & E).
  change h24 with (firstn 4 h24 ++ [OGen [[1; 1]; [1; 0]; [4; 4]; [0; 5]] []]) in E. apply run_split in E as (s & E1 & E2).
  exists s0, s, s'. split; [econstructor; eauto|auto].
Qed.
(** The hypotheses of the last theorem are those of C80_effect_partial and [constructed]. *)
Example C81_two_point_example : constructed k24t /\ k_tpa k24t = 2%Z /\ exists s0 s1 pop s2 s, let p := npar_of k24t Full in let g := cfg_of k24t in
  st_new (cma_num p) g [1; 2] num0 = Ok s0 /\ run_ops (cma_num p) (call_env zig) g h24 s0 = Ok s1 /\ (0 < s_niter (t_sol s1))%Z /\
  ask (cma_num p) (call_env zig) g s1 = Ok (pop, s2) /\ run_ops (cma_num p) (call_env zig) g [OGen moved_cols []] s2 = Ok s.
Proof. split; [apply k24t_constructed|]. split; [reflexivity|]. apply effect_instance. Qed.
