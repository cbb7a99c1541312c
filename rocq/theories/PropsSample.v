(** C79: the points ask proposes.  Exact real arithmetic; the random generator is
    a sequence of standard normal draws.  [normal_population p g s s' pop m a]:
    point number [c] of [pop] is m + sigma a z_c for draws z_c that no other point
    uses, except for the points ask replaces (gradient, two-point adaptation) and
    the coordinates held fixed; [square_root n a b]: a a^T = b. *)
From Coq Require Import Reals List ZArith Lia Lra.
From Verif Require Import Base Dbl Vec Params SpecParams Config Search SpecSearch Update SpecUpdate Corr SpecSample SampleThms SampleDraws Demo DemoNum DemoNumProofs NumThms ActiveProofs ActiveThms.
Import ListNotations.
Open Scope R_scope.

Theorem C79_normal_partial : forall p e g h s0 s pop s',
  constructed (p_k p) -> p_upd p = Full -> p_lazy p = false -> eigensolver_ok p -> same_problem p g ->
  started p e g s0 -> run_ops (cma_num p) e g h s0 = Ok s -> ask (cma_num p) e g s = Ok (pop, s') ->
  exists a, square_root (k_dim (p_k p)) a (full_cov p (s_num (t_sol s))) /\ normal_population p g s s' pop (mean_of s) a.
Proof. exact sample_thm. Qed.
Print Assumptions C79_normal_partial.
Theorem C79_active_partial : forall p e g h s0 s pop s',
  constructed (p_k p) -> p_upd p = Active -> k_sep (p_k p) = false -> p_lazy p = false ->
  eigensolver_ok p -> k_c1 (p_k p) + 0.66 * k_cmu (p_k p) < 0.66 -> same_problem p g -> started p e g s0 -> asked false h ->
  run_ops (cma_num p) e g h s0 = Ok s -> ask (cma_num p) e g s = Ok (pop, s') ->
  exists a, square_root (k_dim (p_k p)) a (full_cov p (s_num (t_sol s))) /\ normal_population p g s s' pop (mean_of s) a.
Proof. exact sample_active. Qed.
Print Assumptions C79_active_partial.
Theorem C79_active_sep_partial : forall p e g h x0 n0 s0 s pop s',
  constructed (p_k p) -> p_upd p = Active -> k_sep (p_k p) = true ->
  k_c1 (p_k p) + 0.66 * k_cmu (p_k p) < 0.66 -> same_problem p g ->
  st_new (cma_num p) g x0 n0 = Ok s0 -> run_ops (cma_num p) e g h s0 = Ok s -> ask (cma_num p) e g s = Ok (pop, s') ->
  exists a, square_root (k_dim (p_k p)) a (full_cov p (s_num (t_sol s))) /\ normal_population p g s s' pop (mean_of s) a.
Proof. exact sample_active_sep. Qed.
Print Assumptions C79_active_sep_partial.
(** Any state of VD-CMA whose direction is not zero. *)
Theorem C79_vd_partial : forall p e g s pop s',
  k_vd (p_k p) = true -> k_sep (p_k p) = false -> same_problem p g ->
  (exists i, (i < k_dim (p_k p))%nat /\ x_v (s_num (t_sol s)) i <> 0) -> ask (cma_num p) e g s = Ok (pop, s') ->
  exists a, square_root (k_dim (p_k p)) a (full_cov p (s_num (t_sol s))) /\ normal_population p g s s' pop (mean_of s) a.
Proof. exact sample_vd. Qed.
Print Assumptions C79_vd_partial.
(** No draw is used by two populations. *)
Theorem C79_draws_used_once : forall p e g h s s', run_ops (cma_num p) e g h s = Ok s' -> (drawn s <= drawn s')%nat.
Proof. exact draws_grow. Qed.
Print Assumptions C79_draws_used_once.
(** An ask makes the draws of its population, and the ones of the length of the
    pair when two-point adaptation replaces two points; the next begins after them. *)
Theorem C79_draws_counted : forall p e g s pop s', same_problem p g -> ask (cma_num p) e g s = Ok (pop, s') ->
  drawn s' = (drawn s + (k_lambda (p_k p) + if (g_tpa g =? 2)%Z && (0 <? t_niter s)%Z then 1 else 0) * k_dim (p_k p))%nat.
Proof. exact ask_draws. Qed.
Print Assumptions C79_draws_counted.
(** With lazy updates the points are not centred on the mean: after one
    iteration in dimension 40 they are still around the mean of the start. *)
Theorem C79_lazy_refuted : exists p e g x0 n s0 pop s1 s pop' s',
  constructed (p_k p) /\ p_upd p = Full /\ p_lazy p = true /\ same_problem p g /\ k_sep (p_k p) = false /\
  st_new (cma_num p) g x0 n = Ok s0 /\ diagonalises (k_dim (p_k p)) (cov_of s0) (p_eig p (mtab (k_dim (p_k p)) (cov_of s0))) /\
  ask (cma_num p) e g s0 = Ok (pop, s1) /\ run_ops (cma_num p) e g [OGen pop []] s1 = Ok s /\ ask (cma_num p) e g s = Ok (pop', s') /\
  forall a, ~ normal_population p g s s' pop' (mean_of s) a.
Proof. exact lazy_stale. Qed.
Print Assumptions C79_lazy_refuted.

Example C79_example : let p := npar_eig k24 Full eig2 in
  constructed (p_k p) /\ p_lazy p = false /\ eigensolver_ok p /\ same_problem p (cfg_of k24) /\
  exists s0 s pop s', started p (call_env zig) (cfg_of k24) s0 /\ run_ops (cma_num p) (call_env zig) (cfg_of k24) h24 s0 = Ok s /\
    ask (cma_num p) (call_env zig) (cfg_of k24) s = Ok (pop, s').
Proof.
  cbv zeta. split; [apply k24_constructed|]. split; [reflexivity|]. split; [apply eig2_ok; reflexivity|]. split; [split; [|split]; reflexivity|].
  destruct (run_ask k24 Full eig2 eq_refl eq_refl) as (s0 & s & pop & s' & E0 & E & A). exists s0, s, pop, s'. split; [econstructor; eauto|auto].
Qed.
Example C79_active_example : let p := npar_eig k24 Active eig2 in
  constructed (p_k p) /\ p_lazy p = false /\ eigensolver_ok p /\ k_c1 (p_k p) + 0.66 * k_cmu (p_k p) < 0.66 /\ same_problem p (cfg_of k24) /\ asked false h24 /\
  exists s0 s pop s', started p (call_env zig) (cfg_of k24) s0 /\ run_ops (cma_num p) (call_env zig) (cfg_of k24) h24 s0 = Ok s /\
    ask (cma_num p) (call_env zig) (cfg_of k24) s = Ok (pop, s').
Proof.
  cbv zeta. split; [apply k24_constructed|]. split; [reflexivity|]. split; [apply eig2_ok; reflexivity|]. split; [apply k24_active_rates|]. split; [split; [|split]; reflexivity|].
  split; [cbn; auto|]. destruct (run_ask k24 Active eig2 eq_refl eq_refl) as (s0 & s & pop & s' & E0 & E & A). exists s0, s, pop, s'. split; [econstructor; eauto|auto].
Qed.
Example C79_active_sep_example : let k := set_sep k24 in let p := npar_eig k Active eig2 in
  constructed (p_k p) /\ k_sep (p_k p) = true /\ k_c1 (p_k p) + 0.66 * k_cmu (p_k p) < 0.66 /\ same_problem p (cfg_of k) /\
  exists s0 s pop s', st_new (cma_num p) (cfg_of k) [1; 2] num0 = Ok s0 /\ run_ops (cma_num p) (call_env zig) (cfg_of k) h24 s0 = Ok s /\
    ask (cma_num p) (call_env zig) (cfg_of k) s = Ok (pop, s').
Proof.
  cbv zeta. split; [apply k24_sep_constructed|]. split; [reflexivity|]. split; [apply k24_sep_active_rates|]. split; [split; [|split]; reflexivity|].
  apply run_ask; reflexivity.
Qed.
Example C79_vd_example : let p := npar_of kvd24 Vd in k_vd (p_k p) = true /\ k_sep (p_k p) = false /\ same_problem p (cfg_of kvd24) /\
  exists s0 pop s', (exists i, (i < k_dim (p_k p))%nat /\ x_v (s_num (t_sol s0)) i <> 0) /\ ask (cma_num p) (call_env zig) (cfg_of kvd24) s0 = Ok (pop, s').
Proof.
  cbv zeta. split; [reflexivity|]. split; [reflexivity|]. split; [split; [|split]; reflexivity|].
  destruct vd_ask as (s0 & pop & s' & _ & X & A). exists s0, pop, s'. auto.
Qed.
Example C79_draws_example : exists s0 s, started (npar_eig k24 Full eig2) (call_env zig) (cfg_of k24) s0 /\
  run_ops (cma_num (npar_eig k24 Full eig2)) (call_env zig) (cfg_of k24) h24 s0 = Ok s.
Proof. destruct (run_ask k24 Full eig2 eq_refl eq_refl) as (s0 & s & _ & _ & E0 & E & _). exists s0, s. split; [econstructor; eauto|exact E]. Qed.
