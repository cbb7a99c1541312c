(** Property C92: the second evaluations of uncertainty handling. *)
From Coq Require Import Reals List Lia Lra ZArith.
From Verif Require Import Base Dbl Vec SpecBounds SpecGeno GenoPheno Params Config Search SpecSearch SpecSafe SpecUh Update SpecUpdate DemoNum NumThms SpecSample SpecGrad GradThms SpecReev ReevProofs ReevThms.
Import ListNotations.
Open Scope R_scope.

(** Every candidate is evaluated once, then the first [r] again, each at its
    evaluated point plus eps sigma times new standard normal draws; the draws of
    different points are different, and nothing else is evaluated. *)
Theorem C92_points : forall p e g s s1 cols phen, let rl := k_rlambda (p_k p) * INR (k_lambda (p_k p)) in
  g_uh g = true -> INR (g_reev g) <= rl < INR (g_reev g) + 1 -> (phen = [] \/ length phen = length cols) ->
  eval (cma_num p) e g cols phen s = Ok s1 ->
  exists r ys, reev_count rl (p_unif p (coins s)) r /\ (r <= length cols)%nat /\ length ys = r /\
    new_calls s s1 (evaluated cols phen ++ ys) /\
    (forall c x y, nth_error (evaluated cols phen) c = Some x -> nth_error ys c = Some y ->
       perturbed p (p_epsuh p * sigma_of s) (drawn s + c * k_dim (p_k p)) x y) /\
    drawn s1 = (drawn s + r * k_dim (p_k p))%nat /\ coins s1 = S (coins s).
Proof. exact reev_thm. Qed.
Print Assumptions C92_points.
(** With bounds: all candidates are feasible and the objective is called outside. *)
Theorem C92_feasible_refuted : exists p e g gp lb ub x0 s cols phen s1 y v,
  constructed (p_k p) /\ uses_gp p e gp /\ std_sort_ok e /\ ordered lb ub /\ gp_bounds None lb ub = Ok gp /\ g_uh g = true /\
  st_new (cma_num p) g x0 num0 = Ok s /\ mapM (pheno gp) cols = Ok phen /\ length cols = g_lambda g /\ Forall (inside lb ub) phen /\
  eval (cma_num p) e g cols phen s = Ok s1 /\ In (y, v) (t_log s1) /\ ~ inside lb ub y.
Proof. exact outside_bounds. Qed.
Print Assumptions C92_feasible_refuted.
(** With a fixed parameter: all candidates have its value and the objective is
    called with another one. *)
Theorem C92_fixed_refuted : exists p e g x0 s cols s1 y v,
  constructed (p_k p) /\ same_problem p g /\ fixed_ok p /\ std_sort_ok e /\ g_uh g = true /\ (forall x, p_scale p x = x) /\ (forall x, e_pheno e x = Ok x) /\
  st_new (cma_num p) g x0 num0 = Ok s /\ length cols = g_lambda g /\ Forall (has_fixed (g_fixed g)) cols /\
  eval (cma_num p) e g cols [] s = Ok s1 /\ In (y, v) (t_log s1) /\ ~ has_fixed (g_fixed g) y.
Proof. exact fixed_moved. Qed.
Print Assumptions C92_fixed_refuted.
(** Four points in two dimensions: two of them are evaluated again. *)
Example C92_example : let p := npar_of k24 Full in let g := uh_cfg k24 in
  g_uh g = true /\ INR (g_reev g) <= k_rlambda (p_k p) * INR (k_lambda (p_k p)) < INR (g_reev g) + 1 /\
  exists s s1, st_new (cma_num p) g [1; 1] num0 = Ok s /\ eval (cma_num p) flat_env g (repeat [1; 1] 4) [] s = Ok s1 /\
  reev_count (k_rlambda (p_k p) * INR (k_lambda (p_k p))) (p_unif p (coins s)) 2.
Proof. exact reev_example. Qed.
