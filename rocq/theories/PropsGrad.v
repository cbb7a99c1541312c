(** Property C62: the numerical gradient. *)
From Coq Require Import Reals List Lra ZArith.
From Verif Require Import Base Dbl Vec SpecBounds SpecGeno GenoPheno Params Config Search Update SpecUpdate DemoNum Demo SpecGrad GradProofs GradThms.
Import ListNotations.
Open Scope R_scope.

(** An ask with gradient and without a user gradient calls the objective dim + 1
    times: at the phenotype x of the mean, then at x with one coordinate
    increased, coordinate by coordinate; the calls are counted. *)
Theorem C62_calls : forall p e g s pop s',
  g_dim g = k_dim (p_k p) -> g_gradient g = true -> e_gfunc e = false -> ask (cma_num p) e g s = Ok (pop, s') ->
  exists x ys, e_pheno e (tab (k_dim (p_k p)) (mean_of s)) = Ok x /\ new_calls s s' (x :: ys) /\ length ys = g_dim g /\
    (length x = g_dim g -> forall i y, nth_error ys i = Some y -> (forall u, p_ub p i = Some u -> at0 x i < u) -> stepped i x y) /\
    t_nevals s' = (t_nevals s + Z.of_nat (length (x :: ys)))%Z /\ s_nevals (t_sol s') = (s_nevals (t_sol s) + Z.of_nat (length (x :: ys)))%Z.
Proof. exact calls_thm. Qed.
Print Assumptions C62_calls.
Theorem C62_user_gradient : forall p e g s pop s', e_gfunc e = true -> ask (cma_num p) e g s = Ok (pop, s') ->
  t_log s' = t_log s /\ t_nevals s' = t_nevals s /\ s_nevals (t_sol s') = s_nevals (t_sol s).
Proof. exact user_thm. Qed.
Print Assumptions C62_user_gradient.
(** Every call inside the bounds, when bounds are used without scaling. *)
Theorem C62_inside_bounds_partial : forall p e g cust lb ub gp s pop s', uses_gp p e gp ->
  ordered lb ub -> len_pres cust -> gp_bounds cust lb ub = Ok gp -> length lb = k_dim (p_k p) -> g_dim g = k_dim (p_k p) ->
  g_gradient g = true -> e_gfunc e = false -> ask (cma_num p) e g s = Ok (pop, s') ->
  exists ys, new_calls s s' ys /\ length ys = S (g_dim g) /\ Forall (inside lb ub) ys.
Proof. exact inside_thm. Qed.
Print Assumptions C62_inside_bounds_partial.
(** With linear scaling the step is cut at the bound of the scaled space, and a
    call can be outside the user's bounds. *)
Theorem C62_inside_bounds_refuted : exists p e g gp lb ub x s gr s' y v,
  uses_gp p e gp /\ ordered lb ub /\ gp_bounds_lin None lb ub = Ok gp /\ inside lb ub x /\ length x = k_dim (p_k p) /\ g_dim g = k_dim (p_k p) /\ e_gfunc e = false /\
  gradf (cma_num p) e g x s = (gr, s') /\ In (y, v) (t_log s') /\ ~ inside lb ub y.
Proof. exact scaled_outside. Qed.
Print Assumptions C62_inside_bounds_refuted.
(** Exact for affine objectives while the step stays below the upper bounds. *)
Theorem C62_affine_partial : forall p e g a b x s gr s',
  g_dim g = k_dim (p_k p) -> length x = k_dim (p_k p) -> e_gfunc e = false ->
  (forall i u, (i < k_dim (p_k p))%nat -> p_ub p i = Some u -> at0 x i + eps_at (at0 x) i <= u) ->
  affine_on (k_dim (p_k p)) e a b (x :: map (fun i => grad_point p i x) (seq 0 (g_dim g))) ->
  gradf (cma_num p) e g x s = (gr, s') ->
  forall i, (i < k_dim (p_k p))%nat -> grad_vec p x gr i = b i.
Proof. exact affine_thm. Qed.
Print Assumptions C62_affine_partial.
(** At the upper bound the gradient of x |-> x comes out as zero. *)
Theorem C62_affine_refuted : exists p e g gp lb ub x s gr s' (b : R),
  uses_gp p e gp /\ ordered lb ub /\ gp_bounds None lb ub = Ok gp /\ inside lb ub x /\ length x = k_dim (p_k p) /\ g_dim g = k_dim (p_k p) /\ e_gfunc e = false /\
  (exists s0, st_new (cma_num p) g lb num0 = Ok s0 /\ s = s0) /\
  gradf (cma_num p) e g x s = (gr, s') /\ (forall ys, new_calls s s' ys -> affine_on (k_dim (p_k p)) e 0 (fun _ => b) ys) /\
  grad_vec p x gr 0%nat = 0 /\ b <> 0.
Proof. exact affine_at_bound. Qed.
Print Assumptions C62_affine_refuted.
Example C62_example : exists gp s0 pop s, gp_bounds None [0; -1] [1; 3] = Ok gp /\ uses_gp (gp_par k2g gp) (gp_env gp (fun _ => dint 0)) gp /\
  st_new (cma_num (gp_par k2g gp)) g2g [1 / 2; 3] num0 = Ok s0 /\
  ask (cma_num (gp_par k2g gp)) (gp_env gp (fun _ => dint 0)) g2g s0 = Ok (pop, s).
Proof. destruct bounded_ask as (gp & s0 & pop & s & H). exists gp, s0, pop, s. intuition. apply gp_uses. Qed.
Example C62_affine_example : let b := fun i => if Nat.eqb i 0 then 100000000 else 200000000 in
  let p := npar_of k2g Full in let e := gp_env gp_default_nb (aff_f 5 b 2) in
  affine_on 2 e 5 b ([0; 0] :: map (fun i => grad_point p i [0; 0]) (seq 0 2)) /\ p_ub p = (fun _ => None) /\ e_gfunc e = false.
Proof. split; [exact affine_example|]. split; reflexivity. Qed.
