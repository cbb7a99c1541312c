(** Searches started from a solution object. *)
From Coq Require Import Reals List.
From Verif Require Import Base Dbl Vec Params Config Search SpecSearch SpecInvar SpecSafe SpecUh Update SpecUpdate.
Import ListNotations.
Open Scope R_scope.

(** Solution objects left by runs of dimension [d], population size [lambda] and
    history setting [mh]: any objective, settings, parameters and calls of whole
    generations, possibly started from such an object themselves. *)
Inductive left_by_run (d lambda : nat) (mh : Z) : sol R num -> Prop :=
| left_new : forall p e g x0 n s0 h s,
    g_dim g = d -> g_lambda g = lambda -> g_max_hist g = mh -> k_dim (p_k p) = d -> std_sort_ok e ->
    st_new (cma_num p) g x0 n = Ok s0 -> Forall (whole_gen g) h -> run_ops (cma_num p) e g h s0 = Ok s ->
    left_by_run d lambda mh (t_sol s)
| left_warm : forall p e g so h s,
    g_dim g = d -> g_lambda g = lambda -> g_max_hist g = mh -> k_dim (p_k p) = d -> std_sort_ok e ->
    left_by_run d lambda mh so -> Forall (whole_gen g) h -> run_ops (cma_num p) e g h (st_from_solution (cma_num p) so) = Ok s ->
    left_by_run d lambda mh (t_sol s).

(** Full covariance, default adaptation of the step size, no elitism, no
    uncertainty handling, no gradient, default progress function. *)
Definition plain_run (p : npar) (e : env R num) (g : cfg R) : Prop :=
  k_sep (p_k p) = false /\ k_vd (p_k p) = false /\ p_upd p <> Vd /\ g_tpa g = k_tpa (p_k p) /\ k_tpa (p_k p) = 1%Z /\
  g_elit g = elit0 /\ g_init_fvalue g = false /\ g_uh g = false /\ g_gradient g = false /\ g_edm g = false /\
  (forall so, e_progress e so = 0%Z).
(** The transform keeps the dimension. *)
Definition pheno_keeps (e : env R num) (g : cfg R) : Prop :=
  forall x y, length x = g_dim g -> e_pheno e x = Ok y -> length y = g_dim g.
(** The same parameters with another initial step size. *)
Definition with_sigma0 (v : R) (p : npar) : npar :=
  mkNpar (p_k p) (p_upd p) v (p_lazy p) (p_xtol p) (p_tpac p) (p_epsuh p) (p_eig p)
    (p_normal p) (p_unif p) (p_scale p) (p_pheno p) (p_ub p) (p_ugrad p).

(** Same evaluations, generations, counters, status, ranking, histories and
    distribution. *)
Definition same_search (d : nat) (s s' : st R num) : Prop :=
  t_log s' = t_log s /\ t_gens s' = t_gens s /\ t_niter s' = t_niter s /\ t_nevals s' = t_nevals s /\
  s_niter (t_sol s') = s_niter (t_sol s) /\ s_nevals (t_sol s') = s_nevals (t_sol s) /\ s_status (t_sol s') = s_status (t_sol s) /\
  s_cands (t_sol s') = s_cands (t_sol s) /\ s_hist (t_sol s') = s_hist (t_sol s) /\ s_khist (t_sol s') = s_khist (t_sol s) /\
  s_bf (t_sol s') = s_bf (t_sol s) /\ s_med (t_sol s') = s_med (t_sol s) /\
  sigma_of s' = sigma_of s /\
  forall i, (i < d)%nat -> mean_of s' i = mean_of s i /\
    x_psigma (s_num (t_sol s')) i = x_psigma (s_num (t_sol s)) i /\ x_pc (s_num (t_sol s')) i = x_pc (s_num (t_sol s)) i /\
    forall j, (j < d)%nat -> cov_of s' i j = cov_of s i j.
Definition same_result (d : nat) (r r' : res (st R num)) : Prop :=
  match r, r' with
  | Ok s, Ok s' => same_search d s s'
  | Fault f, Fault f' => f = f'
  | _, _ => False
  end.
Definition same_outcome (d : nat) (r r' : res (Z * st R num)) : Prop :=
  match r, r' with
  | Ok (c, s), Ok (c', s') => c' = c /\ same_search d s s'
  | Fault f, Fault f' => f = f'
  | _, _ => False
  end.
