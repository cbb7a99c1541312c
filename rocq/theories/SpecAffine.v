(** Searches that correspond through x -> c x + t. *)
From Coq Require Import Reals List.
From Verif Require Import Base Dbl Vec Params Config Search SpecSearch SpecInvar SpecMorph SpecSafe Update SpecUpdate.
Import ListNotations.
Open Scope R_scope.

(** Coordinate i of a point becomes c x_i + t_i. *)
Definition aff (c : R) (t : nat -> R) (x : list R) : list R := tab (length x) (fun i => c * at0 x i + t i).
(** Its inverse. *)
Definition unaff (c : R) (t : nat -> R) (y : list R) : list R := tab (length y) (fun i => (at0 y i - t i) / c).
(** The same problem for the moved objective f((x - t) / c); the progress
    function is [pr]. *)
Definition moved_env (c : R) (t : nat -> R) (pr : sol R num -> Z) (e : env R num) : env R num :=
  mkEnv (fun k y => e_f e k (unaff c t y)) (e_gfunc e) (e_pheno e) pr (e_sort e).
(** Fixed parameters with their values moved. *)
Definition moved_fixed (c : R) (t : nat -> R) (fx : list (Z * R)) : list (Z * R) :=
  map (fun q => (fst q, c * snd q + t (Z.to_nat (fst q)))) fx.
(** The same parameters with fixed values moved and initial step size times c. *)
Definition moved_cpar (c : R) (t : nat -> R) (k : cpar) : cpar :=
  mkPar (k_dim k) (k_lambda k) (k_mu k) (k_w k) (k_muw k) (k_csigma k) (k_cc k) (k_c1 k) (k_cmu k) (k_dsigma k)
    (k_fact_ps k) (k_fact_pc k) (k_chi k) (k_lazy k) (k_rlambda k) (k_alphathuh k) (k_sep k) (k_vd k) (k_algo k) (k_tpa k)
    (moved_fixed c t (k_fixed k)).
Definition moved_par (c : R) (t : nat -> R) (p : npar) : npar :=
  mkNpar (moved_cpar c t (p_k p)) (p_upd p) (c * p_sigma0 p) (p_lazy p) (p_xtol p) (p_tpac p) (p_epsuh p) (p_eig p)
    (p_normal p) (p_unif p) (p_scale p) (p_pheno p) (p_ub p) (p_ugrad p).
Definition moved_cfg (c : R) (t : nat -> R) (g : cfg R) : cfg R := set_g_fixed (moved_fixed c t (g_fixed g)) g.

(** Corresponding distributions: means moved, step size times c, covariance,
    variances and evolution paths equal, same position in the random streams. *)
Definition moved_num (d : nat) (c : R) (t : nat -> R) (n n' : num) : Prop :=
  (forall i, (i < d)%nat -> x_mean n' i = c * x_mean n i + t i) /\
  x_sigma n' = c * x_sigma n /\
  (forall i j, (i < d)%nat -> (j < d)%nat -> x_cov n' i j = x_cov n i j) /\
  (forall i, (i < d)%nat -> x_sep n' i = x_sep n i) /\
  (forall i, (i < d)%nat -> x_v n' i = x_v n i) /\
  (forall i, (i < d)%nat -> x_psigma n' i = x_psigma n i) /\
  (forall i, (i < d)%nat -> x_pc n' i = x_pc n i) /\
  x_tpas n' = x_tpas n /\
  (forall i, (i < d)%nat -> x_prev n' i = c * x_prev n i + t i) /\
  (forall i, (i < d)%nat -> x_smean n' i = c * x_smean n i + t i) /\
  (forall i, (i < d)%nat -> x_leig n' i = x_leig n i) /\
  (forall i j, (i < d)%nat -> (j < d)%nat -> x_csqinv n' i j = x_csqinv n i j) /\
  x_lvec n' = x_lvec n /\ x_dec n' = x_dec n /\
  x_maxev n' = x_maxev n /\ x_minev n' = x_minev n /\
  x_fresh n' = x_fresh n /\ x_eigiter n' = x_eigiter n /\ x_pos n' = x_pos n /\ x_upos n' = x_upos n.
(** Random streams at the same position before construction (the constructor
    keeps nothing else but the mean and decomposition of the sampler, which the
    first ask replaces). *)
Definition same_stream (c : R) (t : nat -> R) (n n' : num) : Prop :=
  x_pos n' = x_pos n /\ x_upos n' = x_upos n /\ (forall i, x_smean n' i = c * x_smean n i + t i) /\ x_dec n' = x_dec n.
(** Settings under which the search sees nothing but the objective: no bounds or
    scaling, no gradient. *)
Definition plain_space (p : npar) (e : env R num) (g : cfg R) : Prop :=
  (forall x, e_pheno e x = Ok x) /\ (forall x, p_scale p x = x) /\
  g_gradient g = false /\ g_edm g = false.
(** Populations of lambda points of the right dimension. *)
Definition point_op (g : cfg R) (o : op R) : Prop :=
  match o with
  | OEval _ _ | OTell | OInc => False
  | OGen cols phen => length cols = g_lambda g /\ Forall (fun x => length x = g_dim g) cols /\ Forall (fun x => length x = g_dim g) phen
  | _ => True
  end.
