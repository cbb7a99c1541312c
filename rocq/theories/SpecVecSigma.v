(** Specification of a search with a step size for each parameter. *)
From Coq Require Import Reals List.
From Verif Require Import Base Vec Params GenoPheno Search Update SpecUpdate SpecSample.
Import ListNotations.
Open Scope R_scope.

(** One positive step size for each of the [n] parameters. *)
Definition step_sizes (n : nat) (sigma : list R) : Prop := length sigma = n /\ Forall (fun s => 0 < s) sigma.
Definition least (sigma : list R) (m : R) : Prop := In m sigma /\ Forall (fun s => m <= s) sigma.
(** The parameters object [p] of the numeric model has the transform [gp] and
    the initial step size [s]. *)
Definition made_with (p : npar) (gp : genopheno) (s : R) : Prop :=
  p_sigma0 p = s /\ forall x z, scale_i_step (gp_scale gp) x = Ok z -> p_scale p x = z.
(** The points [pop] proposed in state [s], in the user's parameters, are
    normal around [x0] with standard deviation [dev i] in coordinate [i]: they
    are x0 + dev (a z) for an orthogonal a and fresh standard normal draws z. *)
Definition normal_points (p : npar) (gp : genopheno) (s : st R num) (pop : list (list R)) (x0 : list R) (dev : nat -> R) : Prop :=
  exists a, square_root (k_dim (p_k p)) a ident /\
  forall c x, nth_error pop c = Some x ->
    exists y, pheno gp x = Ok y /\ length y = k_dim (p_k p) /\
      forall i v w, nth_error y i = Some v -> nth_error x0 i = Some w -> v = w + dev i * mv (k_dim (p_k p)) a (draws_of p (drawn s) c) i.
