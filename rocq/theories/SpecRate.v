(** Specification of the rate of change of the step size. *)
From Coq Require Import Reals List ZArith.
From Verif Require Import Base Dbl Vec Params SpecParams Config Search SpecSearch Update SpecUpdate.
Open Scope R_scope.

(** Parameters made by the constructor and the setters, adapted for VD-CMA or not. *)
Definition constructed_any (k : cpar) : Prop :=
  constructed k \/ exists k0 a, constructed k0 /\ k = set_vd (set_algo a k0).
(** Length of the evolution path. *)
Definition path_length (p : npar) (s : st R num) : R := norm (k_dim (p_k p)) (x_psigma (s_num (t_sol s))).
