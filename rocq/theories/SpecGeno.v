(** Specification vocabulary that mentions the transform objects: which objects
    a user can build, and well-behaved user functions. *)
From Coq Require Import Reals List.
From Verif Require Import Base Pwq Scaling GenoPheno.

(** User encode/decode functions return as many coordinates as they are given
    (the C interface passes one dimension for input and output). *)
Definition len_pres (cust : option (transfunc * transfunc)) : Prop :=
  match cust with None => True | Some (ge, ph) =>
    (forall v, length (ge v) = length v) /\ (forall v, length (ph v) = length v) end.

(** Transforms obtained from the public constructors, identity custom functions. *)
Inductive built (n : nat) : genopheno -> Prop :=
| B_none : built n gp_default_nb
| B_bounds lb ub g : length lb = n -> gp_bounds None lb ub = Ok g -> built n g
| B_bounds_lin lb ub g : length lb = n -> gp_bounds_lin None lb ub = Ok g -> built n g
| B_nb_lin lb ub g : length lb = n -> gp_nb_lin None lb ub = Ok g -> built n g
| B_scaling sc sh g : length sc = n -> gp_scaling_nb sc sh = Ok g -> built n g
| B_scaling_pwq sc sh lb ub g : length sc = n -> gp_scaling_pwq sc sh (Some (lb, ub)) = Ok g -> built n g.
