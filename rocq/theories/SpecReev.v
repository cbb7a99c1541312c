(** The second evaluations of uncertainty handling. *)
From Coq Require Import Reals List ZArith.
From Verif Require Import Base Dbl Vec Params Config Search Update SpecUpdate SpecSample.
Import ListNotations.
Open Scope R_scope.

(** Number of candidates to evaluate again: r_lambda lambda, rounded up when the
    uniform draw [u] is below its fractional part and down otherwise, at least 1. *)
Definition reev_count (rl u : R) (r : nat) : Prop :=
  exists fl : nat, INR fl <= rl < INR fl + 1 /\ (u < rl - INR fl -> r = S fl) /\ (rl - INR fl <= u -> r = Nat.max 1 fl).
(** Uniform draws made so far. *)
Definition coins (s : st R num) : nat := x_upos (s_num (t_sol s)).
(** Points given to the objective: the transformed candidates if there are any. *)
Definition evaluated {A} (cols phen : list A) : list A := match phen with [] => cols | _ => firstn (length cols) phen end.
(** [y] is [x] plus [c] times the standard normal draws number [pos], [pos] + 1, ... *)
Definition perturbed (p : npar) (c : R) (pos : nat) (x y : list R) : Prop :=
  length y = k_dim (p_k p) /\ forall i, (i < k_dim (p_k p))%nat -> at0 y i = at0 x i + c * p_normal p (pos + i)%nat.
