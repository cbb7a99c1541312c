(** Property C75: feasibility of the doubles passed to the objective function. *)
From Coq Require Import Reals Lra List ZArith.
From Flocq Require Import Core BinarySingleNaN.
From Verif Require Import Base Pwq64 SpecPwq64 Pwq64Proofs Pwq64Vec.
Import ListNotations.
Open Scope R_scope.

(** Missing from the full statement: bounds of magnitude above 2^500 (false, see
    C75_large_bounds_refuted) and bounds closer than 2^-400 or than 2^-40 of
    their magnitude (not proved). *)
Theorem C75_binary64_feasible_partial : forall lb ub x,
  Forall2 usual_bounds lb ub -> length x = length lb -> Forall number x ->
  (exists y, pheno_bounds64 lb ub x = Ok y /\ inside64 lb ub y) \/ pheno_bounds64 lb ub x = Fault IntCast.
Proof. exact vec_feasible. Qed.
Print Assumptions C75_binary64_feasible_partial.

Theorem C75_binary64_within_range_partial : forall lb ub x,
  Forall2 usual_bounds lb ub -> length x = length lb -> within_widths64 (2 ^ 30) lb ub x ->
  exists y, pheno_bounds64 lb ub x = Ok y /\ inside64 lb ub y.
Proof. exact vec_total. Qed.
Print Assumptions C75_binary64_within_range_partial.

Example C75_example : exists y, pheno_bounds64 [w_lb; f0] [w_ub; f10] [fnum 1 3; fnum (-7) 0] = Ok y /\ inside64 [w_lb; f0] [w_ub; f10] y.
Proof. exact box_example. Qed.
Example C75_example_bounds : Forall2 usual_bounds [w_lb; f0] [w_ub; f10] /\ Forall number [fnum 1 3; B754_infinity true].
Proof. split; [constructor; [exact w_usual|constructor; [exact unit_usual|constructor]]|constructor; [reflexivity|constructor; [reflexivity|constructor]]]. Qed.

(** With linear scaling the bounds hold up to rounding only. *)
Theorem C75_scaled_nearly_partial : forall lb ub x,
  Forall2 usual_bounds lb ub -> length x = length lb -> Forall number x ->
  (exists y, pheno_scaled64 lb ub x = Ok y /\ nearly_inside64 lb ub y) \/ pheno_scaled64 lb ub x = Fault IntCast.
Proof. exact vec_scaled. Qed.
Print Assumptions C75_scaled_nearly_partial.

Theorem C75_scaling_refuted : exists lb ub x y,
  usual_bounds lb ub /\ finite x /\ pheno_scaled64 [lb] [ub] [x] = Ok [y] /\ finite y /\ value y < value lb.
Proof. exact scaled_outside. Qed.
Print Assumptions C75_scaling_refuted.

Theorem C75_large_bounds_refuted : exists lb ub,
  finite lb /\ finite ub /\ value lb < value ub /\ pheno_bounds64 [lb] [ub] [lb] = Ok [B754_infinity false].
Proof. exact huge_outside. Qed.
Print Assumptions C75_large_bounds_refuted.

Theorem C75_far_genotype_refuted : exists lb ub x,
  usual_bounds lb ub /\ finite x /\ pheno_bounds64 [lb] [ub] [x] = Fault IntCast.
Proof. exact far_fault. Qed.
Print Assumptions C75_far_genotype_refuted.
