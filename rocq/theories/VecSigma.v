(** Model of the constructor of CMAParameters with a step size for each
    parameter, src/cmaparameters.cc:51-68.  Exact real arithmetic. *)
From Coq Require Import Reals List.
From Verif Require Import Base Pwq Scaling GenoPheno.
Import ListNotations.
Open Scope R_scope.

(** The template argument TGenoPheno: bound strategy and scaling strategy. *)
Inductive gp_class := NbPlain | NbLin | PwqPlain | PwqLin.
(** Line 60: 1 divided by each step size.  A zero, for which the code's factor is
    infinite, is a fault. *)
Definition vs_scaling (x0 sigma : list R) : res (list R) := mapM2 (fun _ s => rdiv 1 s) x0 sigma.
(** Lines 61-63 with the constructors genopheno.h:83-92 (which ignores its
    arguments), 336-345 and 347-362.  [bounds]: None for the default, empty,
    vectors; front() of an empty vector, undefined in C++, is taken for the null
    pointer of the common implementations. *)
Definition vs_gp (cl : gp_class) (x0 sigma : list R) (bounds : option (list R * list R)) : res genopheno :=
  match cl with
  | NbPlain => Ok gp_default_nb
  | PwqPlain => Ok (mkGP (PwqBound []) None NoScaling)
  | NbLin => do sc <- vs_scaling x0 sigma; gp_scaling_nb sc (map (fun _ => 0) x0)
  | PwqLin => do sc <- vs_scaling x0 sigma; gp_scaling_pwq sc (map (fun _ => 0) x0) bounds
  end.
(** Line 64: *std::min_element. *)
Definition vs_sigma (sigma : list R) : res R :=
  match sigma with [] => Fault EmptyFront | s :: l => Ok (fold_left (fun m v => if Rlt_dec v m then v else m) l s) end.
(** Lines 51-68: the transform and the scalar step size of the new object; its
    initial point is [x0] (parameters.h:82). *)
Definition vector_sigma (cl : gp_class) (x0 sigma : list R) (bounds : option (list R * list R)) : res (genopheno * R) :=
  do gp <- vs_gp cl x0 sigma bounds; do s <- vs_sigma sigma; Ok (gp, s).
