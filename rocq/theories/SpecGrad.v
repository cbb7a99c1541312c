(** Vocabulary of the numerical gradient. *)
From Coq Require Import Reals List.
From Verif Require Import Base Dbl Vec GenoPheno Search Update.
Import ListNotations.
Open Scope R_scope.

(** The search and its numeric part use the transform [gp]: phenotypes come from
    it, and the upper bound of a coordinate is what its bound strategy's getUBound
    answers (none without bounds, where it answers the largest double). *)
Definition uses_gp (p : npar) (e : env R num) (gp : genopheno) : Prop :=
  (forall x, e_pheno e x = pheno gp x) /\
  (forall i, p_ub p i = match intern_bounds gp with None => None | Some l => option_map snd (nth_error l i) end).
(** The points of the calls made between two states. *)
Definition new_calls (s s' : st R num) (pts : list (list R)) : Prop :=
  exists log, t_log s' = t_log s ++ log /\ map fst log = pts.
(** [y] is [x] but for coordinate [i], which is larger. *)
Definition stepped (i : nat) (x y : list R) : Prop :=
  length y = length x /\ (forall j, j <> i -> nth_error y j = nth_error x j) /\ at0 x i < at0 y i.
(** Real value of a + b . x *)
Definition affine_at (d : nat) (a : R) (b : nat -> R) (x : list R) : R := a + rsum d (fun i => b i * at0 x i).
(** The objective returns exactly a + b . y at every point of [pts]. *)
Definition affine_on (d : nat) (e : env R num) (a : R) (b : nat -> R) (pts : list (list R)) : Prop :=
  forall j y, In y pts -> exists z, e_f e j y = Fin z /\ IZR z / 2 ^ 1074 = affine_at d a b y.
