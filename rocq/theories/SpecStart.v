(** Where a search starts, in the space of the objective's parameters. *)
From Coq Require Import Reals List ZArith.
From Verif Require Import Base Params SpecBounds Start.
Import ListNotations.
Open Scope R_scope.

(** A point between [lo] and [hi] with the fixed values in their places. *)
Definition start_point (lo hi : list R) (fx : list (Z * R)) (y : list R) : Prop :=
  length y = length lo /\
  forall i l h v, nth_error lo i = Some l -> nth_error hi i = Some h -> nth_error y i = Some v ->
    match map_find fx (Z.of_nat i) with Some w => v = w | None => l <= v <= h end.
(** [dVec::Random]. *)
Definition draws (dim : nat) (u : list R) : Prop := length u = dim /\ Forall (fun v => -1 <= v <= 1) u.
(** A box, or a point, for the start, which is not the value that stands for "no
    initial point". *)
Definition box (dim : nat) (lo hi : list R) : Prop :=
  length lo = dim /\ length hi = dim /\ Forall2 Rle lo hi /\ lo <> repeat (- Update.dbl_max_R) dim.
(** Distinct indices below the dimension. *)
Definition fixed_in (dim : nat) (fx : list (Z * R)) : Prop :=
  NoDup (map fst fx) /\ Forall (fun iv => (0 <= fst iv < Z.of_nat dim)%Z) fx.
(** The search starts at a point between [lo] and [hi]: the constructor chooses
    a mean, and the objective's parameters for that mean are such a point. *)
Definition starts_between (g : GenoPheno.genopheno) (dim : nat) (lo hi : list R) (fx : list (Z * R)) (u : list R) : Prop :=
  exists m y, initial_mean g dim (set_x0_box lo hi) fx u = Ok m /\ GenoPheno.pheno g m = Ok y /\ start_point lo hi fx y.
(** The search starts at [x0]. *)
Definition starts_at (g : GenoPheno.genopheno) (dim : nat) (x0 : list R) (u : list R) : Prop :=
  exists m, initial_mean g dim (set_x0_vector x0) [] u = Ok m /\ GenoPheno.pheno g m = Ok x0.
(** Between the bounds with the strips taken off. *)
Definition off_strips (lb ub y : list R) : Prop :=
  forall i l u v, nth_error lb i = Some l -> nth_error ub i = Some u -> nth_error y i = Some v -> l + strip l u l <= v <= u - strip l u u.
(** The same when the bounds are scaled to [0,10]. *)
Definition off_scaled_strips (lb ub y : list R) : Prop :=
  forall i l u v, nth_error lb i = Some l -> nth_error ub i = Some u -> nth_error y i = Some v -> l + (u - l) / 200 <= v <= u - 11 * (u - l) / 200.
(** The same when the user gives factors and shifts. *)
Definition off_user_strips (sc sh lb ub y : list R) : Prop :=
  forall i s h l u v, nth_error sc i = Some s -> nth_error sh i = Some h ->
    nth_error lb i = Some l -> nth_error ub i = Some u -> nth_error y i = Some v ->
    let l' := s * l + h in let u' := s * u + h in l' + strip l' u' l' <= s * v + h <= u' - strip l' u' u'.
