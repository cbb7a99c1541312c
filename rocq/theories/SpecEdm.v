(** What the expected distance to the minimum is documented to be. *)
From Coq Require Import Reals List.
From Verif Require Import Base Dbl Vec Params Config Search Update SpecUpdate.
Import ListNotations.
Open Scope R_scope.

(** The reported value (CMASolutions::edm()). *)
Definition edm_of (s : st R num) : R := x_edm (s_num (t_sol s)).
(** n / (10 (sqrt (lambda / 4 + 1/2) - 1)). *)
Definition edm_scale (k : cpar) : R := 10 * (sqrt (INR (k_lambda k) / 4 + 1 / 2) - 1).
Definition edm_factor (k : cpar) : R := INR (k_dim k) / edm_scale k.

(** Step of the difference quotients at [x]. *)
Definition quotient_step (x : vec) (i : nat) : R := (1 + Rabs (x i)) / 10 ^ 8.
(** Gradient of the objective at the phenotype of the mean: the user's, or
    forward differences of the objective [f], at points kept below the upper
    bounds [ub]. *)
Definition value_is (v : dbl) (r : R) : Prop := exists z, v = Fin z /\ r = IZR z / 2 ^ 1074.
Definition forward (d : nat) (ub : nat -> option R) (x : vec) (i : nat) : list R :=
  tab d (fun j => if Nat.eqb j i then match ub j with Some u => Rmin (x j + quotient_step x j) u | None => x j + quotient_step x j end else x j).
Definition objective_slope (p : npar) (e : env R num) (x : list R) (gr : vec) : Prop :=
  if e_gfunc e then forall i, (i < k_dim (p_k p))%nat -> gr i = at0 (p_ugrad p x) i
  else exists f fx fi, (forall j y, e_f e j y = f y) /\ value_is (f x) fx /\
    forall i, (i < k_dim (p_k p))%nat -> value_is (f (forward (k_dim (p_k p)) (p_ub p) (at0 x) i)) (fi i) /\ gr i = (fi i - fx) / quotient_step (at0 x) i.
(** Derivatives of the transform of the parameters, by central differences. *)
Definition transform_slope (p : npar) (m : vec) (i : nat) : R :=
  let d := k_dim (p_k p) in
  (at0 (p_pheno p (tab d (fun j => m j + quotient_step m j))) i - at0 (p_pheno p (tab d (fun j => m j - quotient_step m j))) i) / (2 * quotient_step m i).
(** [gr] is the gradient at the mean with respect to the internal parameters. *)
Definition slope_at_mean (p : npar) (e : env R num) (s : st R num) (gr : vec) : Prop :=
  exists go, objective_slope p e (p_pheno p (tab (k_dim (p_k p)) (mean_of s))) go /\
  forall i, (i < k_dim (p_k p))%nat -> gr i = go i * transform_slope p (mean_of s) i.
(** The transform of the search is the one of the parameters. *)
Definition same_transform (p : npar) (e : env R num) : Prop := forall x, e_pheno e x = Ok (p_pheno p x).

(** The expected distance: the change of the objective over one standard
    deviation of the distribution N (m, sigma^2 C) along the gradient. *)
Definition expected_distance (p : npar) (sigma : R) (c : mat) (gr : vec) : R :=
  edm_factor (p_k p) * (sigma * sqrt (quad (k_dim (p_k p)) c gr)).
