(** Specification vocabulary for error estimation. *)
From Coq Require Import Reals.
From Verif Require Import Base GenoPheno Errstats.
Open Scope R_scope.

(** Indices from low to high, without repetition, all below [n]. *)
Definition low_to_high (n : nat) (ks : list nat) : Prop :=
  (forall i k k', nth_error ks i = Some k -> nth_error ks (S i) = Some k' -> (k < k')%nat) /\
  (forall k, In k ks -> (k < n)%nat).

(** The vector [x] has the value [vs_i] at the index [ks_i]. *)
Definition values_at (ks : list nat) (vs x : list R) : Prop :=
  forall i k v, nth_error ks i = Some k -> nth_error vs i = Some v -> nth_error x k = Some v.

(** What is expected of a search: the point it returns has the dimension of its
    start, and comes with the value, for the function it was given, of its
    decoded form. *)
Definition keeps_dim (cm : (list R -> R) -> ipar -> res iout) : Prop :=
  forall rf ip o, cm rf ip = Ok o -> length (o_x o) = length (i_x0 ip).
Definition true_value (cm : (list R -> R) -> ipar -> res iout) : Prop :=
  forall rf ip o, cm rf ip = Ok o -> exists y, pheno (i_gp ip) (o_x o) = Ok y /\ o_f o = rf y.

(** The objective value of [v] is the level [m + fup] within ten percent of
    [fup], as the profile likelihood requires. *)
Definition near_level (m fup v : R) : Prop := Rabs (v - m - fup) <= fup / 10.

(** No access outside a vector, no operation on vectors of different sizes, no
    front() or back() of an empty vector. *)
Definition in_range {A} (r : res A) : Prop :=
  r <> Fault OutOfRange /\ r <> Fault SizeMismatch /\ r <> Fault EmptyFront.

(** A solution of dimension [n] as left by a run that estimates a full covariance
    matrix: it has a current and a best candidate of [n] coordinates, and [n]
    eigenvectors. *)
Definition full_solution (n : nat) (s : esol) : Prop :=
  (exists c cs, s_cands s = c :: cs /\ length (ec_x c) = n) /\
  (exists h b, s_hist s = h ++ [b] /\ length (ec_x b) = n) /\
  length (s_eigv s) = n /\ Forall (fun r => length r = n) (s_eigv s).

(** The call does not run out of fuel. *)
Definition ends {A} (r : res A) : Prop := r <> Fault Diverges.

(** The point reached from [x] by the step [d], doubled [j] times, along the
    direction of coordinate [k], in phenotype. *)
Definition after_doublings (par : epar) (eigv : list (list R)) (k : nat) (d : R) (x : list R) (j : nat) : res (list R) :=
  do r <- direction par eigv k (d * 2 ^ j); do z <- vadd x r; pheno (a_gp par) z.
