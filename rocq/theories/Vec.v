(** Finite sums, vectors and matrices over the reals; a vector of dimension [n]
    is read at the indices below [n] only. *)
From Coq Require Import Reals List.
Import ListNotations.
Open Scope R_scope.

Definition vec := nat -> R.
Definition mat := nat -> nat -> R.
Fixpoint rsum (n : nat) (f : nat -> R) : R :=
  match n with O => 0 | S m => rsum m f + f m end.
Definition dot (n : nat) (u v : vec) : R := rsum n (fun i => u i * v i).
Definition norm (n : nat) (u : vec) : R := sqrt (dot n u u).
Definition mv (n : nat) (a : mat) (x : vec) : vec := fun i => rsum n (fun j => a i j * x j).
Definition mt (a : mat) : mat := fun i j => a j i.
Definition mm (n : nat) (a b : mat) : mat := fun i j => rsum n (fun k => a i k * b k j).
Definition diag (d : vec) : mat := fun i j => if Nat.eqb i j then d i else 0.
Definition ident : mat := diag (fun _ => 1).
Definition outer (u v : vec) : mat := fun i j => u i * v j.
(** x^T a x *)
Definition quad (n : nat) (a : mat) (x : vec) : R := dot n x (mv n a x).
(** Largest and smallest coefficient of the first [n] (maxCoeff, minCoeff). *)
Fixpoint vmax (n : nat) (v : vec) : R :=
  match n with O => 0 | S O => v 0%nat | S m => Rmax (vmax m v) (v m) end.
Fixpoint vmin (n : nat) (v : vec) : R :=
  match n with O => 0 | S O => v 0%nat | S m => Rmin (vmin m v) (v m) end.
(** Points are lists in the search model. *)
Definition at0 (l : list R) : vec := fun i => nth i l 0.
Definition tab (n : nat) (v : vec) : list R := map v (seq 0 n).
(** The entries of a matrix of dimension [n]. *)
Definition mtab (n : nat) (a : mat) : list (list R) := map (fun i => tab n (a i)) (seq 0 n).
