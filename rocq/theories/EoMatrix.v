(** Model of include/libcmaes/eo_matrix.h.  Indices are [unsigned int]; a C++
    [int] argument is converted modulo 2^32. *)
From Verif Require Import Base.

(** Conversion of an [int] (or wider) argument to [unsigned int]. *)
Definition to_uint (k : Z) : Z := (k mod 4294967296)%Z.

(** removeElement, eo_matrix.h:56-62: no effect when k >= size, otherwise the
    tail is shifted left by one and the vector shortened. *)
Definition remove_at {A} (k : nat) (v : list A) : list A :=
  if (length v <=? k)%nat then v else firstn k v ++ skipn (S k) v.
Definition removeElement {A} (v : list A) (k : Z) : list A :=
  let u := to_uint k in
  if (Z.of_nat (length v) <=? u)%Z then v else remove_at (Z.to_nat u) v.

(** addElement, eo_matrix.h:64-71: no effect when k >= size+1, otherwise grow by
    one, shift the tail right (std::copy on overlapping forward ranges, see
    [copy_forward_right]) and store xk at k. *)
Definition insert_at {A} (k : nat) (a : A) (v : list A) : list A :=
  firstn k v ++ a :: skipn k v.

(** The shift at eo_matrix.h:69 is [std::copy] to a destination that starts
    inside the source range, which is a precondition violation ([d_first] must
    not be in [first,last)).  For trivially copyable doubles the library
    implementations use memmove, which makes it a correct shift; the model
    follows that behaviour and [overlap_copy] below records when the
    precondition is violated. *)
Definition addElement {A} (v : list A) (k : Z) (xk : A) : list A :=
  let u := to_uint k in
  if (Z.of_nat (length v) + 1 <=? u)%Z then v else insert_at (Z.to_nat u) xk v.

(** Number of elements moved by the [std::copy] at eo_matrix.h:69; the
    destination lies inside the source range exactly when it is positive. *)
Definition overlap_copy {A} (v : list A) (k : nat) : bool := (k <? length v)%nat.

(** removeRow, eo_matrix.h:34-43, on a matrix given as its list of rows: rows
    below are moved up and the last row is dropped; an index past the end drops
    the last row.  [rows()-1] wraps around for an empty matrix: the resize then
    asks for 2^32-1 rows (bad_alloc), reported as a fault. *)
Definition removeRow {A} (m : list A) (k : nat) : res (list A) :=
  match m with
  | [] => Fault OutOfRange
  | _ => Ok (if (k <? length m - 1)%nat then firstn k m ++ skipn (S k) m
             else firstn (length m - 1) m)
  end.

(** removeColumn, eo_matrix.h:45-54, on the list of rows of a matrix with
    [ncols] columns. *)
Definition removeColumn {A} (m : list (list A)) (k : nat) : res (list (list A)) :=
  mapM (fun row => removeRow row k) m.
