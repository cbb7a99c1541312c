(** Specification of std::sort and of the ranks of uncertainty handling. *)
From Coq Require Import Permutation.
From Verif Require Import Base Dbl Config Search.
Local Open Scope Z_scope.

(** What std::sort guarantees when its comparison is a strict weak order. *)
Definition sorted_by {A} (cmp : A -> A -> bool) (l : list A) : Prop :=
  forall i j a b, (i < j)%nat -> nth_error l i = Some a -> nth_error l j = Some b -> cmp b a = false.
Definition std_sort_ok {T N} (e : env T N) : Prop :=
  forall cmp l, swo_on cmp l = true -> Permutation (e_sort e cmp l) l /\ sorted_by cmp (e_sort e cmp l).

(** The integers 0 .. n-1. *)
Definition upto (n : nat) : list Z := map Z.of_nat (seq 0 n).

(** [rank] orders the candidates of [l] by [value]: the ranks are 0 .. n-1 and a
    smaller value has a smaller rank. *)
Definition ranks_by (value : rcand -> dbl) (rank : rcand -> Z) (l : list rcand) : Prop :=
  Permutation (map rank l) (upto (length l)) /\
  forall a b, In a l -> In b l -> dlt (value a) (value b) = true -> rank a < rank b.

(** Strict weak order. *)
Definition strict_weak_order {A} (cmp : A -> A -> bool) (dom : A -> Prop) : Prop :=
  (forall a, dom a -> cmp a a = false) /\
  (forall a b, dom a -> dom b -> cmp a b = true -> cmp b a = false) /\
  (forall a b c, dom a -> dom b -> dom c -> cmp a b = true -> cmp b c = true -> cmp a c = true) /\
  (forall a b c, dom a -> dom b -> dom c -> cmp a b = false -> cmp b a = false -> cmp b c = false -> cmp c b = false ->
     cmp a c = false /\ cmp c a = false).

(** [v] is at position [k] (from 0) when the elements of [l] are put in order. *)
Definition at_position (k : nat) (l : list Z) (v : Z) : Prop :=
  In v l /\ (length (filter (fun x => Z.ltb x v) l) <= k < length (filter (fun x => Z.leb x v) l))%nat.
(** The limit of the rank change of a candidate of rank [d]: the tenth
    percentile of the changes to the ranks 1 .. 2 lambda - 1. *)
Definition rank_limit (lambda : nat) (d v : Z) : Prop :=
  at_position ((2 * lambda - 1) / 10) (map (fun j => Z.abs (Z.of_nat j - d)) (seq 1 (2 * lambda - 1))) v.
Fixpoint zsum (l : list Z) : Z := match l with [] => 0 | x :: l' => x + zsum l' end.
(** Second value and rank change of a candidate when the first [r] of a
    population were evaluated again, from call number [k] on. *)
Definition reevaluated {T} (log : list (list T * dbl)) (k r : nat) (a : rcand) : Prop :=
  if (r_idx a <? r)%nat
  then (exists y, nth_error log (k + r_idx a) = Some (y, r_mut a)) /\ r_delta a = r_r2 a - r_r1 a - Z.sgn (r_r2 a - r_r1 a)
  else r_mut a = r_f a /\ r_delta a = 0.
(** The noise level, times the number of candidates evaluated again, with
    limits [L]. *)
Definition noise (L : Z -> Z) (r : nat) (l : list rcand) : Z :=
  zsum (map (fun a => if (r_idx a <? r)%nat
    then 2 * Z.abs (r_delta a) - L (if r_r1 a <? r_r2 a then r_r2 a - 1 else r_r2 a) - L (if r_r2 a <? r_r1 a then r_r1 a - 1 else r_r1 a)
    else 0) l).
