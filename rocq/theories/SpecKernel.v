(** Specification of the surrogate's ranking model. *)
From Coq Require Import Reals List ZArith Permutation.
From Verif Require Import Base Dbl Vec Rsvm SpecRsvm Kernel.
Import ListNotations.
Local Open Scope R_scope.

(** Two points of dimension [n] are the same. *)
Definition same (n : nat) (x y : vec) : Prop := forall i, (i < n)%nat -> x i = y i.
(** What is assumed of std::sort: it permutes its argument and only looks at
    the outcome of comparisons. *)
Definition comparison_sort (srt : forall A : Type, (A -> A -> bool) -> list A -> list A) : Prop :=
  (forall A cmp l, Permutation (srt A cmp l) l) /\
  forall A B (h : A -> B) cmp cmp' l, (forall a b, cmp' (h a) (h b) = cmp a b) -> srt B cmp' (map h l) = map h (srt A cmp l).
(** [h] keeps the order of the values of the candidates [c]. *)
Definition increasing (h : dbl -> dbl) : Prop := forall a b, dlt (h a) (h b) = dlt a b.
Definition revalue (h : dbl -> dbl) (c : list tcand) : list tcand := map (fun p => (fst p, h (snd p))) c.
(** The point b + k q x. *)
Definition moved (n : nat) (b : vec) (k : R) (q : mat) (x : vec) : vec := fun i => b i + k * mv n q x i.
Definition move_all (n : nat) (b : vec) (k : R) (q : mat) (c : list tcand) : list tcand := map (fun p => (moved n b k q (fst p), snd p)) c.
(** Both succeed and the width of the second is [k]^2 times that of the first,
    with the same multipliers, or both fail alike. *)
Definition same_multipliers (k : R) (m m' : res model) : Prop :=
  match m, m' with
  | Ok (g, al), Ok (g', al') => g' * (k * k) = g /\ al' = al
  | Fault f, Fault f' => f = f'
  | _, _ => False
  end.
(** No two points of the list are the same. *)
Definition all_different (n : nat) (l : list vec) : Prop :=
  forall i j x y, nth_error l i = Some x -> nth_error l j = Some y -> i <> j -> ~ same n x y.
(** No two consecutive points of the list are the same. *)
Definition steps_differ (n : nat) (l : list vec) : Prop :=
  forall i x y, nth_error l i = Some x -> nth_error l (S i) = Some y -> ~ same n x y.
(** The point b + k x. *)
Definition shifted (b : vec) (k : R) (x : vec) : vec := fun i => b i + k * x i.
Definition shift_all (b : vec) (k : R) (c : list tcand) : list tcand := map (fun p => (shifted b k (fst p), snd p)) c.
