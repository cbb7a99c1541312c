(** Specification of the histories kept by a search, for every setting:
    populations after elitism, rankings, the last entries of a sequence. *)
From Coq Require Import Permutation.
From Verif Require Import Base Dbl Config Search SpecSearch.
Local Open Scope Z_scope.

Section SpecWindow.
Context {T : Type}.
Variable g : cfg T.

(** The population told for an evaluated generation: the generation itself, or,
    with elitism, the generation with its second candidate replaced. *)
Definition population_of (gen pop : list (cand T)) : Prop :=
  pop = gen \/
  (g_elit g <> mkElit false false false /\ (2 <= length gen)%nat /\ exists ref, pop = firstn 1 gen ++ ref :: skipn 2 gen).
(** A ranking of that population: a permutation, sorted by value and stable
    without uncertainty handling. *)
Definition ranking_of (gen r : list (cand T)) : Prop :=
  exists pop, population_of gen pop /\ Permutation r pop /\
    (g_uh g = false -> (forall c, In c pop -> c_f c <> NaN) -> ascending r /\ stable pop r).
(** The middle value of a ranking, or the mean of the two middle ones. *)
Definition middle_value (r : list (cand T)) (m : dbl) : Prop :=
  let n := length r in
  if Nat.even n then exists a b, nth_error r (n / 2 - 1) = Some a /\ nth_error r (n / 2) = Some b /\ m = dhalf (dadd (c_f a) (c_f b))
  else exists a, nth_error r (n / 2) = Some a /\ m = c_f a.
Definition at_rank (k : nat) (r : list (cand T)) (c : cand T) : Prop := nth_error r k = Some c.

(** Length limits: [max_hist] when set, 10 + floor(30 dim / lambda) otherwise;
    the rank kept by the second history, 1 + ceil(0.1 + lambda / 4) unless that
    is more than the last one; ceil(0.2 t + 120 + 30 dim / lambda) medians at
    iteration t. *)
Definition history_limit : nat :=
  Z.to_nat (if 0 <? g_max_hist g then g_max_hist g else 10 + 30 * Z.of_nat (g_dim g) / Z.of_nat (g_lambda g)).
Definition tol_window : nat := Nat.min history_limit (Z.to_nat (10 + 30 * Z.of_nat (g_dim g) / Z.of_nat (g_lambda g))).
Definition kept_rank : nat :=
  Z.to_nat (Z.min (Z.of_nat (g_lambda g) - 1) (1 + cdiv (2 + 5 * Z.of_nat (g_lambda g)) 20)).
Definition medians_limit (t : nat) : nat :=
  let n := Z.of_nat (g_lambda g) in
  Z.to_nat (cdiv (n * Z.of_nat t + 600 * n + 150 * Z.of_nat (g_dim g)) (5 * n)).
End SpecWindow.
