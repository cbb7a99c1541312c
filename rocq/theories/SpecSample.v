(** Specification of the points proposed by ask. *)
From Coq Require Import Reals List.
From Verif Require Import Base Dbl Vec Params Config Search SpecSearch Update SpecUpdate.
Import ListNotations.
Open Scope R_scope.

(** The standard normal draws of the [c]-th of a series of points, when [pos]
    draws were made before. *)
Definition draws_of (p : npar) (pos c : nat) : vec := fun i => p_normal p (pos + c * k_dim (p_k p) + i)%nat.
Definition drawn (s : st R num) : nat := x_pos (s_num (t_sol s)).
(** [a] is a square root of [b]: a a^T = b. *)
Definition square_root (n : nat) (a b : mat) : Prop :=
  forall i j, (i < n)%nat -> (j < n)%nat -> rsum n (fun l => a i l * a j l) = b i j.
(** Points that ask replaces: the first with a gradient, two with two-point
    adaptation after the first iteration. *)
Definition replaced {T N} (g : cfg T) (s : st T N) (c : nat) : Prop :=
  (g_gradient g = true /\ c = 0%nat) \/
  (g_tpa g = 2%Z /\ (0 < t_niter s)%Z /\ (Z.of_nat c = (if g_gradient g then 1 else s_tpa1 (t_sol s)) \/ Z.of_nat c = if g_gradient g then 2 else s_tpa2 (t_sol s))%Z).
Definition is_fixed {T} (g : cfg T) (i : nat) : Prop := exists v, In (Z.of_nat i, v) (g_fixed g).
(** The population is m + sigma a z with fresh draws z for each point, but for
    the points replaced and the coordinates fixed. *)
Definition normal_population (p : npar) (g : cfg R) (s s' : st R num) (pop : list (list R)) (m : vec) (a : mat) : Prop :=
  length pop = k_lambda (p_k p) /\ (drawn s + k_lambda (p_k p) * k_dim (p_k p) <= drawn s')%nat /\
  forall c x i, nth_error pop c = Some x -> ~ replaced g s c -> (i < k_dim (p_k p))%nat -> ~ is_fixed g i ->
    nth_error x i = Some (m i + sigma_of s * mv (k_dim (p_k p)) a (draws_of p (drawn s) c) i).
