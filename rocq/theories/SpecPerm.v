(** Searches that correspond through a renaming of the parameters. *)
From Coq Require Import Reals List Arith.
From Verif Require Import Base Dbl Vec Params Config Search SpecSearch SpecInvar SpecMorph SpecSafe Update SpecUpdate SpecAffine SpecRot.
Import ListNotations.
Open Scope R_scope.
Open Scope bool_scope.

(** [s] and [r] are inverse permutations of the [d] parameters. *)
Definition renames (d : nat) (s r : nat -> nat) : Prop :=
  forall i, (i < d)%nat -> (s i < d)%nat /\ (r i < d)%nat /\ r (s i) = i /\ s (r i) = i.
(** Parameter i of the new point is parameter s i of the old one. *)
Definition perm (s : nat -> nat) (x : list R) : list R := tab (length x) (fun i => at0 x (s i)).
(** The same problem for the renamed objective; the progress function is [pr]. *)
Definition perm_env (r : nat -> nat) (pr : sol R num -> Z) (e : env R num) : env R num :=
  mkEnv (fun k y => e_f e k (perm r y)) (e_gfunc e) (e_pheno e) pr (e_sort e).
(** The same normal draws, each block of [d] of them renamed. *)
Definition perm_draws (d : nat) (s : nat -> nat) (z : nat -> R) : nat -> R :=
  fun j => z (j / d * d + s (j mod d))%nat.
Definition perm_par (s : nat -> nat) (p : npar) : npar :=
  with_source (p_eig p) (perm_draws (k_dim (p_k p)) s (p_normal p)) p.
(** Variants that keep no full covariance (sep-CMA-ES, sep-aCMA-ES, VD-CMA),
    without fixed parameters. *)
Definition no_matrix (p : npar) : Prop :=
  k_sep (p_k p) || k_vd (p_k p) = true /\ (p_upd p = Vd \/ k_sep (p_k p) = true) /\ k_fixed (p_k p) = [].
(** Corresponding distributions: means, variances, the principal vector of VD-CMA and
    evolution paths renamed, step size and extreme variances equal, same position, at the end of a block,
    in the random streams. *)
Definition permuted_num (d : nat) (s : nat -> nat) (n n' : num) : Prop :=
  (forall i, (i < d)%nat -> x_mean n' i = x_mean n (s i)) /\
  x_sigma n' = x_sigma n /\
  (forall i, (i < d)%nat -> x_sep n' i = x_sep n (s i)) /\
  (forall i, (i < d)%nat -> x_v n' i = x_v n (s i)) /\
  (forall i, (i < d)%nat -> x_psigma n' i = x_psigma n (s i)) /\
  (forall i, (i < d)%nat -> x_pc n' i = x_pc n (s i)) /\
  x_tpas n' = x_tpas n /\
  (forall i, (i < d)%nat -> x_prev n' i = x_prev n (s i)) /\
  (forall i, (i < d)%nat -> x_smean n' i = x_smean n (s i)) /\
  (forall i, (i < d)%nat -> x_leig n' i = x_leig n (s i)) /\
  x_maxev n' = x_maxev n /\ x_minev n' = x_minev n /\
  x_pos n' = x_pos n /\ (exists c, x_pos n = (c * d)%nat) /\ x_upos n' = x_upos n.
(** Random streams at the same place, between two blocks, before construction. *)
Definition perm_stream (d : nat) (s : nat -> nat) (n n' : num) : Prop :=
  x_pos n' = x_pos n /\ (exists c, x_pos n = (c * d)%nat) /\ x_upos n' = x_upos n /\
  (forall i, (i < d)%nat -> x_smean n' i = x_smean n (s i)).
