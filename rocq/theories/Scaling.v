(** Model of include/libcmaes/scaling.h (exact real arithmetic). *)
From Coq Require Import Reals Lra.
From Verif Require Import Base EoMatrix Pwq.
Open Scope R_scope.

(** linScalingStrategy, scaling.h:84-154: per dimension the pair
    (_scaling[i],_shift[i]), and the flag _id.  The two vectors always have the
    same length (built together at 118-119, or supplied by the user: lengths
    checked in [lin_user]). *)
Record linscale := mkLin { l_pairs : list (R * R); l_id : bool }.

(** Default constructor, scaling.h:90-93: identity flag, vectors of size ONE
    whatever the problem dimension. *)
Definition lin_default : linscale := mkLin [(1, 0)] true.

(** scaling.h:147-148. *)
Definition intmin : R := 0.
Definition intmax : R := 10.

(** compute_scaling, scaling.h:110-120.  The cwiseMin with DBL_MAX at 117 only
    guards against overflow to infinity of ub-lb and is the identity in exact
    arithmetic on values below DBL_MAX; it is dropped. *)
Definition lin_coord (lb ub : R) : res (R * R) :=
  do s <- rdiv (intmax - intmin) (ub - lb);
  Ok (s, intmax - s * ub).
Definition lin_make (lb ub : list R) : res linscale :=
  do ps <- mapM2 lin_coord lb ub; Ok (mkLin ps false).

(** scaling.h:103-106. *)
Definition lin_user (scaling shift : list R) : res linscale :=
  do ps <- mapM2 (fun s h => Ok (s, h)) scaling shift; Ok (mkLin ps false).

(** scale_to_internal, scaling.h:122-126. *)
Definition scale_to_internal (l : linscale) (y : list R) : res (list R) :=
  mapM2 (fun p v => Ok (v * fst p + snd p)) (l_pairs l) y.

(** scale_to_f, scaling.h:128-133. *)
Definition scale_to_f (l : linscale) (x : list R) : res (list R) :=
  mapM2 (fun p v => rdiv (v - snd p) (fst p)) (l_pairs l) x.

(** remove_dimensions, scaling.h:137-144. *)
Definition lin_remove (l : linscale) (k : list Z) : linscale :=
  mkLin (fold_left removeElement k (l_pairs l)) (l_id l).

(** pwqBoundStrategy::remove_dimensions, pwq_bound_strategy.cc:127-141. *)
Definition pwq_remove (p : pwq) (k : list Z) : pwq := fold_left removeElement k p.
