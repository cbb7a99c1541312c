(** Model of the choice of the initial mean: include/libcmaes/parameters.h (set_x0)
    and the constructor of CMASolutions (src/cmasolutions.cc).  Exact real
    arithmetic. *)
From Coq Require Import Reals List ZArith.
From Verif Require Import Base Params Scaling GenoPheno Update.
Import ListNotations.
Open Scope R_scope.

(** _x0min and _x0max. *)
Definition x0range := (list R * list R)%type.
(** set_x0, parameters.h:93-96: one value for all dimensions; 102-107 (also used
    by the constructor, 82) and 113-117: a vector; 127-131: one interval for all
    dimensions; 139-148, 156-159 and 167-171: an interval for each. *)
Definition set_x0_value (dim : nat) (x : R) : x0range := (repeat x dim, repeat x dim).
Definition set_x0_vector (x : list R) : x0range := (x, x).
Definition set_x0_interval (dim : nat) (a b : R) : x0range := (repeat a dim, repeat b dim).
Definition set_x0_box (a b : list R) : x0range := (a, b).

(** Lines 45-55: [u] is dVec::Random, each coordinate between -1 and 1.  The
    value -DBL_MAX in all dimensions asks for a point in [-4,4]. *)
Definition initial_point (dim : nat) (r : x0range) (u : list R) : res (list R) :=
  let (lo, hi) := r in
  if list_eq_dec Req_EM_T lo hi then
    if list_eq_dec Req_EM_T lo (repeat (- dbl_max_R) dim) then Ok (map (fun v => v * 4) u) else Ok lo
  else
    do w <- mapM2 (fun a b => Ok (b - a)) lo hi;
    do p <- mapM2 (fun v c => Ok (0.5 * (v + 1) * c)) u w;
    mapM2 (fun c a => Ok (c + a)) p lo.
(** Lines 56-64: fixed values. *)
Fixpoint set_nth (i : nat) (v : R) (x : list R) : list R :=
  match x, i with
  | [], _ => []
  | _ :: x', O => v :: x'
  | a :: x', S i' => a :: set_nth i' v x'
  end.
Fixpoint set_fixed (fx : list (Z * R)) (x : list R) : res (list R) :=
  match fx with
  | [] => Ok x
  | (i, v) :: fx' =>
      if (0 <=? i)%Z && (i <? Z.of_nat (length x))%Z then set_fixed fx' (set_nth (Z.to_nat i) v x) else Fault OutOfRange
  end.
(** Lines 45-67: the scaling is applied last, the bounds and the user's
    transform are not. *)
Definition initial_mean (g : genopheno) (dim : nat) (r : x0range) (fx : list (Z * R)) (u : list R) : res (list R) :=
  do x <- initial_point dim r u; do y <- set_fixed fx x; scale_i_step (gp_scale g) y.
