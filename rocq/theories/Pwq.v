(** Model of the piecewise quadratic bound strategy
    (src/pwq_bound_strategy.cc, include/libcmaes/pwq_bound_strategy.h).

    Exact real arithmetic: rounding and overflow of doubles are not modelled,
    except for the conversions to [int], which are a fault when out of range. *)
From Coq Require Import Reals Lra.
From Verif Require Import Base.
Open Scope R_scope.

(** C++ [static_cast<int>] of a double: truncation towards zero, undefined when
    the result does not fit a 32-bit int (pwq_bound_strategy.cc:100,102). *)
Definition Rtrunc (v : R) : Z :=
  if Rle_dec 0 v then Int_part v else (- Int_part (- v))%Z.
Definition int_max : Z := 2147483647.
Definition int_min : Z := -2147483648.
Definition cast_int (v : R) : res Z :=
  let z := Rtrunc v in
  if (int_min <=? z)%Z && (z <=? int_max)%Z then Ok z else Fault IntCast.

(** Division, with the zero divisor made explicit. *)
Definition rdiv (a b : R) : res R :=
  if Req_EM_T b 0 then Fault DivByZero else Ok (a / b).

(** Data of one dimension; the C++ class keeps nine parallel vectors
    (pwq_bound_strategy.h:64-72), all of the same size because they are built
    together by the constructors and shortened together by remove_dimensions. *)
Record pwqc := mkPwqc {
  q_lb : R; q_ub : R;          (* _lbounds, _ubounds *)
  q_al : R; q_au : R;          (* _al, _au *)
  q_xlow : R; q_xup : R;       (* _xlow, _xup *)
  q_r : R;                     (* _r *)
  q_plb : R; q_pub : R         (* _phenolbounds, _phenoubounds *)
}.
Definition pwq := list pwqc.

(** One coordinate of the constructors (pwq_bound_strategy.cc:58-76; the
    3-argument constructor 39-56 is the case plb=lb, pub=ub). *)
Definition pwq_coord (lb ub plb pub : R) : pwqc :=
  let d := ub - lb in
  let d2 := 0.5 * d in
  let al := Rmin d2 ((1/20) * (1 + Rabs lb)) in
  let au := Rmin d2 ((1/20) * (1 + Rabs ub)) in
  mkPwqc lb ub al au (lb - 2 * al - d2) (ub + 2 * au + d2) (2 * (d + al + au)) plb pub.

(** pwq_bound_strategy.cc:39-56: bounds given as two arrays of length dim.
    Arrays of different lengths are a fault (the code would read outside). *)
Definition pwq_make (lb ub : list R) : res pwq :=
  mapM2 (fun l u => Ok (pwq_coord l u l u)) lb ub.

(** pwq_bound_strategy.cc:58-76. *)
Fixpoint pwq_make5 (lb ub plb pub : list R) : res pwq :=
  match lb, ub, plb, pub with
  | [], [], [], [] => Ok []
  | l :: lb', u :: ub', pl :: plb', pu :: pub' =>
      do q <- pwq_make5 lb' ub' plb' pub'; Ok (pwq_coord l u pl pu :: q)
  | _, _, _, _ => Fault SizeMismatch
  end.

(** Body of the loop of shift_into_feasible (pwq_bound_strategy.cc:99-106).
    The LOG(FATAL) check at 108-111 is modelled by [shift_check]. *)
Definition shift_up (q : pwqc) (x : R) : res R :=
  if Rlt_dec x (q_xlow q) then
    do v <- rdiv (q_xlow q - x) (q_r q);
    do k <- cast_int v;
    Ok (x + q_r q * (1 + IZR k))
  else Ok x.
Definition shift_down (q : pwqc) (x : R) : res R :=
  if Rlt_dec (q_xup q) x then
    do v <- rdiv (x - q_xup q) (q_r q);
    do k <- cast_int v;
    Ok (x - q_r q * (1 + IZR k))
  else Ok x.
Definition reflect_low (q : pwqc) (x : R) : R :=
  if Rlt_dec x (q_lb q - q_al q) then x + 2 * (q_lb q - q_al q - x) else x.
Definition reflect_up (q : pwqc) (x : R) : R :=
  if Rlt_dec (q_ub q + q_au q) x then x - 2 * (x - q_ub q - q_au q) else x.
Definition shift_coord (q : pwqc) (x : R) : res R :=
  do x1 <- shift_up q x;
  do x2 <- shift_down q x1;
  Ok (reflect_up q (reflect_low q x2)).

(** Condition of the LOG(FATAL) at pwq_bound_strategy.cc:108. *)
Definition shift_fatal (q : pwqc) (x : R) : Prop :=
  x < q_lb q - q_al q - 1 / 1000000000000000 \/ x > q_ub q + q_au q + 1 / 1000000000000000.

(** shift_into_feasible, pwq_bound_strategy.cc:94-113. *)
Definition shift_into_feasible (p : pwq) (x : list R) : res (list R) :=
  mapM2 shift_coord p x.

(** Body of the loop of to_f_representation (pwq_bound_strategy.cc:87-90). *)
Definition quad_coord (q : pwqc) (y : R) : res R :=
  if Rlt_dec y (q_lb q + q_al q) then
    do v <- rdiv ((y - (q_lb q - q_al q)) * (y - (q_lb q - q_al q)) / 4) (q_al q);
    Ok (q_lb q + v)
  else if Rlt_dec (q_ub q - q_au q) y then
    do v <- rdiv ((y - (q_ub q + q_au q)) * (y - (q_ub q + q_au q)) / 4) (q_au q);
    Ok (q_ub q - v)
  else Ok y.

(** to_f_representation, pwq_bound_strategy.cc:82-92. *)
Definition pwq_to_f (p : pwq) (x : list R) : res (list R) :=
  do y <- shift_into_feasible p x; mapM2 quad_coord p y.

(** to_internal_representation, pwq_bound_strategy.cc:115-125. *)
Definition intern_coord (q : pwqc) (y : R) : R :=
  if Rlt_dec y (q_lb q + q_al q) then
    (q_lb q - q_al q) + 2 * sqrt (q_al q * Rabs (q_lb q - y))
  else if Rlt_dec (q_ub q - q_au q) y then
    (q_ub q + q_au q) - 2 * sqrt (q_au q * Rabs (y - q_ub q))
  else y.
Definition pwq_to_internal (p : pwq) (y : list R) : res (list R) :=
  mapM2 (fun q v => Ok (intern_coord q v)) p y.
