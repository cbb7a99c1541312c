(** The bound transform and the linear scaling in IEEE binary64 arithmetic
    (src/pwq_bound_strategy.cc, include/libcmaes/scaling.h,
    include/libcmaes/genopheno.h), with rounding, overflow, infinities and NaN.
    Round to nearest, ties to even; every operation is rounded to binary64 (no
    extended precision, no fused multiply-add). *)
From Coq Require Import ZArith.
From Flocq Require Import Core BinarySingleNaN.
From Verif Require Import Base.

Local Instance f_prec : Prec_gt_0 53. Proof. reflexivity. Defined.
Local Instance f_emax : Prec_lt_emax 53 1024. Proof. reflexivity. Defined.

(** C++ double. *)
Definition b64 : Type := binary_float 53 1024.
Definition fadd : b64 -> b64 -> b64 := Bplus mode_NE.
Definition fsub : b64 -> b64 -> b64 := Bminus mode_NE.
Definition fmul : b64 -> b64 -> b64 := Bmult mode_NE.
Definition fdiv : b64 -> b64 -> b64 := Bdiv mode_NE.
Definition fabs : b64 -> b64 := Babs.
Definition flt : b64 -> b64 -> bool := Bltb.
(** Eigen's cwiseMin, coefficient by coefficient. *)
Definition fmin (a b : b64) : b64 := if flt b a then b else a.
(** m * 2^e, rounded. *)
Definition fnum (m e : Z) : b64 := binary_normalize 53 1024 f_prec f_emax mode_NE m e false.
Definition f0 : b64 := fnum 0 0.
Definition f1 : b64 := fnum 1 0.
Definition f2 : b64 := fnum 2 0.
Definition f4 : b64 := fnum 4 0.
Definition f10 : b64 := fnum 10 0.
Definition fhalf : b64 := fnum 1 (-1).
(** (1.0/20.0), pwq_bound_strategy.cc:45. *)
Definition f20th : b64 := fdiv f1 (fnum 20 0).
Definition fmax_float : b64 := Bmax_float.

(** static_cast<int> of a double, a fault when the value does not fit. *)
Definition fcast (v : b64) : res Z :=
  if is_finite v then
    let z := Btrunc v in
    if (-2147483648 <=? z)%Z && (z <=? 2147483647)%Z then Ok z else Fault IntCast
  else Fault IntCast.

Record pwqf := mkPwqf { p_lb : b64; p_ub : b64; p_al : b64; p_au : b64; p_xlow : b64; p_xup : b64; p_r : b64 }.

(** One coordinate of the constructor, pwq_bound_strategy.cc:43-55. *)
Definition pwqf_coord (lb ub : b64) : pwqf :=
  let d := fsub ub lb in
  let d2 := fmul fhalf d in
  let al := fmin d2 (fmul f20th (fadd f1 (fabs lb))) in
  let au := fmin d2 (fmul f20th (fadd f1 (fabs ub))) in
  mkPwqf lb ub al au
    (fsub (fsub lb (fmul f2 al)) d2)
    (fadd (fadd ub (fmul f2 au)) d2)
    (fmul f2 (fadd (fadd d al) au)).

(** One coordinate of shift_into_feasible, pwq_bound_strategy.cc:99-106. *)
Definition fshift_up (q : pwqf) (x : b64) : res b64 :=
  if flt x (p_xlow q) then
    do k <- fcast (fdiv (fsub (p_xlow q) x) (p_r q));
    Ok (fadd x (fmul (p_r q) (fadd f1 (fnum k 0))))
  else Ok x.
Definition fshift_down (q : pwqf) (x : b64) : res b64 :=
  if flt (p_xup q) x then
    do k <- fcast (fdiv (fsub x (p_xup q)) (p_r q));
    Ok (fsub x (fmul (p_r q) (fadd f1 (fnum k 0))))
  else Ok x.
Definition freflect_low (q : pwqf) (x : b64) : b64 :=
  if flt x (fsub (p_lb q) (p_al q)) then fadd x (fmul f2 (fsub (fsub (p_lb q) (p_al q)) x)) else x.
Definition freflect_up (q : pwqf) (x : b64) : b64 :=
  if flt (fadd (p_ub q) (p_au q)) x then fsub x (fmul f2 (fsub (fsub x (p_ub q)) (p_au q))) else x.

(** One coordinate of to_f_representation, pwq_bound_strategy.cc:87-90. *)
Definition fquad (q : pwqf) (y : b64) : b64 :=
  if flt y (fadd (p_lb q) (p_al q)) then
    let t := fsub y (fsub (p_lb q) (p_al q)) in
    fadd (p_lb q) (fdiv (fdiv (fmul t t) f4) (p_al q))
  else if flt (fsub (p_ub q) (p_au q)) y then
    let t := fsub y (fadd (p_ub q) (p_au q)) in
    fsub (p_ub q) (fdiv (fdiv (fmul t t) f4) (p_au q))
  else y.
Definition fto_f (q : pwqf) (x : b64) : res b64 :=
  do x1 <- fshift_up q x;
  do x2 <- fshift_down q x1;
  Ok (fquad q (freflect_up q (freflect_low q x2))).

(** pheno of a vector with bounds and no scaling, genopheno.h:190-214. *)
Definition pheno_bounds64 (lb ub x : list b64) : res (list b64) :=
  do q <- mapM2 (fun l u => Ok (pwqf_coord l u)) lb ub;
  mapM2 fto_f q x.

(** One coordinate of linScalingStrategy(lbounds,ubounds,dim), scaling.h:95-120:
    scaling and shift. *)
Definition flin (lb ub : b64) : b64 * b64 :=
  let denom := fmin (fsub ub lb) fmax_float in
  let s := fdiv (fsub f10 f0) denom in
  (s, fsub f10 (fmul s ub)).
(** scale_to_f, scaling.h:128-133. *)
Definition fscale_to_f (s : b64 * b64) (x : b64) : b64 := fdiv (fsub x (snd s)) (fst s).
(** pheno of a vector with bounds and linear scaling, genopheno.h:48-59 and
    190-214: the bounds of the bound strategy are those of the scaling's
    internal interval. *)
Definition pheno_scaled64 (lb ub x : list b64) : res (list b64) :=
  do s <- mapM2 (fun l u => Ok (flin l u)) lb ub;
  do y <- mapM (fun v => fto_f (pwqf_coord f0 f10) v) x;
  mapM2 (fun s v => Ok (fscale_to_f s v)) s y.
