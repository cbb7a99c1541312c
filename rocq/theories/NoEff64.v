(** The stopping criteria NOEFFECTAXIS and NOEFFECTCOOR in IEEE binary64
    arithmetic, src/cmastopcriteria.cc:225-253.  Every operation is rounded to
    nearest.  Vectors are lists of the dimension's length. *)
From Coq Require Import ZArith List.
From Flocq Require Import Core BinarySingleNaN.
From Verif Require Import Base Pwq64.
Import ListNotations.

Local Instance f_prec : Prec_gt_0 53. Proof. reflexivity. Defined.
Local Instance f_emax : Prec_lt_emax 53 1024. Proof. reflexivity. Defined.

(** std::sqrt, operator == on doubles, and the literals 0.1 and 0.2. *)
Definition fsqrt : b64 -> b64 := Bsqrt mode_NE.
Definition feq (a b : b64) : bool := Beqb a b.
Definition f_01 : b64 := fdiv f1 f10.
Definition f_02 : b64 := fdiv f1 (fnum 5 0).
(** xmean[i] == xmean[i] + step *)
Definition still (m step : b64) : bool := feq m (fadd m step).
(** noEffectCoor, lines 242-253; [var] is the diagonal of _cov, or _sepcov for
    the separable variants and VD-CMA. *)
Definition no_effect_coor64 (sigma : b64) (mean var : list b64) : bool :=
  let fact := fmul f_02 sigma in
  forallb (fun q => still (fst q) (fmul fact (fsqrt (snd q)))) (combine mean var).
(** noEffectAxis, lines 226-240, separable variants and VD-CMA: the test does not
    depend on j. *)
Definition no_effect_axis_sep64 (sigma : b64) (mean ev : list b64) : bool :=
  let fact := fmul f_01 sigma in
  forallb (fun q => still (fst q) (fmul fact (fsqrt (snd q)))) (combine mean ev).
(** noEffectAxis with a full covariance; [rows] are the rows of _leigenvectors,
    whose columns are the eigenvectors. *)
Definition no_effect_axis64 (sigma : b64) (mean ev : list b64) (rows : list (list b64)) : bool :=
  let fact := fmul f_01 sigma in
  forallb (fun q =>
    let ei := fmul fact (fsqrt (snd (fst q))) in
    forallb (fun b => still (fst (fst q)) (fmul ei b)) (snd q)) (combine (combine mean ev) rows).
