(** C93 Stopping because a step has no effect on the mean. *)
From Coq Require Import Reals ZArith List.
From Flocq Require Import Core BinarySingleNaN.
From Verif Require Import Base Pwq64 NoEff64 SpecNoEff NoEffProofs NoEffThms.
Import ListNotations.
Open Scope R_scope.

(** NOEFFECTCOOR: a fifth of a standard deviation is lost in every coordinate. *)
Theorem C93_coordinates : forall n fs s fm m fv v,
  is_value fs s -> ordinary_step s -> values n fm m -> values n fv v ->
  (forall i, (i < n)%nat -> ordinary_mean (m i) /\ ordinary_variance (v i)) ->
  (no_effect_coor64 fs fm fv = true -> forall i, (i < n)%nat -> / 5 * s * sqrt (v i) <= epsilon * Rabs (m i)) /\
  ((forall i, (i < n)%nat -> / 5 * s * sqrt (v i) <= negligible * Rabs (m i)) -> no_effect_coor64 fs fm fv = true).
Proof. exact coor_test. Qed.
Print Assumptions C93_coordinates.

(** NOEFFECTAXIS of the separable variants: a tenth, along every coordinate axis. *)
Theorem C93_axes_separable : forall n fs s fm m fv v,
  is_value fs s -> ordinary_step s -> values n fm m -> values n fv v ->
  (forall i, (i < n)%nat -> ordinary_mean (m i) /\ ordinary_variance (v i)) ->
  (no_effect_axis_sep64 fs fm fv = true -> forall i, (i < n)%nat -> / 10 * s * sqrt (v i) <= epsilon * Rabs (m i)) /\
  ((forall i, (i < n)%nat -> / 10 * s * sqrt (v i) <= negligible * Rabs (m i)) -> no_effect_axis_sep64 fs fm fv = true).
Proof. exact axis_sep_test. Qed.
Print Assumptions C93_axes_separable.

(** NOEFFECTAXIS with a full covariance, [v] the eigenvalues and column [j] of [b]
    the eigenvector of [v j].  The expected bound has [v j]; the code has [v i]. *)
Theorem C93_axes_full_partial : forall n fs s fm m fv v rows b,
  is_value fs s -> ordinary_step s -> values n fm m -> values n fv v -> matrix n rows b ->
  (forall i, (i < n)%nat -> ordinary_mean (m i) /\ ordinary_variance (v i)) ->
  (forall i j, (i < n)%nat -> (j < n)%nat -> ordinary (b i j)) ->
  (no_effect_axis64 fs fm fv rows = true -> forall i j, (i < n)%nat -> (j < n)%nat -> / 10 * s * sqrt (v i) * Rabs (b i j) <= epsilon * Rabs (m i)) /\
  ((forall i j, (i < n)%nat -> (j < n)%nat -> / 10 * s * sqrt (v i) * Rabs (b i j) <= negligible * Rabs (m i)) -> no_effect_axis64 fs fm fv rows = true).
Proof. exact axis_test. Qed.
Print Assumptions C93_axes_full_partial.

(** The criterion fires although a tenth of a standard deviation along the second
    principal axis moves the first coordinate by a tenth of its value. *)
Theorem C93_axes_full_refuted : exists fs s fm m fv v rows b,
  is_value fs s /\ ordinary_step s /\ values 2 fm m /\ values 2 fv v /\ matrix 2 rows b /\
  (forall i, (i < 2)%nat -> ordinary_mean (m i) /\ ordinary_variance (v i)) /\ (forall i j, (i < 2)%nat -> (j < 2)%nat -> ordinary (b i j)) /\
  (forall i j, (i < 2)%nat -> (j < 2)%nat -> b 0%nat i * b 0%nat j + b 1%nat i * b 1%nat j = if Nat.eqb i j then 1 else 0) /\
  no_effect_axis64 fs fm fv rows = true /\
  / 10 * s * sqrt (v 1%nat) * Rabs (b 0%nat 1%nat) = / 10 * Rabs (m 0%nat).
Proof. exact axis_pairing. Qed.
Print Assumptions C93_axes_full_refuted.

(** VD-CMA passes its scales where variances are expected: both criteria fire
    although a fifth of a standard deviation is a fifth of every coordinate. *)
Theorem C93_vd_refuted : exists fs s fm m fd d,
  is_value fs s /\ ordinary_step s /\ values 2 fm m /\ values 2 fd d /\
  (forall i, (i < 2)%nat -> ordinary_mean (m i) /\ ordinary_variance (d i)) /\
  no_effect_coor64 fs fm fd = true /\ no_effect_axis_sep64 fs fm fd = true /\
  forall v i, (i < 2)%nat -> / 5 * Rabs (m i) <= / 5 * s * vd_deviation (d i) v.
Proof. exact vd_roots. Qed.
Print Assumptions C93_vd_refuted.

(** A mean that is not a number never counts as unaffected. *)
Theorem C93_nan : forall fs fm fv i, nth_error fm i = Some B754_nan -> length fm = length fv ->
  no_effect_coor64 fs fm fv = false /\ no_effect_axis_sep64 fs fm fv = false.
Proof. exact (fun fs fm fv i E L => conj (nan_coor fs fm fv i E L) (nan_axis_sep fs fm fv i E L)). Qed.
Print Assumptions C93_nan.

(** The hypotheses hold of a mean (1, 32) with variances (1, 16), and the criteria
    tell a step size of 2^-60 from one of 2^-40. *)
Example C93_example : is_value (fnum 1 (-60)) (bpow radix2 (-60)) /\ ordinary_step (bpow radix2 (-60)) /\ values 2 [fnum 1 0; fnum 1 5] (two (bpow radix2 0) (bpow radix2 5)) /\
  values 2 [fnum 1 0; fnum 1 4] (two (bpow radix2 0) (bpow radix2 4)) /\ matrix 2 w_rows w_b /\
  (forall i, (i < 2)%nat -> ordinary_mean (two (bpow radix2 0) (bpow radix2 5) i) /\ ordinary_variance (two (bpow radix2 0) (bpow radix2 4) i)) /\
  (forall i j, (i < 2)%nat -> (j < 2)%nat -> ordinary (w_b i j)).
Proof. exact hyp_case. Qed.
Example C93_cases : no_effect_coor64 (fnum 1 (-60)) [fnum 1 0; fnum (-3) 5] [fnum 1 0; fnum 1 4] = true /\
  no_effect_coor64 (fnum 1 (-40)) [fnum 1 0; fnum (-3) 5] [fnum 1 0; fnum 1 4] = false /\
  no_effect_axis_sep64 (fnum 1 (-60)) [fnum 1 0; fnum (-3) 5] [fnum 1 0; fnum 1 4] = true /\
  no_effect_axis_sep64 (fnum 1 (-40)) [fnum 1 0; fnum (-3) 5] [fnum 1 0; fnum 1 4] = false /\
  no_effect_axis64 (fnum 1 (-40)) [fnum 1 0; fnum (-3) 5] [fnum 1 0; fnum 1 4] w_rows = false.
Proof. exact coor_cases. Qed.
