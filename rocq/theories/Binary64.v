(** IEEE binary64 with rounding to nearest, ties to even, as an instance of the
    arithmetic assumed by SpecRsvm.v. *)
From Coq Require Import QArith Reals Qreals Lra Psatz.
From Flocq Require Import Core.
From Verif Require Import Base Dbl Rsvm SpecRsvm RsvmProofs.
Local Open Scope R_scope.

Definition fexp := FLT_exp (-1074) 53.
Definition rne (x : R) : R := round radix2 fexp ZnearestE x.
Definition rnd64 (q : Q) : dbl :=
  let z := Zfloor (rne (Q2R q) * bpow radix2 1074) in
  if (Z.abs z <? 2 ^ 2098)%Z then Fin z else if (0 <? z)%Z then PosInf else NegInf.
Definition b_add (a b : dbl) : dbl := match a, b with Fin x, Fin y => rnd64 (dval x + dval y)%Q | _, _ => dadd a b end.
Definition b_sub (a b : dbl) : dbl := b_add a (dneg b).
Definition b_mul (a b : dbl) : dbl :=
  match a, b with
  | NaN, _ | _, NaN => NaN
  | Fin x, Fin y => rnd64 (dval x * dval y)%Q
  | Fin x, o | o, Fin x => match x with Z0 => NaN | Zpos _ => o | Zneg _ => dneg o end
  | PosInf, o => o
  | NegInf, o => dneg o
  end.
Definition b_div (a b : dbl) : dbl :=
  match a, b with
  | NaN, _ | _, NaN => NaN
  | Fin Z0, Fin Z0 => NaN
  | Fin x, Fin Z0 => if (0 <? x)%Z then PosInf else NegInf
  | Fin x, Fin y => rnd64 (dval x / dval y)%Q
  | Fin _, _ => Fin 0
  | o, Fin y => if (y <? 0)%Z then dneg o else o
  | _, _ => NaN
  end.
Definition binary64 : arith dbl :=
  mkArith dbl b_add b_sub b_mul b_div dlt (Fin 0) (Fin (2 ^ 1073)) d_95 d_05 (fun n => rnd64 (inject_Z (Z.of_nat n * Z.of_nat n))).

Local Instance prec53 : Prec_gt_0 53. Proof. reflexivity. Qed.
Local Instance fexp_valid : Valid_exp fexp. Proof. apply FLT_exp_valid. exact prec53. Qed.
Lemma Q2R_dval z : Q2R (dval z) = IZR z * bpow radix2 (-1074).
Proof.
  unfold Q2R, dval. cbn [Qnum Qden]. reflexivity.
Qed.
Lemma rne_int q : exists z, rne (Q2R q) * bpow radix2 1074 = IZR z.
Proof.
  unfold rne. set (x := Q2R q). assert (F : generic_format radix2 fexp (round radix2 fexp ZnearestE x)) by (apply generic_format_round; auto with typeclass_instances).
  rewrite F. unfold F2R. cbn [Fnum Fexp]. set (m := Ztrunc _). set (e := cexp radix2 fexp _). assert (He : (-1074 <= e)%Z) by (unfold e, cexp, fexp, FLT_exp; lia).
  rewrite Rmult_assoc, <- bpow_plus. exists (m * 2 ^ (e + 1074))%Z. rewrite mult_IZR. f_equal. rewrite <- IZR_Zpower by lia. reflexivity.
Qed.
Lemma floor_le x y : x <= y -> (Zfloor x <= Zfloor y)%Z.
Proof. apply Zfloor_le. Qed.
Lemma of_Z_mono a b : (a <= b)%Z ->
  dle (if (Z.abs a <? 2 ^ 2098)%Z then Fin a else if (0 <? a)%Z then PosInf else NegInf) (if (Z.abs b <? 2 ^ 2098)%Z then Fin b else if (0 <? b)%Z then PosInf else NegInf) = true.
Proof.
  set (M := (2 ^ 2098)%Z). assert (0 < M)%Z by reflexivity. clearbody M. intros.
  destruct (Z.ltb_spec (Z.abs a) M), (Z.ltb_spec (Z.abs b) M); [apply dle_fin; auto| | |]; destruct (Z.ltb_spec 0 a), (Z.ltb_spec 0 b); try reflexivity; lia.
Qed.
Lemma rnd64_dval m e : (Z.abs m < 2 ^ 53)%Z -> (-1074 <= e)%Z -> (e < 900)%Z -> rne (IZR m * bpow radix2 e) = IZR m * bpow radix2 e.
Proof.
  intros Hm He _. unfold rne. apply round_generic; auto with typeclass_instances. apply generic_format_FLT. exists (Float radix2 m e); auto.
Qed.
Lemma rnd64_exact q z : Q2R q = IZR z * bpow radix2 (-1074) -> rne (Q2R q) = Q2R q -> (Z.abs z < 2 ^ 2098)%Z -> rnd64 q = Fin z.
Proof.
  intros E1 E2 B. unfold rnd64. rewrite E2, E1, Rmult_assoc, <- bpow_plus. replace (-1074 + 1074)%Z with 0%Z by lia. cbn [bpow]. rewrite Rmult_1_r, Zfloor_IZR.
  destruct (Z.ltb_spec (Z.abs z) (2 ^ 2098)); auto; lia.
Qed.
Lemma rnd64_const m e z : (Z.abs m < 2 ^ 53)%Z -> (0 <= e)%Z -> (e < 2000)%Z -> z = (m * 2 ^ e)%Z -> (Z.abs z < 2 ^ 2098)%Z -> rnd64 (dval z) = Fin z.
Proof.
  intros Hm He _ Ez Hz. apply rnd64_exact; [apply Q2R_dval| |assumption]. rewrite Q2R_dval, Ez, mult_IZR. rewrite (IZR_Zpower radix2) by auto.
  rewrite Rmult_assoc, <- bpow_plus. unfold rne. apply round_generic; auto with typeclass_instances. apply generic_format_FLT. exists (Float radix2 m (e + -1074)); auto. cbn [Fexp]. lia.
Qed.
Lemma rounding64 : rounding rnd64.
Proof.
  split; [|split; [|split; [|split; [|split]]]].
  - intros q r H. unfold rnd64. apply of_Z_mono, floor_le. apply Rmult_le_compat_r; [apply bpow_ge_0|]. apply round_le; auto with typeclass_instances. now apply Qle_Rle.
  - intros q z H. unfold rnd64 in H. destruct (rne_int q) as [w Ew]. rewrite Ew, Zfloor_IZR in H. destruct (Z.ltb_spec (Z.abs w) (2 ^ 2098)).
    + injection H as <-. apply rnd64_exact; [apply Q2R_dval| |assumption]. rewrite Q2R_dval, <- Ew, Rmult_assoc, <- bpow_plus. replace (1074 + -1074)%Z with 0%Z by lia.
      cbn [bpow]. rewrite Rmult_1_r. unfold rne at 1. apply round_generic; auto with typeclass_instances. apply generic_format_round; auto with typeclass_instances.
    + destruct (0 <? w)%Z; discriminate.
  - apply rnd64_exact; [unfold Q2R; cbn; ring| |reflexivity]. unfold rne. replace (Q2R 0) with 0 by (unfold Q2R; cbn; ring). apply round_0; auto with typeclass_instances.
  - unfold d_one. apply rnd64_exact; [| |vm_compute; reflexivity].
    + rewrite (IZR_Zpower radix2) by lia. rewrite <- bpow_plus. cbn. unfold Q2R. cbn. lra.
    + replace (Q2R 1) with (IZR 1 * bpow radix2 0) by (cbn; unfold Q2R; cbn; lra). apply rnd64_dval; lia.
  - apply (rnd64_const 8556839292003942 1021); try lia; vm_compute; reflexivity.
  - apply (rnd64_const 7205759403792794 1017); try lia; vm_compute; reflexivity.
Qed.
Lemma floating64 : floating binary64.
Proof.
  split; [reflexivity|]. split; [reflexivity|]. split; [reflexivity|]. split; [reflexivity|]. split.
  - intros a. cbn. repeat split. now destruct a.
  - exists rnd64. split; [exact rounding64|]. split; reflexivity.
Qed.

Lemma rnd64_bound q : (0 <= q)%Q -> (q <= inject_Z (2 ^ 1000))%Q -> exists z, rnd64 q = Fin z /\ (0 <= z <= 2 ^ 2074)%Z.
Proof.
  intros H0 H1. destruct rounding64 as (Mono & _ & R0 & _). apply Mono in H0, H1. rewrite R0 in H0.
  assert (E : rnd64 (inject_Z (2 ^ 1000)) = Fin (2 ^ 2074)).
  { assert (Eb : Q2R (inject_Z (2 ^ 1000)) = bpow radix2 1000) by (unfold Q2R, inject_Z; cbn [Qnum Qden]; rewrite (IZR_Zpower radix2) by lia; field).
    apply rnd64_exact; [| |vm_compute; reflexivity].
    - rewrite Eb, (IZR_Zpower radix2) by lia. rewrite <- bpow_plus. reflexivity.
    - rewrite Eb. unfold rne. apply round_generic; auto with typeclass_instances. apply generic_format_bpow. cbv. discriminate. }
  rewrite E in H1. exact (between_fin _ _ _ H0 H1).
Qed.
(** 1e6 *)
Definition d_1e6 : dbl := Fin (1000000 * 2 ^ 1074).
Lemma no_overflow64 n : (Z.of_nat n <= 2 ^ 32)%Z -> no_overflow binary64 d_1e6 n.
Proof.
  intros Hn i Hi. cbn [a_sq a_mul binary64].
  destruct (rnd64_bound (inject_Z (Z.of_nat i * Z.of_nat i))) as (p & Ep & Hp).
  - change 0%Q with (inject_Z 0). rewrite <- Zle_Qle. nia.
  - rewrite <- Zle_Qle. assert (Z.of_nat i * Z.of_nat i <= 2 ^ 32 * 2 ^ 32)%Z by (apply Z.mul_le_mono_nonneg; lia). transitivity (2 ^ 32 * 2 ^ 32)%Z; auto. vm_compute. discriminate.
  - exists p. split; [exact Ep|]. split; [lia|].
    assert (Hp' : (p <= 2 ^ 1138)%Z).
    { assert (Q : dle (rnd64 (inject_Z (Z.of_nat i * Z.of_nat i))) (rnd64 (inject_Z (2 ^ 64))) = true).
      { destruct rounding64 as (Mono & _). apply Mono. rewrite <- Zle_Qle. assert (Z.of_nat i * Z.of_nat i <= 2 ^ 32 * 2 ^ 32)%Z by (apply Z.mul_le_mono_nonneg; lia). lia. }
      rewrite Ep in Q. assert (E : rnd64 (inject_Z (2 ^ 64)) = Fin (2 ^ 1138)).
      { assert (Eb : Q2R (inject_Z (2 ^ 64)) = bpow radix2 64) by (unfold Q2R, inject_Z; cbn [Qnum Qden]; rewrite (IZR_Zpower radix2) by lia; field).
        apply rnd64_exact; [| |vm_compute; reflexivity].
        - rewrite Eb, (IZR_Zpower radix2) by lia. rewrite <- bpow_plus. reflexivity.
        - rewrite Eb. unfold rne. apply round_generic; auto with typeclass_instances. apply generic_format_bpow. cbv. discriminate. }
      rewrite E in Q. now apply dle_fin in Q. }
    unfold d_1e6, b_mul. destruct (rnd64_bound (dval (1000000 * 2 ^ 1074) * dval p)) as (z & -> & _); [| |discriminate].
    + apply Qmult_le_0_compat; apply dval_nonneg; lia.
    + apply Qle_trans with (dval (1000000 * 2 ^ 1074) * dval (2 ^ 1138))%Q.
      * rewrite !(Qmult_comm (dval (1000000 * 2 ^ 1074))). apply Qmult_le_compat_r; [apply dval_le; lia|apply dval_nonneg; lia].
      * vm_compute. discriminate.
Qed.
