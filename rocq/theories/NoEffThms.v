(** Concrete cases of the criteria that test for lack of effect. *)
From Coq Require Import Reals Lra Lia ZArith List.
From Flocq Require Import Core BinarySingleNaN.
From Verif Require Import Base Pwq64 Pwq64Proofs NoEff64 SpecNoEff NoEffProofs.
Import ListNotations.
Local Open Scope R_scope.

Lemma pow2 e : (-1074 <= e <= 1010)%Z -> is_value (fnum 1 e) (bpow radix2 e).
Proof.
  intros H. replace (bpow radix2 e) with (IZR 1 * bpow radix2 e) by ring. apply rep_num; [reflexivity|lia|]. rewrite Rmult_1_l, Rabs_pos_eq by apply bpow_ge_0. apply bpow_le. lia.
Qed.
Lemma zero_value : is_value (fnum 0 0) 0.
Proof. replace 0 with (IZR 0) by reflexivity. apply (rep_int 0). reflexivity. Qed.
Lemma ord_pow e : (-300 <= e <= 300)%Z -> ordinary (bpow radix2 e).
Proof. intros H. right. rewrite Rabs_pos_eq by apply bpow_ge_0. split; apply bpow_le; lia. Qed.
Lemma ord_var e : (-300 <= e <= 300)%Z -> ordinary_variance (bpow radix2 e).
Proof. intros H. split; [apply bpow_ge_0|apply ord_pow, H]. Qed.
Lemma ord_mean e : (e <= 1000)%Z -> ordinary_mean (bpow radix2 e).
Proof. intros H. unfold ordinary_mean. rewrite Rabs_pos_eq by apply bpow_ge_0. apply bpow_le, H. Qed.
Lemma ord_step1 : ordinary_step (bpow radix2 0).
Proof. split; apply bpow_le; lia. Qed.
Definition two (x y : R) (i : nat) : R := match i with O => x | _ => y end.
Lemma values2 f g x y : is_value f x -> is_value g y -> values 2 [f; g] (two x y).
Proof. intros A B. split; [reflexivity|]. intros [|[|i]] h; cbn; intros E; [injection E as <-; exact A|injection E as <-; exact B|destruct i; discriminate]. Qed.
Lemma matrix2 r q x y : values 2 r x -> values 2 q y -> matrix 2 [r; q] (fun i => match i with O => x | _ => y end).
Proof. intros A B. split; [reflexivity|]. intros [|[|i]] h; cbn; intros E; [injection E as <-; exact A|injection E as <-; exact B|destruct i; discriminate]. Qed.

(** ** A full covariance: the eigenvalues are paired with coordinates *)
Definition w_mean := [fnum 1 0; fnum 1 80].
Definition w_eig := [fnum 1 (-200); fnum 1 0].
Definition w_rows := [[fnum 0 0; fnum 1 0]; [fnum 1 0; fnum 0 0]].
Definition w_b (i : nat) : nat -> R := match i with O => two 0 (bpow radix2 0) | _ => two (bpow radix2 0) 0 end.
Lemma w_fires : no_effect_axis64 (fnum 1 0) w_mean w_eig w_rows = true.
Proof. vm_compute. reflexivity. Qed.
Lemma axis_pairing : exists fs s fm m fv v rows b,
  is_value fs s /\ ordinary_step s /\ values 2 fm m /\ values 2 fv v /\ matrix 2 rows b /\
  (forall i, (i < 2)%nat -> ordinary_mean (m i) /\ ordinary_variance (v i)) /\ (forall i j, (i < 2)%nat -> (j < 2)%nat -> ordinary (b i j)) /\
  (forall i j, (i < 2)%nat -> (j < 2)%nat -> b 0%nat i * b 0%nat j + b 1%nat i * b 1%nat j = if Nat.eqb i j then 1 else 0) /\
  no_effect_axis64 fs fm fv rows = true /\
  / 10 * s * sqrt (v 1%nat) * Rabs (b 0%nat 1%nat) = / 10 * Rabs (m 0%nat).
Proof.
  exists (fnum 1 0), (bpow radix2 0), w_mean, (two (bpow radix2 0) (bpow radix2 80)), w_eig, (two (bpow radix2 (-200)) (bpow radix2 0)), w_rows, w_b.
  split; [apply pow2; lia|]. split; [apply ord_step1|]. split; [apply values2; apply pow2; lia|]. split; [apply values2; apply pow2; lia|].
  split; [apply matrix2; apply values2; first [apply zero_value|apply pow2; lia]|].
  split; [intros [|[|i]] I; [split; [apply ord_mean|apply ord_var]; lia|split; [apply ord_mean|apply ord_var]; lia|lia]|].
  split; [intros [|[|i]] [|[|j]] I J; try lia; first [left; reflexivity|apply ord_pow; lia]|].
  split; [intros [|[|i]] [|[|j]] I J; try lia; cbn; ring|].
  split; [exact w_fires|]. cbn [w_b two]. change (bpow radix2 0) with 1. rewrite sqrt_1, Rabs_R1. ring.
Qed.
(** ** VD-CMA: the root of a scale is not a standard deviation *)
Lemma vd_roots : exists fs s fm m fd d,
  is_value fs s /\ ordinary_step s /\ values 2 fm m /\ values 2 fd d /\
  (forall i, (i < 2)%nat -> ordinary_mean (m i) /\ ordinary_variance (d i)) /\
  no_effect_coor64 fs fm fd = true /\ no_effect_axis_sep64 fs fm fd = true /\
  forall v i, (i < 2)%nat -> / 5 * Rabs (m i) <= / 5 * s * vd_deviation (d i) v.
Proof.
  exists (fnum 1 0), (bpow radix2 0), [fnum 1 200; fnum 1 200], (two (bpow radix2 200) (bpow radix2 200)), [fnum 1 200; fnum 1 200], (two (bpow radix2 200) (bpow radix2 200)).
  split; [apply pow2; lia|]. split; [apply ord_step1|]. split; [apply values2; apply pow2; lia|]. split; [apply values2; apply pow2; lia|].
  split; [intros [|[|i]] I; [split; [apply ord_mean|apply ord_var]; lia|split; [apply ord_mean|apply ord_var]; lia|lia]|].
  split; [vm_compute; reflexivity|]. split; [vm_compute; reflexivity|]. intros v i I.
  assert (two (bpow radix2 200) (bpow radix2 200) i = bpow radix2 200) as -> by (destruct i; reflexivity). change (bpow radix2 0) with 1. unfold vd_deviation.
  pose proof (bpow_gt_0 radix2 200) as P. rewrite (Rabs_pos_eq (bpow radix2 200)) by lra. assert (Q : 1 <= sqrt (1 + v * v)). { rewrite <- sqrt_1 at 1. apply sqrt_le_1_alt. pose proof (Rle_0_sqr v) as Y. unfold Rsqr in Y. lra. }
  set (w := bpow radix2 200) in *. assert (w * 1 <= w * sqrt (1 + v * v)) by (apply Rmult_le_compat_l; lra). lra.
Qed.
(** ** A case that fires and one that does not *)
Lemma coor_cases : no_effect_coor64 (fnum 1 (-60)) [fnum 1 0; fnum (-3) 5] [fnum 1 0; fnum 1 4] = true /\
  no_effect_coor64 (fnum 1 (-40)) [fnum 1 0; fnum (-3) 5] [fnum 1 0; fnum 1 4] = false /\
  no_effect_axis_sep64 (fnum 1 (-60)) [fnum 1 0; fnum (-3) 5] [fnum 1 0; fnum 1 4] = true /\
  no_effect_axis_sep64 (fnum 1 (-40)) [fnum 1 0; fnum (-3) 5] [fnum 1 0; fnum 1 4] = false /\
  no_effect_axis64 (fnum 1 (-40)) [fnum 1 0; fnum (-3) 5] [fnum 1 0; fnum 1 4] w_rows = false.
Proof. vm_compute. repeat split. Qed.
Lemma hyp_case : is_value (fnum 1 (-60)) (bpow radix2 (-60)) /\ ordinary_step (bpow radix2 (-60)) /\ values 2 [fnum 1 0; fnum 1 5] (two (bpow radix2 0) (bpow radix2 5)) /\
  values 2 [fnum 1 0; fnum 1 4] (two (bpow radix2 0) (bpow radix2 4)) /\ matrix 2 w_rows w_b /\
  (forall i, (i < 2)%nat -> ordinary_mean (two (bpow radix2 0) (bpow radix2 5) i) /\ ordinary_variance (two (bpow radix2 0) (bpow radix2 4) i)) /\
  (forall i j, (i < 2)%nat -> (j < 2)%nat -> ordinary (w_b i j)).
Proof.
  split; [apply pow2; lia|]. split; [split; apply bpow_le; lia|]. split; [apply values2; apply pow2; lia|]. split; [apply values2; apply pow2; lia|].
  split; [apply matrix2; apply values2; first [apply zero_value|apply pow2; lia]|].
  split; [intros [|[|i]] I; [split; [apply ord_mean|apply ord_var]; lia|split; [apply ord_mean|apply ord_var]; lia|lia]|].
  intros [|[|i]] [|[|j]] I J; try lia; first [left; reflexivity|apply ord_pow; lia].
Qed.
