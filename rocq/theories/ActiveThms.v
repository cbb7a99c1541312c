(** Active CMA-ES: theorem forms, instances, and loss of positive definiteness
    for very large populations. *)
From Coq Require Import Reals List Lia Lra Psatz.
From Verif Require Import Base Vec VecProofs Params SpecParams ParamsProofs AdaptProofs Config Search SpecSearch Update SpecUpdate UpdateProofs ParamSound UpdateProofs2
  DemoNum DemoNumProofs LargeLambda NumThms ActiveProofs.
Import ListNotations.
Local Open Scope R_scope.

Lemma constructed_muw k : constructed k -> 1 <= k_muw k.
Proof.
  intros (n & l & h & Hn & Hl & _ & ->).
  assert (G : forall k, wf k /\ 1 <= k_muw k -> wf (fold_left do_adapt h k) /\ 1 <= k_muw (fold_left do_adapt h k)).
  { induction h as [|a h IH]; intros k H; cbn [fold_left]; auto. apply IH. clear IH. destruct H as [W M].
    destruct a as [| |b|i v|i]; cbn [do_adapt]; try (split; [exact W|exact M]).
    - unfold set_noisy. match goal with |- context [initialize ?P] => set (p5 := P) end.
      assert (W5 : wf p5) by (destruct W; split; cbn; lia). destruct (weights_ok p5 W5) as (_ & _ & _ & _ & _ & _ & Q & _). split; [exact W5|exact (proj1 Q)].
    - unfold set_tpa. cbn zeta. destruct (b =? 2)%Z; (split; [exact W|exact M]). }
  apply G. unfold cma_params. match goal with |- context [initialize ?P] => set (p5 := P) end.
  assert (W5 : wf p5) by (split; cbn; lia). destruct (weights_ok p5 W5) as (_ & _ & _ & _ & _ & _ & Q & _). split; [exact W5|exact (proj1 Q)].
Qed.
Lemma active_pd_thm p e g h s0 s : constructed (p_k p) -> p_upd p = Active -> k_sep (p_k p) = false -> k_vd (p_k p) = false -> p_lazy p = false ->
  eigensolver_ok p -> k_c1 (p_k p) + 0.66 * k_cmu (p_k p) < 0.66 -> started p e g s0 -> asked false h -> run_ops (cma_num p) e g h s0 = Ok s ->
  symmetric (k_dim (p_k p)) (cov_of s) /\ pos_def (k_dim (p_k p)) (cov_of s).
Proof.
  intros C A S V L E R H0 W H. apply (active_pd p (constructed_sound _ C)) with (e := e) (g := g) (h := h) (s0 := s0); auto.
  pose proof (constructed_muw _ C). lra.
Qed.
Lemma active_sep_thm p e g h x0 n0 s0 s : constructed (p_k p) -> p_upd p = Active -> k_sep (p_k p) = true ->
  k_c1 (p_k p) + 0.66 * k_cmu (p_k p) < 0.66 -> st_new (cma_num p) g x0 n0 = Ok s0 -> run_ops (cma_num p) e g h s0 = Ok s ->
  forall j, (j < k_dim (p_k p))%nat -> 0 < variances_of s j.
Proof.
  intros C A S R H0 H. apply (active_sep_pos p (constructed_sound _ C)) with (e := e) (g := g) (h := h) (x0 := x0) (n0 := n0) (s0 := s0); auto.
  pose proof (constructed_muw _ C). lra.
Qed.

(** * Exact eigensolvers exist in dimensions 1 and 2 *)
Lemma eig1_ok k fl : k_dim k = 1%nat -> eigensolver_ok (npar_eig k fl eig1).
Proof.
  intros D a _. cbn [npar_eig p_k p_eig]. rewrite D. split; [|split]; intros i j Hi Hj; replace i with 0%nat by lia; replace j with 0%nat by lia; cbn; lra.
Qed.
Lemma rotation b e m : m * m = b * b + e * e -> m <> 0 -> b / m * (b / m) + e / m * (e / m) = 1.
Proof. intros H1 H2. replace (b / m * (b / m) + e / m * (e / m)) with ((b * b + e * e) / (m * m)) by (field; auto). rewrite <- H1. field. auto. Qed.
Lemma two_cases (Q : nat -> nat -> Prop) : Q 0%nat 0%nat -> Q 0%nat 1%nat -> Q 1%nat 0%nat -> Q 1%nat 1%nat -> forall i j, (i < 2)%nat -> (j < 2)%nat -> Q i j.
Proof. intros A B C D i j Hi Hj. destruct i as [|[|i]]; [| |lia]; (destruct j as [|[|j]]; [| |lia]); auto. Qed.
Lemma eig2_diag a : symmetric 2 a -> diagonalises 2 a (eig2 (mtab 2 a)).
Proof.
  intros S. assert (S1 : a 1%nat 0%nat = a 0%nat 1%nat) by (apply S; lia).
  set (x := a 0%nat 0%nat). set (b := a 0%nat 1%nat). set (c := a 1%nat 1%nat).
  assert (E : eig2 (mtab 2 a) = if Req_EM_T b 0 then (fun i => if Nat.eqb i 0 then x else c, ident)
    else let r := sqrt ((x - c) * (x - c) + 4 * (b * b)) in let ev := (x + c + r) / 2 in let e := ev - x in let m := sqrt (b * b + e * e) in
    (fun i => if Nat.eqb i 0 then ev else x + c - ev,
     fun i j => if Nat.eqb j 0 then (if Nat.eqb i 0 then b / m else e / m) else (if Nat.eqb i 0 then - e / m else b / m))) by reflexivity.
  rewrite E. clear E. unfold diagonalises. destruct (Req_EM_T b 0) as [Z|Z].
  - split; [|split]; apply two_cases; cbn; unfold x, b, c in *; try rewrite S1; try rewrite Z; ring.
  - cbv zeta. set (D := (x - c) * (x - c) + 4 * (b * b)).
    assert (BB : 0 < b * b) by (apply (Rlt_0_sqr b Z)). assert (HD : 0 <= D) by (unfold D; pose proof (Rle_0_sqr (x - c)) as QQ; unfold Rsqr in QQ; lra).
    set (ev := (x + c + sqrt D) / 2). set (e := ev - x). set (m := sqrt (b * b + e * e)).
    assert (M : m * m = b * b + e * e) by (apply sqrt_sqrt; nra).
    assert (MP : 0 < m) by (apply sqrt_lt_R0; nra).
    assert (RT := rotation b e m M ltac:(lra)).
    assert (K : b * b = e * (x + e - c)).
    { pose proof (sqrt_sqrt D HD) as Q. set (r := sqrt D) in *. assert (HR : r = 2 * ev - x - c) by (unfold ev; field). rewrite HR in Q. unfold D in Q. unfold e. lra. }
    assert (EV : ev = x + e) by (unfold e; ring).
    cbn [fst snd]. split; [|split]; apply two_cases; cbn [rsum Nat.eqb].
    + lra.
    + field. lra.
    + field. lra.
    + replace (0 + - e / m * (- e / m) + b / m * (b / m)) with (b / m * (b / m) + e / m * (e / m)) by (field; lra). exact RT.
    + replace (0 + b / m * (b / m) + - e / m * (- e / m)) with (b / m * (b / m) + e / m * (e / m)) by (field; lra). exact RT.
    + field. lra.
    + field. lra.
    + replace (0 + e / m * (e / m) + b / m * (b / m)) with (b / m * (b / m) + e / m * (e / m)) by (field; lra). exact RT.
    + fold x. apply Rmult_eq_reg_r with (m * m); [|nra]. replace ((0 + b / m * ev * (b / m) + - e / m * (x + c - ev) * (- e / m)) * (m * m)) with (ev * (b * b) + (x + c - ev) * (e * e)) by (field; lra).
      rewrite M, EV. rewrite K. ring.
    + fold b. apply Rmult_eq_reg_r with (m * m); [|nra]. replace ((0 + b / m * ev * (e / m) + - e / m * (x + c - ev) * (b / m)) * (m * m)) with (b * e * (2 * ev - x - c)) by (field; lra).
      rewrite M, EV, K. ring.
    + rewrite S1. fold b. apply Rmult_eq_reg_r with (m * m); [|nra]. replace ((0 + e / m * ev * (b / m) + b / m * (x + c - ev) * (- e / m)) * (m * m)) with (b * e * (2 * ev - x - c)) by (field; lra).
      rewrite M, EV, K. ring.
    + fold c. apply Rmult_eq_reg_r with (m * m); [|nra]. replace ((0 + e / m * ev * (e / m) + b / m * (x + c - ev) * (b / m)) * (m * m)) with (ev * (e * e) + (x + c - ev) * (b * b)) by (field; lra).
      rewrite M, EV. rewrite K. ring.
Qed.
Lemma eig2_ok k fl : k_dim k = 2%nat -> eigensolver_ok (npar_eig k fl eig2).
Proof. intros D a S. cbn [npar_eig p_k p_eig] in *. rewrite D in *. apply eig2_diag, S. Qed.

Lemma k24_active_rates : k_c1 k24 + 0.66 * k_cmu k24 < 0.66.
Proof.
  change (k_c1 k24) with (2 / ((2 + 1.3) * (2 + 1.3) + muw_of 2)).
  change (k_cmu k24) with (Rmin (1 - 2 / ((2 + 1.3) * (2 + 1.3) + muw_of 2)) (2 * (muw_of 2 - 2 + 1 / muw_of 2) / ((2 + 2) * (2 + 2) + muw_of 2))).
  pose proof muw_2. pose proof muw_2_poly.
  assert (2 / ((2 + 1.3) * (2 + 1.3) + muw_of 2) <= 1 / 4) by (apply div_le; lra).
  assert (2 * (muw_of 2 - 2 + 1 / muw_of 2) / ((2 + 2) * (2 + 2) + muw_of 2) <= 1 / 4) by (apply div_le; lra).
  pose proof (Rmin_r (1 - 2 / ((2 + 1.3) * (2 + 1.3) + muw_of 2)) (2 * (muw_of 2 - 2 + 1 / muw_of 2) / ((2 + 2) * (2 + 2) + muw_of 2))). lra.
Qed.
Lemma k24_sep_active_rates : k_c1 (set_sep k24) + 0.66 * k_cmu (set_sep k24) < 0.66.
Proof.
  set (c1 := k_c1 (set_sep k24)).
  change (k_cmu (set_sep k24)) with (Rmin (1 - c1) ((0.3 + muw_of 2 - 2 + 1 / muw_of 2) / (2 + 4 * sqrt 2 + muw_of 2 / 2))).
  pose proof muw_2. pose proof muw_2_poly.
  assert (c1 <= 1 / 3).
  { change c1 with (2 / ((2 + 1.3) * (2 + 1.3) + muw_of 2) * ((2 + 2) / 3)).
    assert (2 / ((2 + 1.3) * (2 + 1.3) + muw_of 2) <= 1 / 4) by (apply div_le; lra). lra. }
  assert (1 <= sqrt 2) by (rewrite <- sqrt_1 at 1; apply sqrt_le_1; lra).
  assert ((0.3 + muw_of 2 - 2 + 1 / muw_of 2) / (2 + 4 * sqrt 2 + muw_of 2 / 2) <= 1 / 4) by (apply div_le; lra).
  pose proof (Rmin_r (1 - c1) ((0.3 + muw_of 2 - 2 + 1 / muw_of 2) / (2 + 4 * sqrt 2 + muw_of 2 / 2))). lra.
Qed.
Lemma run24_eig k fl eig : k_lambda k = 4%nat -> k_fixed k = [] -> exists s0 s, st_new (cma_num (npar_eig k fl eig)) (cfg_of k) [1; 2] num0 = Ok s0 /\
  run_ops (cma_num (npar_eig k fl eig)) (call_env zig) (cfg_of k) h24 s0 = Ok s.
Proof.
  intros L F. set (p := npar_eig k fl eig).
  assert (A : (2 <= k_lambda (p_k p))%nat) by (cbn; lia).
  destruct (new_ok p A [1; 2] num0) as [s0 E0]. exists s0.
  assert (B : forall i v, In (i, v) (k_fixed (p_k p)) -> (0 <= i < Z.of_nat (k_dim (p_k p)))%Z) by (intros i v H; cbn in H; rewrite F in H; destruct H).
  destruct (runs_ok p A B zig h24 eq_refl [1; 2] num0 s0 E0) as [s E]; [|exists s; auto].
  repeat constructor; cbn; auto.
Qed.

(** * The largest populations: c1 + cmu = 1, and the first iteration can give a
    negative variance. *)
Lemma spread_ones p (HS : sound_params (p_k p)) pts n1 : x_sigma n1 = 1 -> x_mean n1 0%nat = 0 ->
  (forall i, (i < k_mu (p_k p))%nat -> pts i 0%nat = 1) -> spread p pts n1 0%nat 0%nat = 1.
Proof.
  intros SG ME HW. unfold spread. rewrite SG, ME.
  rewrite (rsum_ext _ _ (wgt p)) by (intros; rewrite HW by auto; ring). rewrite (wgt_sum p HS). field.
Qed.
Lemma active_negative : exists p e g x0 n s0 s h,
  p_upd p = Active /\ constructed (p_k p) /\ k_sep (p_k p) = false /\ k_vd (p_k p) = false /\ p_lazy p = false /\ eigensolver_ok p /\ same_problem p g /\
  st_new (cma_num p) g x0 n = Ok s0 /\ asked false h /\ Forall (whole_gen g) h /\ run_ops (cma_num p) e g h s0 = Ok s /\ k_dim (p_k p) = 1%nat /\ cov_of s 0%nat 0%nat < 0.
Proof.
  pose (p := npar_eig big Active eig1).
  assert (HL : (2 <= k_lambda big)%nat) by (change (k_lambda big) with 1022%nat; lia).
  pose (cols := repeat [0] 511 ++ repeat [1] 511).
  assert (LC : length cols = 1022%nat) by (unfold cols; rewrite app_length, !repeat_length; reflexivity).
  destruct (ask_flat_generation p HL (fun i v H => match H with end) cols [0] num0 LC) as (s0 & s & m & E0 & E & A & _).
  exists p, flat_env, (cfg_of big), [0], num0, s0, s, [OAsk; OGen cols []].
  split; [reflexivity|]. split; [apply big_constructed|]. split; [reflexivity|]. split; [reflexivity|]. split; [reflexivity|].
  split; [apply eig1_ok; reflexivity|]. split; [repeat split|]. split; [exact E0|]. split; [cbn; auto|].
  split; [repeat constructor; exact LC|]. split; [exact E|]. split; [reflexivity|].
  unfold cov_of. rewrite A. set (n1 := with_pos _ _ _).
  assert (HS : sound_params (p_k p)) by (apply constructed_sound, big_constructed).
  assert (HB : forall i c, (i < k_mu (p_k p))%nat -> pt cols i c = x_mean n1 c).
  { intros i c Hi. change (i < 511)%nat in Hi. unfold pt, cols. rewrite app_nth1 by (rewrite repeat_length; exact Hi). rewrite nth_repeat_in by exact Hi. reflexivity. }
  assert (HW : forall i, (i < k_mu (p_k p))%nat -> worst_of p cols i 0%nat = 1).
  { intros i Hi. change (i < 511)%nat in Hi. unfold worst_of, pt, cols. change (k_lambda (p_k p)) with 1022%nat.
    rewrite app_nth2 by (rewrite repeat_length; lia). rewrite nth_repeat_in by (rewrite repeat_length; lia). reflexivity. }
  unfold update_num. cbn [x_cov p npar_eig p_upd p_k]. change (k_sep big) with false. cbn iota.
  assert (W1 : spread p (worst_of p cols) n1 0%nat 0%nat = 1).
  { assert (SG : x_sigma n1 = 1) by (change (x_sigma n1) with (init_sigma p); unfold init_sigma; cbn [p npar_eig p_sigma0]; destruct (Rlt_dec 0 1); lra).
    assert (ME : x_mean n1 0%nat = 0) by reflexivity. exact (spread_ones p HS _ n1 SG ME HW). }
  assert (CI : new_csqinv p n1 0%nat 0%nat = 1).
  { change (new_csqinv p n1 0%nat 0%nat) with (0 + 1 * sqrt (1 / 1) * 1). replace (1 / 1) with 1 by field. rewrite sqrt_1. ring. }
  assert (CD : cminus_denom p cols n1 = 1).
  { unfold cminus_denom. change (k_sep (p_k p)) with false. change (k_dim (p_k p)) with 1%nat. cbn iota.
    set (S := spread p (worst_of p cols) n1) in *. set (B := new_csqinv p n1) in *.
    change (0 + (0 + B 0%nat 0%nat * S 0%nat 0%nat) * B 0%nat 0%nat = 1). rewrite W1, CI. ring. }
  assert (CM : 0 < cminus p cols n1).
  { unfold cminus. rewrite CD. pose proof big_c1_range. pose proof muw_511. destruct (Req_EM_T 1 0) as [Q|_]; [lra|].
    change (k_cmu (p_k p)) with (k_cmu big). change (k_muw (p_k p)) with (muw_of 511). rewrite big_cmu. apply Rmin_glb_lt.
    - lra.
    - apply Rmult_lt_0_compat; [lra|]. apply Rdiv_lt_0_compat; [lra|]. assert (0 < Rpower (INR (k_dim (p_k p)) + 2) 1.5) by (unfold Rpower; apply exp_pos). lra. }
  unfold active_cov. rewrite W1, (same_spread p cols _ HB), !(same_pc p HS cols _ HB) by reflexivity.
  change (x_cov n1 0%nat 0%nat) with 1. change (k_cmu (p_k p)) with (k_cmu big). change (k_c1 (p_k p)) with (k_c1 big). rewrite big_cmu. lra.
Qed.
