(** Steps without effect on the mean. *)
From Coq Require Import Reals Lra Lia Psatz ZArith List.
From Flocq Require Import Core Relative Plus_error BinarySingleNaN.
From Verif Require Import Base Pwq64 Pwq64Real Pwq64Proofs NoEff64 SpecNoEff.
Import ListNotations.
Local Open Scope R_scope.
Local Instance p53 : Prec_gt_0 53. Proof. reflexivity. Qed.
Local Instance fx_valid : Valid_exp fx. Proof. exact (FLT_exp_valid (-1074) 53). Qed.

(** * One addition *)
Lemma gap_up m : FF m -> 0.9 * u64 * Rabs m <= succ radix2 fx m - m.
Proof.
  intros F. assert (U : bpow radix2 (- (53)) = u64) by (unfold u64; cbn; lra). assert (U0 : 0 < u64 < / 100) by (unfold u64; lra).
  destruct (Rle_or_lt 0 m) as [P|P].
  - rewrite succ_eq_pos by exact P. pose proof (ulp_FLT_gt radix2 (-1074) 53 m) as G. change (FLT_exp (-1074) 53) with fx in G. rewrite U in G. pose proof (Rabs_pos m). nra.
  - assert (W : 0 < - m) by lra. pose proof (pred_plus_ulp radix2 fx (- m) W (rn_opp m F)) as E. pose proof (pred_ge_0 radix2 fx (- m) W (rn_opp m F)) as G0.
    pose proof (ulp_FLT_gt radix2 (-1074) 53 (pred radix2 fx (- m))) as G. change (FLT_exp (-1074) 53) with fx in G. rewrite U, Rabs_pos_eq in G by exact G0.
    replace m with (- - m) at 2 by ring. rewrite succ_opp. rewrite (Rabs_left m P). set (q := pred radix2 fx (- m)) in *. 
    set (z := ulp radix2 fx q) in *. assert (Z0 : 0 < z) by nra. assert (u64 * z <= / 100 * z) by (apply Rmult_le_compat_r; lra).
    assert (Q : q = - m - z) by lra. rewrite Q in G. lra.
Qed.
Lemma gap_down m : FF m -> 0.9 * u64 * Rabs m <= m - pred radix2 fx m.
Proof. intros F. pose proof (gap_up (- m) (rn_opp m F)) as G. rewrite Rabs_Ropp, succ_opp in G. lra. Qed.
Lemma feq_rep a b x y : rep a x -> rep b y -> feq a b = true <-> x = y.
Proof. intros [Ha <-] [Hb <-]. unfold feq. rewrite Beqb_correct by auto. destruct (Req_bool_spec (B2R a) (B2R b)); split; intros; auto; discriminate || contradiction. Qed.
Lemma still_sound fm ft m t : rep fm m -> rep ft t -> Rabs (m + t) <= big -> still fm ft = true -> Rabs t <= 1.01 * u64 * Rabs m.
Proof.
  intros M T B H. unfold still in H. apply (feq_rep _ _ m (rn (m + t)) M (rep_add _ _ _ _ M T B)) in H.
  pose proof (rn_sum m t (rep_F _ _ M) (rep_F _ _ T)) as E. rewrite <- H in E. replace (m - (m + t)) with (- t) in E by ring. rewrite Rabs_Ropp in E.
  pose proof (Rabs_triang m t). pose proof (Rabs_pos m). pose proof (Rabs_pos t). unfold u64 in *. lra.
Qed.
Lemma still_complete fm ft m t : rep fm m -> rep ft t -> Rabs (m + t) <= big -> Rabs t <= 0.3 * u64 * Rabs m -> still fm ft = true.
Proof.
  intros M T B H. unfold still. apply (feq_rep _ _ m (rn (m + t)) M (rep_add _ _ _ _ M T B)). pose proof (rep_F _ _ M) as F.
  destruct (Req_dec m 0) as [->|N].
  { rewrite Rabs_R0, Rmult_0_r in H. assert (t = 0). { destruct (Req_dec t 0); auto. apply Rabs_pos_lt in H0. lra. } subst t. rewrite Rplus_0_r. symmetry. apply rn_fix, F. }
  assert (P : 0 < u64 * Rabs m) by (apply Rmult_lt_0_compat; [unfold u64; lra|apply Rabs_pos_lt, N]).
  pose proof (gap_up m F) as G1. pose proof (gap_down m F) as G2. apply Rabs_le_inv in H. apply Rle_antisym.
  - apply round_N_ge_midp; auto with typeclass_instances. lra.
  - apply round_N_le_midp; auto with typeclass_instances. lra.
Qed.
(** * Errors of a few operations *)
Definition near (k x y : R) : Prop := Rabs (x - y) <= k * u64 * Rabs y.
Lemma near_mul j k x y x' y' : 0 <= j <= 100 -> 0 <= k <= 100 -> near j x y -> near k x' y' -> near (j + k + 1) (x * x') (y * y').
Proof.
  intros Hj Hk A B. unfold near in *. replace (x * x' - y * y') with ((x - y) * (x' - y') + (x - y) * y' + y * (x' - y')) by ring.
  eapply Rle_trans; [eapply Rle_trans; [apply Rabs_triang|apply Rplus_le_compat_r, Rabs_triang]|]. rewrite !Rabs_mult.
  pose proof (Rabs_pos y) as Py. pose proof (Rabs_pos y') as Py'. pose proof (Rabs_pos (x - y)) as P1. pose proof (Rabs_pos (x' - y')) as P2.
  assert (U : 0 < u64 < / 1000000) by (unfold u64; lra).
  assert (A1 : Rabs (x - y) * Rabs (x' - y') <= u64 * (Rabs y * Rabs y')).
  { apply Rle_trans with ((j * u64 * Rabs y) * (k * u64 * Rabs y')); [apply Rmult_le_compat; auto|]. pose proof (Rmult_le_pos _ _ Py Py') as PP.
    assert (JK : j * k <= 10000) by (replace 10000 with (100 * 100) by ring; apply Rmult_le_compat; lra). assert (JU : j * k * u64 <= 1) by (apply Rle_trans with (10000 * u64); [apply Rmult_le_compat_r; lra|lra]).
    replace (j * u64 * Rabs y * (k * u64 * Rabs y')) with (j * k * u64 * (u64 * (Rabs y * Rabs y'))) by ring. rewrite <- (Rmult_1_l (u64 * (Rabs y * Rabs y'))) at 2.
    apply Rmult_le_compat_r; [apply Rmult_le_pos; lra|exact JU]. }
  assert (A2 : Rabs (x - y) * Rabs y' <= j * u64 * Rabs y * Rabs y') by (apply Rmult_le_compat_r; auto).
  assert (A3 : Rabs y * Rabs (x' - y') <= Rabs y * (k * u64 * Rabs y')) by (apply Rmult_le_compat_l; auto). lra.
Qed.
Lemma near_rn k x y : 0 <= k <= 100 -> bpow radix2 (-1022) <= Rabs x -> near k x y -> near (k + 3) (rn x) y.
Proof.
  intros Hk Hx A. unfold near in *. pose proof (rn_err x) as E.
  assert (EU : eta64 <= u64 * Rabs x). { assert (eta64 = u64 * bpow radix2 (-1022)) as -> by (unfold eta64; replace u64 with (bpow radix2 (-53)) by (unfold u64; cbn; lra); rewrite <- bpow_plus; reflexivity). apply Rmult_le_compat_l; [unfold u64; lra|exact Hx]. }
  pose proof (Rabs_triang (rn x - x) (x - y)) as T. replace (rn x - x + (x - y)) with (rn x - y) in T by ring.
  pose proof (Rabs_triang (x - y) y) as T2. replace (x - y + y) with x in T2 by ring. pose proof (Rabs_pos y). assert (0 < u64 < / 1000000) by (unfold u64; lra).
  assert (KU : k * u64 <= / 1000) by (apply Rle_trans with (100 * u64); [apply Rmult_le_compat_r; lra|lra]).
  assert (K1 : k * u64 * Rabs y <= / 1000 * Rabs y) by (apply Rmult_le_compat_r; auto). assert (K2 : u64 * Rabs x <= u64 * ((1 + / 1000) * Rabs y)) by (apply Rmult_le_compat_l; lra).
  assert (0 <= u64 * Rabs y) by (apply Rmult_le_pos; lra). lra.
Qed.
Lemma near_0 x : near 0 x x.
Proof. unfold near. rewrite Rminus_diag_eq, Rabs_R0 by reflexivity. lra. Qed.
Lemma near_size k x y : 0 <= k <= 100 -> near k x y -> / 2 * Rabs y <= Rabs x <= 2 * Rabs y.
Proof.
  intros Hk A. unfold near in A. pose proof (Rabs_pos y). assert (0 < u64 < / 1000000) by (unfold u64; lra). assert (KU : k * u64 <= / 2) by (apply Rle_trans with (100 * u64); [apply Rmult_le_compat_r; lra|lra]). assert (k * u64 * Rabs y <= / 2 * Rabs y) by (apply Rmult_le_compat_r; auto).
  pose proof (Rabs_triang (x - y) y) as T. replace (x - y + y) with x in T by ring. pose proof (Rabs_triang (y - x) x) as T2. replace (y - x + x) with y in T2 by ring. rewrite Rabs_minus_sym in T2. lra.
Qed.
(** * The steps of the criteria *)
Lemma rep_sqrt f v : rep f v -> 0 <= v -> rep (fsqrt f) (rn (sqrt v)).
Proof.
  intros [F <-] P. unfold fsqrt. match goal with |- rep (@Bsqrt ?a ?b ?pa ?pb ?m f) _ => destruct (@Bsqrt_correct a b pa pb m f) as (E & G & _) end.
  split; [|exact E]. rewrite G. destruct f as [ | | |[|] mm e H]; auto; try discriminate. exfalso. cbn in P.
  pose proof (F2R_lt_0 radix2 (Float radix2 (Zneg mm) e) eq_refl). lra.
Qed.
Lemma bp_mul a b : bpow radix2 a * bpow radix2 b = bpow radix2 (a + b).
Proof. symmetry. apply bpow_plus. Qed.
Lemma sqrt_bp k : sqrt (bpow radix2 (k + k)) = bpow radix2 k.
Proof. rewrite bpow_plus. apply sqrt_square, bpow_ge_0. Qed.
(** A size between two powers of two. *)
Definition sized (a b : Z) (x : R) : Prop := bpow radix2 a <= Rabs x <= bpow radix2 b.
Lemma sized_mul a b c d x y : sized a b x -> sized c d y -> sized (a + c) (b + d) (x * y).
Proof.
  intros [A B] [C D]. unfold sized. rewrite Rabs_mult, <- !bp_mul. split; apply Rmult_le_compat; auto using bpow_ge_0, Rabs_pos.
Qed.
Lemma sized_weak a b c d x : sized a b x -> (c <= a)%Z -> (b <= d)%Z -> sized c d x.
Proof. intros [A B] C D. split; eapply Rle_trans; eauto using bpow_le. Qed.
Lemma sized_near k a b x y : 0 <= k <= 100 -> near k x y -> sized a b y -> sized (a - 1) (b + 1) x.
Proof.
  intros Hk N [A B]. destruct (near_size k x y Hk N) as [C D]. unfold sized. unfold Zminus. rewrite <- !bp_mul. change (bpow radix2 (- (1))) with (/ 2). change (bpow radix2 1) with 2. lra.
Qed.
Lemma sized_big a b x : (b <= 1010)%Z -> sized a b x -> Rabs x <= big.
Proof. intros H [_ B]. eapply Rle_trans; [exact B|]. apply bpow_le, H. Qed.
Lemma sized_min a b x : (-1022 <= a)%Z -> sized a b x -> bpow radix2 (-1022) <= Rabs x.
Proof. intros H [A _]. eapply Rle_trans; [|exact A]. apply bpow_le, H. Qed.
Lemma near_00 k : near k 0 0.
Proof. unfold near. rewrite Rminus_0_r, Rabs_R0. lra. Qed.
Lemma rn_0 : rn 0 = 0.
Proof. apply round_0; auto with typeclass_instances. Qed.
Lemma mul_near fx_ fy x y x' y' j k a b c d : 0 <= j <= 80 -> 0 <= k <= 10 -> rep fx_ x -> rep fy y -> near j x x' -> near k y y' -> sized a b x' -> sized c d y' ->
  (-1020 <= a + c)%Z -> (b + d <= 1008)%Z -> exists z, rep (fmul fx_ fy) z /\ near (j + k + 4) z (x' * y') /\ sized (a + c) (b + d) (x' * y').
Proof.
  intros Hj Hk X Y NX NY SX SY L H. pose proof (near_mul j k _ _ _ _ ltac:(lra) ltac:(lra) NX NY) as N. pose proof (sized_mul _ _ _ _ _ _ SX SY) as S1.
  assert (S2 : sized (a + c - 1 - 1) (b + d + 1 + 1) (x * y)).
  { pose proof (sized_mul _ _ _ _ _ _ (sized_near j _ _ _ _ ltac:(lra) NX SX) (sized_near k _ _ _ _ ltac:(lra) NY SY)) as Q. eapply sized_weak; [exact Q|lia|lia]. }
  exists (rn (x * y)). split; [apply rep_mul; auto; (eapply sized_big; [|exact S2]; lia)|]. split; [|exact S1].
  replace (j + k + 4) with (j + k + 1 + 3) by ring. apply near_rn; [lra| |exact N]. (eapply sized_min; [|exact S2]; lia).
Qed.
Lemma step_near fc fs fv a c s v : rep fc a -> near 3 a c -> / 16 <= c <= / 2 -> rep fs s -> bpow radix2 (-300) <= s <= bpow radix2 300 ->
  rep fv v -> 0 <= v -> ordinary v ->
  exists t, rep (fmul (fmul fc fs) (fsqrt fv)) t /\ near 14 t (c * s * sqrt v) /\ Rabs (c * s * sqrt v) <= bpow radix2 450 /\
    (v <> 0 -> sized (-454) 450 (c * s * sqrt v)) /\ (v = 0 -> t = 0).
Proof.
  intros C NC Hc S Hs V Pv Ov.
  assert (Sc : sized (-4) 0 c) by (unfold sized; rewrite Rabs_pos_eq by lra; change (bpow radix2 (-4)) with (/ 16); change (bpow radix2 0) with 1; lra).
  assert (Ss : sized (-300) 300 s) by (unfold sized; rewrite Rabs_pos_eq; [exact Hs|]; pose proof (bpow_ge_0 radix2 (-300)); lra).
  destruct (mul_near _ _ _ _ _ _ 3 0 _ _ _ _ ltac:(lra) ltac:(lra) C S NC (near_0 s) Sc Ss ltac:(lia) ltac:(lia)) as (f & F & NF & SF). cbn [Z.add] in SF.
  pose proof (rep_sqrt _ _ V Pv) as Q. destruct (Req_dec v 0) as [->|Nv].
  - rewrite sqrt_0, rn_0 in Q. exists 0. rewrite sqrt_0, !Rmult_0_r, Rabs_R0. split; [|split; [apply near_00|split; [apply bpow_ge_0|split; [intros H; now contradiction H|auto]]]].
    replace 0 with (rn (f * 0)) by (rewrite Rmult_0_r; apply rn_0). apply rep_mul; auto. rewrite Rmult_0_r, Rabs_R0. apply bpow_ge_0.
  - destruct Ov as [?|[V1 V2]]; [contradiction|]. rewrite Rabs_pos_eq in V1, V2 by exact Pv.
    assert (Sq : sized (-150) 150 (sqrt v)).
    { unfold sized. rewrite Rabs_pos_eq by apply sqrt_pos. rewrite <- (sqrt_bp (-150)), <- (sqrt_bp 150). split; apply sqrt_le_1_alt; assumption. }
    assert (NQ : near 3 (rn (sqrt v)) (sqrt v)). { replace 3 with (0 + 3) by ring. apply near_rn; [lra| |apply near_0]. (eapply sized_min; [|exact Sq]; lia). }
    destruct (mul_near _ _ _ _ _ _ (3 + 0 + 4) 3 _ _ _ _ ltac:(lra) ltac:(lra) F Q NF NQ SF Sq ltac:(lia) ltac:(lia)) as (t & T & NT & ST). cbn [Z.add] in ST.
    exists t. split; [exact T|]. split; [replace 14 with (3 + 0 + 4 + 3 + 4) by ring; exact NT|]. split; [apply ST|]. split; [intros _; exact ST|intros; contradiction].
Qed.
Lemma rep_01 : exists a, rep f_01 a /\ near 3 a (/ 10).
Proof.
  assert (T : rep f10 10) by (apply (rep_int 10); reflexivity). exists (rn (1 / 10)). split.
  - apply rep_div; [apply rep_f1|exact T|lra|]. rewrite Rabs_pos_eq by lra. apply Rle_trans with (bpow radix2 0); [cbn; lra|apply bpow_le; lia].
  - replace (1 / 10) with (/ 10) by lra. replace 3 with (0 + 3) by ring. apply near_rn; [lra| |apply near_0]. rewrite Rabs_pos_eq by lra. apply Rle_trans with (bpow radix2 (-4)); [apply bpow_le; lia|cbn; lra].
Qed.
Lemma rep_02 : exists a, rep f_02 a /\ near 3 a (/ 5).
Proof.
  assert (T : rep (fnum 5 0) 5) by (apply (rep_int 5); reflexivity). exists (rn (1 / 5)). split.
  - apply rep_div; [apply rep_f1|exact T|lra|]. rewrite Rabs_pos_eq by lra. apply Rle_trans with (bpow radix2 0); [cbn; lra|apply bpow_le; lia].
  - replace (1 / 5) with (/ 5) by lra. replace 3 with (0 + 3) by ring. apply near_rn; [lra| |apply near_0]. rewrite Rabs_pos_eq by lra. apply Rle_trans with (bpow radix2 (-4)); [apply bpow_le; lia|cbn; lra].
Qed.
(** ** One coordinate *)
Lemma sum_big m t : Rabs m <= bpow radix2 1000 -> Rabs t <= bpow radix2 1001 -> Rabs (m + t) <= big.
Proof.
  intros A B. eapply Rle_trans; [apply Rabs_triang|]. apply Rle_trans with (bpow radix2 1001 * 2).
  - assert (bpow radix2 1000 <= bpow radix2 1001) by (apply bpow_le; lia). lra.
  - change 2 with (bpow radix2 1). rewrite bp_mul. apply bpow_le. lia.
Qed.
Lemma near_test fm ft m t x k : 0 <= k <= 100 -> rep fm m -> rep ft t -> near k t x -> Rabs m <= bpow radix2 1000 -> Rabs x <= bpow radix2 1000 ->
  (still fm ft = true -> Rabs x <= epsilon * Rabs m) /\ (Rabs x <= negligible * Rabs m -> still fm ft = true).
Proof.
  intros Hk M T N Bm Bx. pose proof (near_size k t x Hk N) as [S1 S2].
  assert (Bt : Rabs (m + t) <= big). { apply sum_big; [exact Bm|]. change 1001%Z with (1000 + 1)%Z. rewrite <- bp_mul. change (bpow radix2 1) with 2. lra. }
  pose proof (Rabs_pos m). pose proof (Rabs_pos x). unfold near in N.
  assert (KU : k * u64 <= / 1000) by (apply Rle_trans with (100 * u64); [apply Rmult_le_compat_r; [unfold u64; lra|lra]|unfold u64; lra]).
  assert (K1 : k * u64 * Rabs x <= / 1000 * Rabs x) by (apply Rmult_le_compat_r; auto).
  pose proof (Rabs_triang (t - x) x) as T1. replace (t - x + x) with t in T1 by ring. pose proof (Rabs_triang (x - t) t) as T2. replace (x - t + t) with x in T2 by ring. rewrite Rabs_minus_sym in T2.
  split; intros Q.
  - pose proof (still_sound _ _ _ _ M T Bt Q) as P. unfold u64, epsilon in *. lra.
  - apply (still_complete _ _ _ _ M T Bt). unfold u64, negligible in *. lra.
Qed.
(** * The criteria *)
Lemma values_nth n l v i : values n l v -> (i < n)%nat -> exists f, nth_error l i = Some f /\ rep f (v i).
Proof. intros [L H] I. destruct (nth_error l i) as [f|] eqn:E; [exists f; split; auto; exact (H i f E)|]. apply nth_error_None in E. lia. Qed.
Lemma combine_nth_error {A B} (la : list A) (lb : list B) i a b : nth_error la i = Some a -> nth_error lb i = Some b -> nth_error (combine la lb) i = Some (a, b).
Proof. revert lb i. induction la as [|x la IH]; intros [|y lb] [|i]; cbn; intros; try discriminate; [congruence|auto]. Qed.
Lemma nth_error_combine {A B} (la : list A) (lb : list B) i q : nth_error (combine la lb) i = Some q -> nth_error la i = Some (fst q) /\ nth_error lb i = Some (snd q).
Proof. revert lb i. induction la as [|x la IH]; intros [|y lb] [|i]; cbn; intros H; try discriminate; [inversion H; auto|auto]. Qed.
Section DIAG.
  Variables (fc : b64) (a c : R).
  Hypotheses (C : rep fc a) (NC : near 3 a c) (Hc : / 16 <= c <= / 2).
  Let test fs fm fv := forallb (fun q => still (fst q) (fmul (fmul fc fs) (fsqrt (snd q)))) (combine fm fv).
  Lemma diag_sound n fs s fm m fv v : is_value fs s -> ordinary_step s -> values n fm m -> values n fv v ->
    (forall i, (i < n)%nat -> ordinary_mean (m i) /\ ordinary_variance (v i)) ->
    (test fs fm fv = true -> forall i, (i < n)%nat -> c * s * sqrt (v i) <= epsilon * Rabs (m i)) /\
    ((forall i, (i < n)%nat -> c * s * sqrt (v i) <= negligible * Rabs (m i)) -> test fs fm fv = true).
  Proof using C NC Hc.
    intros Vs Os Vm Vv O.
    assert (P : forall i fm' fv', (i < n)%nat -> nth_error fm i = Some fm' -> nth_error fv i = Some fv' ->
      (still fm' (fmul (fmul fc fs) (fsqrt fv')) = true -> c * s * sqrt (v i) <= epsilon * Rabs (m i)) /\
      (c * s * sqrt (v i) <= negligible * Rabs (m i) -> still fm' (fmul (fmul fc fs) (fsqrt fv')) = true)).
    { intros i fm' fv' I Em Ev. destruct (O i I) as [Om [Pv Ov]]. pose proof (proj2 Vm i _ Em) as M. pose proof (proj2 Vv i _ Ev) as V.
      destruct (step_near fc fs fv' a c s (v i) C NC Hc Vs Os V Pv Ov) as (t & T & NT & B & _).
      assert (P0 : 0 <= c * s * sqrt (v i)). { pose proof (bpow_ge_0 radix2 (-300)). destruct Os. apply Rmult_le_pos; [apply Rmult_le_pos; lra|apply sqrt_pos]. }
      pose proof (near_test _ _ _ _ _ 14 ltac:(lra) M T NT Om) as Q. rewrite (Rabs_pos_eq _ P0) in Q, B. apply Q. eapply Rle_trans; [exact B|]. apply bpow_le. lia. }
    split.
    - intros H i I. destruct (values_nth _ _ _ _ Vm I) as (f1' & E1 & _). destruct (values_nth _ _ _ _ Vv I) as (f2' & E2 & _).
      apply (P i f1' f2' I E1 E2). unfold test in H. rewrite forallb_forall in H. apply (H (f1', f2')). eapply nth_error_In, combine_nth_error; eauto.
    - intros H. unfold test. apply forallb_forall. intros q Hq. apply In_nth_error in Hq. destruct Hq as [i Hi]. apply nth_error_combine in Hi. destruct Hi as [E1 E2].
      assert (I : (i < n)%nat) by (rewrite <- (proj1 Vm); apply nth_error_Some; congruence). apply (P i _ _ I E1 E2). auto.
  Qed.
End DIAG.
Lemma coor_test n fs s fm m fv v : is_value fs s -> ordinary_step s -> values n fm m -> values n fv v ->
    (forall i, (i < n)%nat -> ordinary_mean (m i) /\ ordinary_variance (v i)) ->
    (no_effect_coor64 fs fm fv = true -> forall i, (i < n)%nat -> / 5 * s * sqrt (v i) <= epsilon * Rabs (m i)) /\
    ((forall i, (i < n)%nat -> / 5 * s * sqrt (v i) <= negligible * Rabs (m i)) -> no_effect_coor64 fs fm fv = true).
Proof. destruct rep_02 as (a & A & N). exact (diag_sound f_02 a (/ 5) A N ltac:(lra) n fs s fm m fv v). Qed.
Lemma axis_sep_test n fs s fm m fv v : is_value fs s -> ordinary_step s -> values n fm m -> values n fv v ->
    (forall i, (i < n)%nat -> ordinary_mean (m i) /\ ordinary_variance (v i)) ->
    (no_effect_axis_sep64 fs fm fv = true -> forall i, (i < n)%nat -> / 10 * s * sqrt (v i) <= epsilon * Rabs (m i)) /\
    ((forall i, (i < n)%nat -> / 10 * s * sqrt (v i) <= negligible * Rabs (m i)) -> no_effect_axis_sep64 fs fm fv = true).
Proof. destruct rep_01 as (a & A & N). exact (diag_sound f_01 a (/ 10) A N ltac:(lra) n fs s fm m fv v). Qed.
(** ** A full covariance *)
Lemma mul_any ft t x fb b : rep ft t -> near 14 t x -> (x = 0 -> t = 0) -> (x <> 0 -> sized (-454) 450 x) -> rep fb b -> ordinary b ->
  exists z, rep (fmul ft fb) z /\ near 18 z (x * b) /\ Rabs (x * b) <= bpow radix2 1000.
Proof.
  intros T N Z S B O. destruct (Req_dec x 0) as [X|X]; [|destruct (Req_dec b 0) as [Y|Y]].
  - pose proof (Z X) as TZ. subst x t. exists 0. rewrite Rmult_0_l, Rabs_R0. split; [|split; [apply near_00|apply bpow_ge_0]]. replace 0 with (rn (0 * b)) by (rewrite Rmult_0_l; apply rn_0). apply rep_mul; auto. rewrite Rmult_0_l, Rabs_R0. apply bpow_ge_0.
  - subst b. exists 0. rewrite Rmult_0_r, Rabs_R0. split; [|split; [apply near_00|apply bpow_ge_0]]. replace 0 with (rn (t * 0)) by (rewrite Rmult_0_r; apply rn_0). apply rep_mul; auto. rewrite Rmult_0_r, Rabs_R0. apply bpow_ge_0.
  - destruct O as [?|O]; [contradiction|]. assert (SB : sized (-300) 300 b) by exact O.
    destruct (mul_near _ _ _ _ _ _ 14 0 _ _ _ _ ltac:(lra) ltac:(lra) T B N (near_0 b) (S X) SB ltac:(lia) ltac:(lia)) as (z & Q & NQ & SQ).
    exists z. split; [exact Q|]. split; [replace 18 with (14 + 0 + 4) by ring; exact NQ|]. eapply Rle_trans; [apply SQ|]. apply bpow_le. lia.
Qed.
Lemma axis_test n fs s fm m fv v rows b : is_value fs s -> ordinary_step s -> values n fm m -> values n fv v -> matrix n rows b ->
    (forall i, (i < n)%nat -> ordinary_mean (m i) /\ ordinary_variance (v i)) -> (forall i j, (i < n)%nat -> (j < n)%nat -> ordinary (b i j)) ->
    (no_effect_axis64 fs fm fv rows = true -> forall i j, (i < n)%nat -> (j < n)%nat -> / 10 * s * sqrt (v i) * Rabs (b i j) <= epsilon * Rabs (m i)) /\
    ((forall i j, (i < n)%nat -> (j < n)%nat -> / 10 * s * sqrt (v i) * Rabs (b i j) <= negligible * Rabs (m i)) -> no_effect_axis64 fs fm fv rows = true).
Proof.
  intros Vs Os Vm Vv Vr O Ob. destruct rep_01 as (a & C & NC).
  assert (P : forall i j fm' fv' row fb, (i < n)%nat -> (j < n)%nat -> nth_error fm i = Some fm' -> nth_error fv i = Some fv' -> nth_error rows i = Some row -> nth_error row j = Some fb ->
    (still fm' (fmul (fmul (fmul f_01 fs) (fsqrt fv')) fb) = true -> / 10 * s * sqrt (v i) * Rabs (b i j) <= epsilon * Rabs (m i)) /\
    (/ 10 * s * sqrt (v i) * Rabs (b i j) <= negligible * Rabs (m i) -> still fm' (fmul (fmul (fmul f_01 fs) (fsqrt fv')) fb) = true)).
  { intros i j fm' fv' row fb I J Em Ev Er Eb. destruct (O i I) as [Om [Pv Ov]]. pose proof (proj2 Vm i _ Em) as M. pose proof (proj2 Vv i _ Ev) as V. pose proof (proj2 (proj2 Vr i _ Er) j _ Eb) as B.
    destruct (step_near f_01 fs fv' a (/ 10) s (v i) C NC ltac:(lra) Vs Os V Pv Ov) as (t & T & NT & _ & S1 & S2).
    assert (PS : 0 < s) by (pose proof (bpow_gt_0 radix2 (-300)); destruct Os; lra).
    assert (P0 : 0 <= / 10 * s * sqrt (v i)) by (apply Rmult_le_pos; [lra|apply sqrt_pos]).
    assert (ZV : / 10 * s * sqrt (v i) = 0 -> v i = 0). { intros H. apply Rmult_integral in H. destruct H as [H|H]; [lra|]. apply sqrt_eq_0; auto. }
    assert (NV : / 10 * s * sqrt (v i) <> 0 -> v i <> 0). { intros H E. apply H. rewrite E, sqrt_0. ring. }
    destruct (mul_any _ _ _ _ _ T NT (fun H => S2 (ZV H)) (fun H => S1 (NV H)) B (Ob i j I J)) as (z & Q & NQ & BQ).
    pose proof (near_test _ _ _ _ _ 18 ltac:(lra) M Q NQ Om BQ) as R1. rewrite Rabs_mult, (Rabs_pos_eq _ P0) in R1. exact R1. }
  split.
  - intros H i j I J. destruct (values_nth _ _ _ _ Vm I) as (f1' & E1 & _). destruct (values_nth _ _ _ _ Vv I) as (f2' & E2 & _).
    destruct (nth_error rows i) as [row|] eqn:E3; [|apply nth_error_None in E3; rewrite (proj1 Vr) in E3; lia].
    destruct (values_nth _ _ _ _ (proj2 Vr i _ E3) J) as (fb & E4 & _). apply (P i j f1' f2' row fb I J E1 E2 E3 E4).
    unfold no_effect_axis64 in H. rewrite forallb_forall in H. specialize (H (f1', f2', row)). cbv zeta in H. cbn [fst snd] in H. rewrite forallb_forall in H. apply H.
    + eapply nth_error_In, combine_nth_error; [eapply combine_nth_error; eauto|exact E3].
    + eapply nth_error_In; eauto.
  - intros H. unfold no_effect_axis64. apply forallb_forall. intros [[x y] row] Hq. cbv zeta. cbn [fst snd]. apply In_nth_error in Hq. destruct Hq as [i Hi]. apply nth_error_combine in Hi. destruct Hi as [E12 E3]. cbn [fst snd] in *. apply nth_error_combine in E12. destruct E12 as [E1 E2]. cbn [fst snd] in *.
    assert (I : (i < n)%nat) by (rewrite <- (proj1 Vm); apply nth_error_Some; congruence). apply forallb_forall. intros fb Hb. apply In_nth_error in Hb. destruct Hb as [j Ej].
    assert (J : (j < n)%nat) by (rewrite <- (proj1 (proj2 Vr i _ E3)); apply nth_error_Some; congruence). apply (P i j x y row fb I J E1 E2 E3 Ej). auto.
Qed.
(** ** A mean that is not a number *)
Lemma still_nan t : still B754_nan t = false.
Proof. reflexivity. Qed.
Lemma nan_coor fs fm fv i : nth_error fm i = Some B754_nan -> length fm = length fv -> no_effect_coor64 fs fm fv = false.
Proof.
  intros E L. destruct (no_effect_coor64 fs fm fv) eqn:H; auto. unfold no_effect_coor64 in H. rewrite forallb_forall in H.
  destruct (nth_error fv i) as [f|] eqn:F; [|apply nth_error_None in F; assert (i < length fm)%nat by (apply nth_error_Some; congruence); lia].
  pose proof (H (B754_nan, f) (nth_error_In _ _ (combine_nth_error _ _ _ _ _ E F))) as K. cbn [fst snd] in K. rewrite still_nan in K. discriminate.
Qed.
Lemma nan_axis_sep fs fm fv i : nth_error fm i = Some B754_nan -> length fm = length fv -> no_effect_axis_sep64 fs fm fv = false.
Proof.
  intros E L. destruct (no_effect_axis_sep64 fs fm fv) eqn:H; auto. unfold no_effect_axis_sep64 in H. rewrite forallb_forall in H.
  destruct (nth_error fv i) as [f|] eqn:F; [|apply nth_error_None in F; assert (i < length fm)%nat by (apply nth_error_Some; congruence); lia].
  pose proof (H (B754_nan, f) (nth_error_In _ _ (combine_nth_error _ _ _ _ _ E F))) as K. cbn [fst snd] in K. rewrite still_nan in K. discriminate.
Qed.
