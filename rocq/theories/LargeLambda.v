(** Populations so large that the learning rates add up to one. *)
From Coq Require Import Reals List Lia Lra Psatz.
From Verif Require Import Base Vec VecProofs Params SpecParams ParamsProofs Config Search SpecSearch Update SpecUpdate UpdateProofs ParamSound UpdateProofs2 DemoNum DemoNumProofs.
Import ListNotations.
Local Open Scope R_scope.

Lemma sumR_le_const l c : (forall w, In w l -> c <= w) -> INR (length l) * c <= sumR l.
Proof.
  induction l as [|w l IH]; intros H; [cbn; lra|]. rewrite sumR_cons. change (length (w :: l)) with (S (length l)). rewrite S_INR.
  assert (c <= w) by (apply H; left; auto). assert (INR (length l) * c <= sumR l) by (apply IH; intros; apply H; right; auto). lra.
Qed.
Lemma sq_le_max l m : (forall w, In w l -> 0 <= w <= m) -> sumR (map (fun w => w * w) l) <= m * sumR l.
Proof.
  induction l as [|w l IH]; intros H; [cbn; lra|]. cbn [map]. rewrite !sumR_cons.
  assert (0 <= w <= m) by (apply H; left; auto). assert (sumR (map (fun w => w * w) l) <= m * sumR l) by (apply IH; intros; apply H; right; auto). nra.
Qed.
Lemma ln_pow2 j : ln (2 ^ j) = INR j * ln 2.
Proof. rewrite ln_pow by lra. reflexivity. Qed.
Lemma ln2_pos : 0 < ln 2.
Proof. rewrite <- ln_1. apply ln_increasing; lra. Qed.
(** mu = 2^(j+1) - 1: the variance effective selection mass is at least 2^j / (j+1). *)
Lemma muw_large j mu : INR mu + 1 = 2 ^ S j -> 2 ^ j / INR (S j) <= muw_of mu.
Proof.
  intros E. pose proof ln2_pos as L2. assert (J : 0 < INR (S j)) by (apply lt_0_INR; lia).
  assert (P2 : 1 <= 2 ^ j) by (apply pow_R1_Rle; lra).
  assert (M1 : (1 <= mu)%nat) by (apply INR_le; cbn [INR]; cbn [pow] in E; lra).
  assert (PJ : INR (2 ^ j) = 2 ^ j) by (rewrite pow_INR; reflexivity).
  assert (ML : (2 ^ j <= mu)%nat) by (apply INR_le; rewrite PJ; cbn [pow] in E; lra).
  unfold muw_of. set (l := raw_weights mu). set (S1 := sumR l). set (Q := sumR (map (fun w => w * w) l)).
  assert (W0 : ln (INR mu + 1) = INR (S j) * ln 2) by (rewrite E; apply ln_pow2).
  assert (HQ : Q <= INR (S j) * ln 2 * S1).
  { apply sq_le_max. intros w Hw. split; [left; apply (raw_pos mu), Hw|]. unfold l, raw_weights in Hw. apply in_map_iff in Hw as (i & <- & _).
    rewrite W0. assert (0 <= ln (INR i + 1)); [|lra]. rewrite <- ln_1. pose proof (pos_INR i). destruct (Req_dec (INR i) 0) as [Z|Z]; [rewrite Z; right; f_equal; lra|].
    left. apply ln_increasing; lra. }
  assert (HS : 2 ^ j * ln 2 <= S1).
  { unfold S1, l, raw_weights. assert (SE : seq 0 mu = seq 0 (2 ^ j) ++ seq (0 + 2 ^ j) (mu - 2 ^ j)) by (rewrite <- seq_app; f_equal; lia).
    rewrite SE, map_app, sumR_app.
    assert (A : INR (2 ^ j) * ln 2 <= sumR (map (fun i => ln (INR mu + 1) - ln (INR i + 1)) (seq 0 (2 ^ j)))).
    { set (l1 := map _ _). assert (LL : length l1 = (2 ^ j)%nat) by (unfold l1; rewrite map_length, seq_length; auto). rewrite <- LL.
      apply sumR_le_const. intros w Hw. unfold l1 in Hw. apply in_map_iff in Hw as (i & <- & Hi). apply in_seq in Hi.
      assert (INR i + 1 <= 2 ^ j) by (rewrite <- PJ, <- S_INR; apply le_INR; lia). pose proof (pos_INR i).
      assert (ln (INR i + 1) <= ln (2 ^ j)) by (destruct (Req_dec (INR i + 1) (2 ^ j)) as [->|]; [lra|left; apply ln_increasing; lra]).
      rewrite ln_pow2 in H1. rewrite W0, S_INR. lra. }
    assert (B : 0 <= sumR (map (fun i => ln (INR mu + 1) - ln (INR i + 1)) (seq (0 + 2 ^ j) (mu - 2 ^ j)))).
    { apply sumR_nonneg. intros w Hw. left. apply (raw_pos mu). unfold raw_weights. apply in_map_iff in Hw as (i & <- & Hi). apply in_map_iff. exists i. split; auto.
      apply in_seq in Hi. apply in_seq. lia. }
    rewrite PJ in A. lra. }
  pose proof (raw_sum_pos mu M1) as P1. fold l in P1. fold S1 in P1. pose proof (raw_sq_pos mu M1) as PQ. fold l in PQ. fold Q in PQ.
  apply Rmult_le_reg_r with (Q * INR (S j)); [apply Rmult_lt_0_compat; auto|].
  replace (2 ^ j / INR (S j) * (Q * INR (S j))) with (2 ^ j * Q) by (field; lra).
  replace (S1 * S1 / Q * (Q * INR (S j))) with (S1 * S1 * INR (S j)) by (field; lra).
  apply Rle_trans with (2 ^ j * (INR (S j) * ln 2 * S1)); [apply Rmult_le_compat_l; lra|].
  replace (2 ^ j * (INR (S j) * ln 2 * S1)) with (INR (S j) * S1 * (2 ^ j * ln 2)) by ring.
  replace (S1 * S1 * INR (S j)) with (INR (S j) * S1 * S1) by ring.
  apply Rmult_le_compat_l; [|exact HS]. apply Rmult_le_pos; lra.
Qed.
Lemma muw_511 : 28 <= muw_of 511.
Proof.
  apply Rle_trans with (2 ^ 8 / INR 9); [cbn [INR pow]; lra|]. apply muw_large.
  rewrite INR_IZR_INZ. change (Z.of_nat 511) with 511%Z. cbn [pow]. lra.
Qed.
Lemma one_le_div a b : 0 < b -> b <= a -> 1 <= a / b.
Proof. intros H1 H2. apply Rmult_le_reg_r with b; auto. unfold Rdiv. rewrite Rmult_assoc, Rinv_l by lra. lra. Qed.
Lemma nth_repeat_in {A} (a b : A) m i : (i < m)%nat -> nth i (repeat a m) b = a.
Proof. revert i. induction m as [|m IH]; intros i H; [lia|]. destruct i; cbn; auto. apply IH. lia. Qed.
Definition big : cpar := cma_params 1 1022.
Lemma big_muw : k_muw big = muw_of 511.
Proof. reflexivity. Qed.
Lemma big_c1 : k_c1 big = 2 / ((1 + 1.3) * (1 + 1.3) + muw_of 511).
Proof. reflexivity. Qed.
Lemma big_c1_range : 0 < k_c1 big < / 10.
Proof.
  rewrite big_c1. pose proof muw_511. split; [apply Rdiv_lt_0_compat; lra|].
  apply Rmult_lt_reg_r with ((1 + 1.3) * (1 + 1.3) + muw_of 511); [lra|]. unfold Rdiv. rewrite Rmult_assoc, Rinv_l by lra. lra.
Qed.
Lemma big_cmu : k_cmu big = 1 - k_c1 big.
Proof.
  change (k_cmu big) with (Rmin (1 - k_c1 big) (2 * (muw_of 511 - 2 + 1 / muw_of 511) / ((1 + 2) * (1 + 2) + muw_of 511))).
  apply Rmin_left. pose proof big_c1_range. pose proof muw_511. assert (0 < 1 / muw_of 511) by (apply Rdiv_lt_0_compat; lra).
  apply Rle_trans with 1; [lra|]. apply one_le_div; lra.
Qed.
Lemma big_sep_c1 : k_c1 (set_sep big) = k_c1 big.
Proof. change (k_c1 (set_sep big)) with (k_c1 big * ((INR 1 + 2) / 3)). cbn [INR]. lra. Qed.
Lemma big_sep_cmu : k_cmu (set_sep big) = 1 - k_c1 big.
Proof.
  change (k_cmu (set_sep big)) with (Rmin (1 - k_c1 (set_sep big)) ((0.3 + muw_of 511 - 2 + 1 / muw_of 511) / (INR 1 + 4 * sqrt (INR 1) + muw_of 511 / 2))).
  rewrite big_sep_c1. cbn [INR]. rewrite sqrt_1. apply Rmin_left. pose proof big_c1_range. pose proof muw_511. assert (0 < 1 / muw_of 511) by (apply Rdiv_lt_0_compat; lra).
  apply Rle_trans with 1; [lra|]. apply one_le_div; lra.
Qed.
Lemma big_constructed : constructed big.
Proof. exists 1%nat, 1022%nat, []. repeat split; cbn; lia. Qed.
Lemma big_sep_constructed : constructed (set_sep big).
Proof. exists 1%nat, 1022%nat, [Sep]. repeat split; cbn; lia. Qed.

(** Weighted sums of a population whose best points coincide. *)
Section Same.
Variable p : npar.
Hypothesis HS : sound_params (p_k p).
Let k := p_k p.
Let d := k_dim k.
Variables (xs : list (list R)) (n : num).
Hypothesis HB : forall i c, (i < k_mu k)%nat -> pt xs i c = x_mean n c.
Hypothesis H0 : forall c, x_psigma n c = 0.
Hypothesis H1 : forall c, x_pc n c = 0.
Hypothesis HV : p_upd p <> Vd.
Lemma same_mean c : new_mean p xs n c = x_mean n c.
Proof using HS HB.
  assert (B : (x_mean n c <= new_mean p xs n c <= x_mean n c)%R); [|lra].
  apply (UpdateProofs2.new_mean_between p HS). intros i Hi. rewrite HB by auto. lra.
Qed.
Lemma same_step c : mean_step p xs n c = 0.
Proof using HS HB. clear HV. unfold mean_step. rewrite same_mean. destruct (p_upd p); ring. Qed.
Lemma same_psigma c : new_psigma p xs n c = 0.
Proof using HS HB H0 HV.
  unfold new_psigma. rewrite H0.
  assert (M : forall a, mv (k_dim (p_k p)) a (mean_step p xs n) c = 0).
  { intros a. unfold mv. rewrite (rsum_ext _ _ (fun _ => 0)) by (intros; rewrite same_step; ring). apply rsum_0. }
  destruct (p_upd p) eqn:U; [| |congruence]; (destruct (k_sep _); [rewrite same_step; ring|rewrite M; ring]).
Qed.
Lemma same_spread i j : spread p (best_of xs) n i j = 0.
Proof using HB.
  unfold spread, best_of. rewrite (rsum_ext _ _ (fun _ => 0)); [rewrite rsum_0; ring|]. intros l Hl. rewrite !HB by auto. ring.
Qed.
Lemma same_pc t c : new_pc p t xs n c = 0.
Proof using HS HB H1. unfold new_pc. rewrite H1, same_step. ring. Qed.
Lemma same_hsig : (length (k_fixed k) = 0)%nat -> 0 < k_chi k -> hsig p 0 xs n = 1.
Proof using HS HB H0 HV.
  intros L CH. unfold hsig. fold k d.
  destruct (Rlt_dec _ _) as [_|Q]; [reflexivity|]. exfalso. apply Q.
  assert (E : norm d (new_psigma p xs n) = 0).
  { unfold norm, dot. rewrite (rsum_ext _ _ (fun _ => 0)) by (intros; rewrite same_psigma; ring). rewrite rsum_0. apply sqrt_0. }
  rewrite E, L. pose proof HS as (D1 & (A1 & _) & _). fold k d in D1, A1.
  assert (1 <= INR d) by (apply (le_INR 1); exact D1).
  apply Rmult_lt_0_compat; [|exact CH]. apply Rmult_lt_0_compat.
  - apply sqrt_lt_R0. change (2 * Z.to_nat (0 + 1))%nat with 2%nat. generalize dependent (k_csigma k). intros cs A1. cbn [pow]. nra.
  - cbn [INR]. assert (0 < 2 / (INR d + 1 - 0)) by (apply Rdiv_lt_0_compat; lra). lra.
Qed.
End Same.

Lemma sep_variance_lost : exists p e g x0 n s0 s cols,
  p_upd p = Full /\ constructed (p_k p) /\ k_sep (p_k p) = true /\ same_problem p g /\ length cols = g_lambda g /\
  st_new (cma_num p) g x0 n = Ok s0 /\ run_ops (cma_num p) e g [OGen cols []] s0 = Ok s /\ variances_of s 0%nat = 0.
Proof.
  pose (k := set_sep big). pose (p := npar_of k Full).
  assert (HL : (2 <= k_lambda k)%nat) by (change (k_lambda k) with 1022%nat; lia).
  pose (cols := repeat [0] 1022).
  destruct (flat_generation p HL (fun i v H => match H with end) cols [0] num0) as (s0 & s & E0 & E & A & _).
  { unfold cols. rewrite repeat_length. reflexivity. }
  exists p, flat_env, (cfg_of k), [0], num0, s0, s, cols.
  split; [reflexivity|]. split; [apply big_sep_constructed|]. split; [reflexivity|]. split; [repeat split|].
  split; [unfold cols; rewrite repeat_length; reflexivity|]. split; [exact E0|]. split; [exact E|].
  unfold variances_of. rewrite A. unfold update_num. cbn [x_sep p npar_of p_upd p_k].
  change (k_sep k) with true. cbn iota. unfold rank_mu_sep.
  assert (HS : sound_params (p_k p)) by (apply constructed_sound, big_sep_constructed).
  assert (HB : forall i c, (i < k_mu (p_k p))%nat -> pt cols i c = x_mean (new_num p [0] num0) c).
  { intros i c Hi. unfold pt, cols. rewrite nth_repeat_in by exact (Nat.lt_le_trans _ _ _ Hi (proj1 (Nat.leb_le 511 1022) eq_refl)).
    cbn [x_mean new_num init_mean]. unfold init_mean. cbn [p_scale p npar_of]. change (k_dim (p_k p)) with 1%nat. reflexivity. }
  assert (V : p_upd p <> Vd) by discriminate.
  rewrite (same_spread p cols _ HB), !(same_pc p HS cols _ HB) by (reflexivity || exact V).
  unfold keep_rate. rewrite (same_hsig p HS cols _ HB); [|reflexivity|exact V|reflexivity|apply (chi_pos 1); lra].
  change (k_c1 (p_k p)) with (k_c1 (set_sep big)). change (k_cmu (p_k p)) with (k_cmu (set_sep big)). rewrite big_sep_cmu, big_sep_c1. cbn [x_sep new_num]. ring.
Qed.
