From Coq Require Import Reals Lra Lia Psatz.
From Verif Require Import Base Params.
Open Scope R_scope.

(** * Sums *)
Lemma sumR_app a b : sumR (a ++ b) = sumR a + sumR b.
Proof. unfold sumR; induction a as [|x a IH]; cbn [app fold_right]; [|rewrite IH]; ring. Qed.
Lemma sumR_cons x a : sumR (x :: a) = x + sumR a.
Proof. reflexivity. Qed.
Lemma sumR_map_mult c (l : list R) : sumR (map (fun w => w / c) l) = sumR l / c.
Proof. induction l as [|x l IH]; cbn [map]; [unfold sumR; cbn; unfold Rdiv; ring|]. rewrite !sumR_cons, IH. unfold Rdiv; ring. Qed.
Lemma sumR_nonneg l : (forall w, In w l -> 0 <= w) -> 0 <= sumR l.
Proof.
  induction l as [|x l IH]; intros H; [unfold sumR; cbn; lra|]. rewrite sumR_cons.
  pose proof (H x (or_introl eq_refl)). pose proof (IH (fun w h => H w (or_intror h))). lra.
Qed.
Lemma sumR_pos l : l <> [] -> (forall w, In w l -> 0 < w) -> 0 < sumR l.
Proof.
  destruct l as [|x l]; intros Hn H; [congruence|]. rewrite sumR_cons.
  pose proof (H x (or_introl eq_refl)).
  pose proof (sumR_nonneg l (fun w h => Rlt_le _ _ (H w (or_intror h)))). lra.
Qed.
Lemma sq_le l : (forall w, In w l -> 0 <= w) -> sumR (map (fun w => w * w) l) <= sumR l * sumR l.
Proof.
  induction l as [|x l IH]; intros H; [unfold sumR; cbn; lra|]. cbn [map]. rewrite !sumR_cons.
  pose proof (H x (or_introl eq_refl)).
  pose proof (IH (fun w h => H w (or_intror h))).
  pose proof (sumR_nonneg l (fun w h => H w (or_intror h))). nra.
Qed.
Lemma cauchy l : sumR l * sumR l <= INR (length l) * sumR (map (fun w => w * w) l).
Proof.
  induction l as [|x l IH]; [unfold sumR; cbn; lra|].
  cbn [map length]. rewrite !sumR_cons, S_INR.
  set (s := sumR l) in *. set (q := sumR (map (fun w => w * w) l)) in *. set (m := INR (length l)) in *.
  assert (Hm : 0 <= m) by apply pos_INR.
  destruct (Req_dec m 0) as [Hz|Hz].
  - assert (length l = 0%nat) by (apply INR_eq; exact Hz).
    destruct l; [|discriminate]. unfold s, q, m, sumR; cbn. lra.
  - assert (Hq : 0 <= q).
    { apply sumR_nonneg. intros w Hw. apply in_map_iff in Hw. destruct Hw as (y & <- & _). nra. }
    (* 2 x s <= m x^2 + s^2/m <= m x^2 + q *)
    assert (Hs : s * s / m <= q).
    { apply (Rmult_le_reg_r m); [lra|]. unfold Rdiv. rewrite Rmult_assoc, Rinv_l by lra. lra. }
    assert (H2 : 2 * x * s <= m * (x * x) + s * s / m).
    { assert (E : 0 <= (m * x - s) * (m * x - s) / m).
      { apply Rmult_le_pos; [apply Rle_0_sqr|]. left; apply Rinv_0_lt_compat; lra. }
      replace ((m * x - s) * (m * x - s) / m) with (m * (x * x) - 2 * x * s + s * s / m) in E by (field; lra).
      lra. }
    nra.
Qed.

(** * Weights *)
Lemma raw_len mu : length (raw_weights mu) = mu.
Proof. unfold raw_weights; rewrite map_length, seq_length; reflexivity. Qed.
Lemma raw_nth mu i : (i < mu)%nat ->
  nth_error (raw_weights mu) i = Some (ln (INR mu + 1) - ln (INR i + 1)).
Proof.
  intros H; unfold raw_weights. rewrite nth_error_map.
  rewrite (@nth_error_nth' nat (seq 0 mu) i 0%nat) by (rewrite seq_length; exact H).
  rewrite seq_nth by exact H. reflexivity.
Qed.
Lemma raw_nth_inv mu i w : nth_error (raw_weights mu) i = Some w ->
  (i < mu)%nat /\ w = ln (INR mu + 1) - ln (INR i + 1).
Proof.
  intros H. assert (Hi : (i < mu)%nat).
  { rewrite <- (raw_len mu). apply nth_error_Some; congruence. }
  split; [exact Hi|]. rewrite raw_nth in H by exact Hi. congruence.
Qed.
Lemma raw_pos mu w : In w (raw_weights mu) -> 0 < w.
Proof.
  intros H. apply In_nth_error in H; destruct H as [i H]. apply raw_nth_inv in H. destruct H as [H ->].
  pose proof (pos_INR i). apply lt_INR in H.
  pose proof (ln_increasing (INR i + 1) (INR mu + 1) ltac:(lra) ltac:(lra)). lra.
Qed.
Lemma raw_nonempty mu : (1 <= mu)%nat -> raw_weights mu <> [].
Proof. intros H E. pose proof (raw_len mu) as L. rewrite E in L; cbn in L; lia. Qed.
Lemma raw_sum_pos mu : (1 <= mu)%nat -> 0 < sumR (raw_weights mu).
Proof. intros H. apply sumR_pos; [apply raw_nonempty; exact H|apply raw_pos]. Qed.
Lemma raw_sq_pos mu : (1 <= mu)%nat -> 0 < sumR (map (fun w => w * w) (raw_weights mu)).
Proof.
  intros H. apply sumR_pos.
  - intros E. apply map_eq_nil in E. exact (raw_nonempty mu H E).
  - intros w Hw. apply in_map_iff in Hw; destruct Hw as (y & <- & Hy). apply raw_pos in Hy. nra.
Qed.

Definition muw_of (mu : nat) : R :=
  sumR (raw_weights mu) * sumR (raw_weights mu) / sumR (map (fun w => w * w) (raw_weights mu)).
Lemma muw_bounds mu : (1 <= mu)%nat -> 1 <= muw_of mu <= INR mu.
Proof.
  intros H. unfold muw_of. pose proof (raw_sq_pos mu H) as Hq.
  pose proof (sq_le (raw_weights mu) (fun w h => Rlt_le _ _ (raw_pos mu w h))) as H1.
  pose proof (cauchy (raw_weights mu)) as H2. rewrite raw_len in H2.
  set (s := sumR (raw_weights mu)) in *. set (q := sumR (map (fun w => w * w) (raw_weights mu))) in *.
  split.
  - apply (Rmult_le_reg_r q); [lra|]. unfold Rdiv. rewrite Rmult_assoc, Rinv_l by lra. lra.
  - apply (Rmult_le_reg_r q); [lra|]. unfold Rdiv. rewrite Rmult_assoc, Rinv_l by lra. lra.
Qed.
Lemma muw_inv_sq mu : (1 <= mu)%nat ->
  muw_of mu = 1 / sumR (map (fun w => w * w) (map (fun w => w / sumR (raw_weights mu)) (raw_weights mu))).
Proof.
  intros H. unfold muw_of. pose proof (raw_sum_pos mu H) as Hs. pose proof (raw_sq_pos mu H) as Hq.
  rewrite map_map.
  replace (map (fun x => x / sumR (raw_weights mu) * (x / sumR (raw_weights mu))) (raw_weights mu))
    with (map (fun w => w / (sumR (raw_weights mu) * sumR (raw_weights mu))) (map (fun w => w * w) (raw_weights mu))).
  - rewrite sumR_map_mult. field. lra.
  - rewrite map_map. apply map_ext; intros x. field. lra.
Qed.

Definition wf (p : cpar) : Prop := (1 <= k_dim p)%nat /\ (2 <= k_lambda p)%nat.

Lemma div2_ge1 l : (2 <= l)%nat -> (1 <= Nat.div2 l)%nat.
Proof. intros H; destruct l as [|[|l]]; cbn; lia. Qed.

Lemma weights_ok p : wf p ->
  let q := initialize p in
  length (k_w q) = Nat.div2 (k_lambda p) /\ k_mu q = Nat.div2 (k_lambda p) /\ (1 <= k_mu q)%nat /\
  (forall i w, nth_error (k_w q) i = Some w -> 0 < w) /\
  (forall i w w', nth_error (k_w q) i = Some w -> nth_error (k_w q) (S i) = Some w' -> w' < w) /\
  sumR (k_w q) = 1 /\ 1 <= k_muw q <= INR (k_mu q) /\
  k_muw q = 1 / sumR (map (fun w => w * w) (k_w q)).
Proof.
  intros [_ H]. cbn zeta. pose proof (div2_ge1 _ H) as Hm.
  set (mu := Nat.div2 (k_lambda p)) in *.
  pose proof (raw_sum_pos mu Hm) as Hs.
  unfold initialize; cbn [k_w k_mu k_muw k_lambda]. fold mu.
  split; [rewrite map_length; apply raw_len|]. split; [reflexivity|]. split; [exact Hm|].
  split; [|split; [|split; [|split]]].
  - intros i w Hw. rewrite nth_error_map in Hw. destruct (nth_error (raw_weights mu) i) as [r|] eqn:E; [|discriminate].
    injection Hw as <-. apply nth_error_In in E. apply raw_pos in E.
    apply Rdiv_lt_0_compat; assumption.
  - intros i w w' Hw Hw'. rewrite nth_error_map in Hw, Hw'.
    destruct (nth_error (raw_weights mu) i) as [r|] eqn:E; [|discriminate].
    destruct (nth_error (raw_weights mu) (S i)) as [r'|] eqn:E'; [|discriminate].
    injection Hw as <-; injection Hw' as <-.
    apply raw_nth_inv in E, E'. destruct E as [_ ->], E' as [_ ->].
    apply Rmult_lt_compat_r; [apply Rinv_0_lt_compat; exact Hs|].
    rewrite S_INR. pose proof (pos_INR i).
    pose proof (ln_increasing (INR i + 1) (INR i + 1 + 1) ltac:(lra) ltac:(lra)). lra.
  - rewrite sumR_map_mult. field. lra.
  - exact (muw_bounds mu Hm).
  - exact (muw_inv_sq mu Hm).
Qed.

(** * Learning rates *)
Record rates_ok (p : cpar) : Prop := {
  ro_muw : 1 <= k_muw p;
  ro_csigma : 0 < k_csigma p < 1;
  ro_cc : 0 < k_cc p <= 1;
  ro_c1 : 0 < k_c1 p < 1;
  ro_cmu : 0 <= k_cmu p;
  ro_sum : k_c1 p + k_cmu p <= 1;
  ro_dsigma : 0 < k_dsigma p;
  ro_fps : 0 < k_fact_ps p;
  ro_fpc : 0 < k_fact_pc p
}.

Lemma Rdiv_pos a b : 0 < a -> 0 < b -> 0 < a / b.
Proof. apply Rdiv_lt_0_compat. Qed.
Lemma Rdiv_nonneg a b : 0 <= a -> 0 < b -> 0 <= a / b.
Proof. intros Ha Hb. apply Rmult_le_pos; [exact Ha|]. left; apply Rinv_0_lt_compat; exact Hb. Qed.
Lemma Rdiv_lt_1 a b : 0 < b -> a < b -> a / b < 1.
Proof.
  intros Hb H. apply (Rmult_lt_reg_r b); [exact Hb|].
  unfold Rdiv. rewrite Rmult_assoc, Rinv_l by lra. lra.
Qed.
Lemma Rdiv_le_1 a b : 0 < b -> a <= b -> a / b <= 1.
Proof.
  intros Hb H. apply (Rmult_le_reg_r b); [exact Hb|].
  unfold Rdiv. rewrite Rmult_assoc, Rinv_l by lra. lra.
Qed.
Lemma muw_poly m : 1 <= m -> 0 <= m - 2 + 1 / m.
Proof.
  intros H. replace (m - 2 + 1 / m) with ((m - 1) * (m - 1) / m) by (field; lra).
  apply Rdiv_nonneg; [nra|lra].
Qed.
Lemma dsigma_pos cs m n : 0 < cs -> 1 + cs <= dsigma_of cs m n.
Proof. intros H; unfold dsigma_of. pose proof (Rmax_l 0 (sqrt ((m - 1) / (n + 1)) - 1)). lra. Qed.
Lemma INR_ge1 n : (1 <= n)%nat -> 1 <= INR n.
Proof. intros H. apply le_INR in H. cbn in H. exact H. Qed.
Lemma chi_pos n : 1 <= n -> 0 < chi_of n.
Proof.
  intros H; unfold chi_of. apply Rmult_lt_0_compat; [apply sqrt_lt_R0; lra|].
  assert (1 / (4 * n) <= 1 / 4).
  { unfold Rdiv. rewrite !Rmult_1_l. apply Rinv_le_contravar; lra. }
  assert (0 < 1 / (21 * n * n)) by (apply Rdiv_pos; nra). lra.
Qed.
Lemma fact_pos c m : 0 < c <= 1 -> 1 <= m -> 0 < sqrt (c * (2 - c) * m).
Proof. intros H1 H2. apply sqrt_lt_R0. assert (0 < c * (2 - c)) by nra. nra. Qed.

Lemma base_c1 n m : 1 <= n -> 1 <= m ->
  let c := 2 / ((n + 1.3) * (n + 1.3) + m) in
  0 < c /\ c * ((n + 2) / 3) < 1 /\ c < 1.
Proof.
  intros Hn Hm c. assert (Hd : 0 < (n + 1.3) * (n + 1.3) + m) by nra.
  split; [apply Rdiv_pos; lra|]. split.
  - unfold c. replace (2 / ((n + 1.3) * (n + 1.3) + m) * ((n + 2) / 3))
      with ((2 * (n + 2) / 3) / ((n + 1.3) * (n + 1.3) + m)) by (field; lra).
    apply Rdiv_lt_1; [exact Hd|]. nra.
  - apply Rdiv_lt_1; [exact Hd|]. nra.
Qed.

Lemma init_rates p : wf p -> rates_ok (initialize p) /\
  1 + k_csigma (initialize p) <= k_dsigma (initialize p) /\
  0 < k_chi (initialize p) /\ 0 < k_lazy (initialize p).
Proof.
  intros H. pose proof (weights_ok p H) as W; cbn zeta in W. destruct W as (_ & _ & _ & _ & _ & _ & [Hm _] & _).
  destruct H as [Hd Hl]. pose proof (INR_ge1 _ Hd) as Hn.
  assert (Hcs : 0 < k_csigma (initialize p) < 1).
  { unfold initialize in *; cbn [k_csigma k_muw] in *.
    set (m := sumR (raw_weights (Nat.div2 (k_lambda p))) * _ / _) in *.
    destruct (k_dim p <? 1000)%nat.
    - split; [apply Rdiv_pos; lra|apply Rdiv_lt_1; lra].
    - assert (0 < sqrt m) by (apply sqrt_lt_R0; lra).
      assert (0 < sqrt (INR (k_dim p))) by (apply sqrt_lt_R0; lra).
      split; [apply Rdiv_pos; lra|apply Rdiv_lt_1; lra]. }
  assert (Hcc : 0 < k_cc (initialize p) <= 1).
  { unfold initialize in *; cbn [k_cc k_muw] in *.
    set (m := sumR (raw_weights (Nat.div2 (k_lambda p))) * _ / _) in *.
    assert (0 < m / INR (k_dim p)) by (apply Rdiv_pos; lra).
    assert (E : 2 * m / INR (k_dim p) = 2 * (m / INR (k_dim p))) by (field; lra). rewrite E.
    split; [apply Rdiv_pos; lra|apply Rdiv_le_1; lra]. }
  destruct (base_c1 (INR (k_dim p)) (k_muw (initialize p)) Hn Hm) as (H1 & _ & H2).
  assert (E1 : k_c1 (initialize p) = 2 / ((INR (k_dim p) + 1.3) * (INR (k_dim p) + 1.3) + k_muw (initialize p))) by reflexivity.
  assert (E2 : k_cmu (initialize p) = Rmin (1 - k_c1 (initialize p))
     (2 * (k_muw (initialize p) - 2 + 1 / k_muw (initialize p)) / ((INR (k_dim p) + 2) * (INR (k_dim p) + 2) + k_muw (initialize p)))) by reflexivity.
  cbn zeta in H1, H2. rewrite <- E1 in H1, H2.
  assert (Hcmu : 0 <= k_cmu (initialize p)).
  { rewrite E2. apply Rmin_glb; [lra|]. apply Rdiv_nonneg; [|nra]. pose proof (muw_poly _ Hm). lra. }
  assert (Hsum : k_c1 (initialize p) + k_cmu (initialize p) <= 1).
  { pose proof (Rmin_l (1 - k_c1 (initialize p)) (2 * (k_muw (initialize p) - 2 + 1 / k_muw (initialize p)) / ((INR (k_dim p) + 2) * (INR (k_dim p) + 2) + k_muw (initialize p)))).
    rewrite <- E2 in H. lra. }
  pose proof (dsigma_pos (k_csigma (initialize p)) (k_muw (initialize p)) (INR (k_dim p)) (proj1 Hcs)) as Hds.
  split; [constructor; try assumption; try lra|].
  - change (k_dsigma (initialize p)) with (dsigma_of (k_csigma (initialize p)) (k_muw (initialize p)) (INR (k_dim p))). lra.
  - change (k_fact_ps (initialize p)) with (sqrt (k_csigma (initialize p) * (2 - k_csigma (initialize p)) * k_muw (initialize p))).
    apply fact_pos; lra.
  - change (k_fact_pc (initialize p)) with (sqrt (k_cc (initialize p) * (2 - k_cc (initialize p)) * k_muw (initialize p))).
    apply fact_pos; lra.
  - split; [exact Hds|]. split; [apply chi_pos; exact Hn|].
    change (k_lazy (initialize p)) with (1 / (k_c1 (initialize p) + k_cmu (initialize p)) / INR (k_dim p) / 10).
    apply Rdiv_pos; [|lra]. apply Rdiv_pos; [|lra]. apply Rdiv_pos; lra.
Qed.
