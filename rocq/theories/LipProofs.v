(** The bound transform is 1-Lipschitz in every coordinate. *)
From Coq Require Import Reals Lra Lia ZArith List.
From Verif Require Import Base Pwq PwqProofs.
Open Scope R_scope.

Section Coord.
Variable q : pwqc.
Hypothesis G : good q.

(** how far the quadratic pieces are from the identity *)
Lemma quad_gap x y : q_lb q - q_al q <= x <= q_ub q + q_au q -> quad_coord q x = Ok y ->
  (x < q_lb q + q_al q /\ x - y = - ((q_lb q + q_al q - x) * (q_lb q + q_al q - x) * / (4 * q_al q))) \/
  (q_lb q + q_al q <= x <= q_ub q - q_au q /\ x - y = 0) \/
  (q_ub q - q_au q < x /\ x - y = (x - (q_ub q - q_au q)) * (x - (q_ub q - q_au q)) * / (4 * q_au q)).
Proof.
  pose proof G as [g1 g2 g3 g4 g5 _ _ _]; intros Hx.
  destruct (Rlt_dec x (q_lb q + q_al q)) as [H|H].
  - rewrite (quad_low q G) by exact H; intros E; injection E as <-. left; split; [exact H|]. field; lra.
  - destruct (Rlt_dec (q_ub q - q_au q) x) as [H2|H2].
    + rewrite (quad_high q G) by exact H2; intros E; injection E as <-. right; right; split; [exact H2|]. field; lra.
    + rewrite quad_mid by lra; intros E; injection E as <-. right; left; split; lra.
Qed.
Lemma quad_lip_le x x' y y' : q_lb q - q_al q <= x -> x <= x' -> x' <= q_ub q + q_au q ->
  quad_coord q x = Ok y -> quad_coord q x' = Ok y' -> Rabs (y - y') <= Rabs (x - x').
Proof.
  intros H1 H2 H3 E E'. pose proof (quad_mono q G x x' y y' H1 H2 H3 E E') as M.
  pose proof G as [g1 g2 g3 g4 g5 _ _ _].
  rewrite (Rabs_minus_sym y), (Rabs_minus_sym x), !Rabs_pos_eq by lra.
  assert (Hil : 0 < / (4 * q_al q)) by (apply Rinv_0_lt_compat; lra).
  assert (Hiu : 0 < / (4 * q_au q)) by (apply Rinv_0_lt_compat; lra).
  assert (Sq : forall t c, 0 < c -> 0 <= t * t * c).
  { intros t c Hc. apply Rmult_le_pos; [|lra]. pose proof (Rle_0_sqr t) as Q; unfold Rsqr in Q; exact Q. }
  cut (x - y <= x' - y'); [lra|].
  destruct (quad_gap x y ltac:(lra) E) as [[A ->]|[[A ->]|[A ->]]];
  destruct (quad_gap x' y' ltac:(lra) E') as [[B ->]|[[B ->]|[B ->]]]; try lra.
  - apply Ropp_le_contravar. apply Rmult_le_compat_r; [lra|]. apply Rmult_le_compat; lra.
  - pose proof (Sq (q_lb q + q_al q - x) _ Hil). lra.
  - pose proof (Sq (q_lb q + q_al q - x) _ Hil). pose proof (Sq (x' - (q_ub q - q_au q)) _ Hiu). lra.
  - pose proof (Sq (x' - (q_ub q - q_au q)) _ Hiu). lra.
  - apply Rmult_le_compat_r; [lra|]. apply Rmult_le_compat; lra.
Qed.
Lemma quad_lip x x' y y' : q_lb q - q_al q <= x <= q_ub q + q_au q -> q_lb q - q_al q <= x' <= q_ub q + q_au q ->
  quad_coord q x = Ok y -> quad_coord q x' = Ok y' -> Rabs (y - y') <= Rabs (x - x').
Proof.
  intros H H' E E'. destruct (Rle_dec x x').
  - apply quad_lip_le; tauto || lra.
  - rewrite (Rabs_minus_sym y), (Rabs_minus_sym x). apply quad_lip_le; tauto || lra.
Qed.

(** the shift is a triangular wave *)
Lemma shift_wave x s : shift_coord q x = Ok s -> exists k : Z,
  s = x + IZR k * q_r q \/ s - (q_lb q - q_al q) = (q_lb q - q_al q) - x + IZR k * q_r q.
Proof.
  unfold shift_coord; intros H.
  apply bind_ok in H; destruct H as [x1 [H1 H]].
  apply bind_ok in H; destruct H as [x2 [H2 H]]. injection H as <-.
  destruct (shift_up_ok q G _ _ H1) as [Hl [_ [k1 [E1 _]]]].
  destruct (shift_down_ok q G _ _ Hl H2) as [Hr [k2 E2]].
  pose proof G as [g1 g2 g3 g4 g5 g6 g7 g8].
  assert (E3 : x2 = x + IZR (k1 - k2) * q_r q) by (rewrite minus_IZR; lra).
  unfold reflect_up, reflect_low. destruct (Rlt_dec x2 (q_lb q - q_al q)) as [A|A].
  - destruct (Rlt_dec _ _) as [B|B]; [exfalso; lra|]. exists (- (k1 - k2))%Z; right. rewrite opp_IZR; lra.
  - destruct (Rlt_dec _ _) as [B|B].
    + exists (1 - (k1 - k2))%Z; right. rewrite minus_IZR; lra.
    + exists (k1 - k2)%Z; left; exact E3.
Qed.
Lemma whole_periods (m : Z) : m = 0%Z \/ q_r q <= IZR m * q_r q \/ IZR m * q_r q <= - q_r q.
Proof.
  pose proof (r_pos q G) as Hr.
  destruct (Z.eq_dec m 0) as [->|N]; [left; reflexivity|right].
  destruct (Z_lt_le_dec 0 m).
  - left. apply Rle_trans with (1 * q_r q); [lra|]. apply Rmult_le_compat_r; [lra|]. apply IZR_le; lia.
  - right. apply Rle_trans with (-1 * q_r q); [|lra]. apply Rmult_le_compat_r; [lra|]. apply IZR_le; lia.
Qed.
Ltac absolve := unfold Rabs; repeat destruct (Rcase_abs _); lra.
Lemma shift_lip x x' s s' : shift_coord q x = Ok s -> shift_coord q x' = Ok s' -> Rabs (s - s') <= Rabs (x - x').
Proof.
  intros H H'. pose proof (shift_coord_range q G _ _ H) as B. pose proof (shift_coord_range q G _ _ H') as B'.
  destruct (shift_wave _ _ H) as [k E], (shift_wave _ _ H') as [k' E'].
  pose proof G as [g1 g2 g3 g4 g5 g6 g7 g8]. pose proof (r_pos q G) as Hr.
  destruct E as [E|E], E' as [E'|E'].
  - pose proof (whole_periods (k - k')) as W. rewrite minus_IZR in W.
    destruct W as [W|[W|W]]; [assert (k = k') by lia; subst k'; absolve|absolve|absolve].
  - pose proof (whole_periods (k + k')) as W. rewrite plus_IZR in W.
    destruct W as [W|[W|W]]; [assert (k' = - k)%Z by lia; subst k'; rewrite opp_IZR in *; absolve|absolve|absolve].
  - pose proof (whole_periods (k + k')) as W. rewrite plus_IZR in W.
    destruct W as [W|[W|W]]; [assert (k' = - k)%Z by lia; subst k'; rewrite opp_IZR in *; absolve|absolve|absolve].
  - pose proof (whole_periods (k - k')) as W. rewrite minus_IZR in W.
    destruct W as [W|[W|W]]; [assert (k = k') by lia; subst k'; absolve|absolve|absolve].
Qed.
Lemma tof_lip x x' y y' : tof q x = Ok y -> tof q x' = Ok y' -> Rabs (y - y') <= Rabs (x - x').
Proof.
  unfold tof; intros H H'. apply bind_ok in H; destruct H as [s [H1 H2]].
  apply bind_ok in H'; destruct H' as [s' [H1' H2']].
  apply Rle_trans with (Rabs (s - s')); [|eapply shift_lip; eauto].
  eapply quad_lip; eauto using shift_coord_range.
Qed.
End Coord.
