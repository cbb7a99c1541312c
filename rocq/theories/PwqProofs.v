(** Proofs about the bound strategy, one coordinate at a time and on vectors. *)
From Coq Require Import Reals Lra Lia Psatz.
From Verif Require Import Base Pwq.
Open Scope R_scope.

Lemma Rtrunc_nonneg v : 0 <= v -> IZR (Rtrunc v) <= v < IZR (Rtrunc v) + 1 /\ (0 <= Rtrunc v)%Z.
Proof.
  intros Hv; unfold Rtrunc; destruct (Rle_dec 0 v) as [_|H]; [|lra].
  destruct (base_Int_part v) as [H1 H2].
  split; [lra|].
  assert (-1 < Int_part v)%Z; [|lia].
  apply lt_IZR; simpl; lra.
Qed.

Lemma cast_int_ok v k : cast_int v = Ok k -> k = Rtrunc v.
Proof.
  unfold cast_int; destruct ((int_min <=? Rtrunc v)%Z && (Rtrunc v <=? int_max)%Z); intros H;
  congruence.
Qed.

Lemma cast_int_fault v e : cast_int v = Fault e -> e = IntCast.
Proof.
  unfold cast_int; destruct ((int_min <=? Rtrunc v)%Z && (Rtrunc v <=? int_max)%Z); intros H;
  congruence.
Qed.

Lemma cast_int_small v : 0 <= v < 2147483648 -> exists k, cast_int v = Ok k.
Proof.
  intros [H1 H2]; destruct (Rtrunc_nonneg v H1) as [[H3 H4] H5].
  unfold cast_int.
  assert (H6 : (Rtrunc v < 2147483648)%Z) by (apply lt_IZR; lra).
  exists (Rtrunc v).
  destruct (Z.leb_spec int_min (Rtrunc v)); unfold int_min, int_max in *; [|lia].
  destruct (Z.leb_spec (Rtrunc v) 2147483647); [reflexivity|lia].
Qed.

Lemma rdiv_nz a b : b <> 0 -> rdiv a b = Ok (a / b).
Proof. intros H; unfold rdiv; destruct (Req_EM_T b 0); [contradiction|reflexivity]. Qed.

(** What the constructor guarantees for a dimension with lb < ub. *)
Record good (q : pwqc) : Prop := {
  g_lt : q_lb q < q_ub q;
  g_al : 0 < q_al q;
  g_au : 0 < q_au q;
  g_al2 : q_al q <= (q_ub q - q_lb q) / 2;
  g_au2 : q_au q <= (q_ub q - q_lb q) / 2;
  g_xlow : q_xlow q = q_lb q - 2 * q_al q - (q_ub q - q_lb q) / 2;
  g_xup : q_xup q = q_ub q + 2 * q_au q + (q_ub q - q_lb q) / 2;
  g_r : q_r q = 2 * (q_ub q - q_lb q + q_al q + q_au q)
}.

Lemma pwq_coord_good lb ub pl pu : lb < ub -> good (pwq_coord lb ub pl pu).
Proof.
  intros H.
  assert (Ha : forall a, 0 < Rmin (0.5 * (ub - lb)) (1 / 20 * (1 + Rabs a))).
  { intros a; apply Rmin_glb_lt; [lra|]. pose proof (Rabs_pos a); lra. }
  assert (Hb : forall b, Rmin (0.5 * (ub - lb)) b <= (ub - lb) / 2).
  { intros b; eapply Rle_trans; [apply Rmin_l|lra]. }
  constructor; cbn [pwq_coord q_lb q_ub q_al q_au q_xlow q_xup q_r]; auto; lra.
Qed.

Section Coord.
Variable q : pwqc.
Hypothesis G : good q.

Lemma xup_xlow : q_xup q - q_xlow q = q_r q.
Proof. destruct G; lra. Qed.

Lemma r_pos : 0 < q_r q.
Proof. destruct G; lra. Qed.

Lemma shift_up_ok x x1 :
  shift_up q x = Ok x1 ->
  q_xlow q <= x1 /\ (x1 <= q_xup q \/ x1 = x) /\
  exists k : Z, x1 = x + IZR k * q_r q /\ (x < q_xlow q \/ k = 0%Z).
Proof.
  unfold shift_up; pose proof r_pos as Hr; pose proof xup_xlow as Hx.
  destruct (Rlt_dec x (q_xlow q)) as [H|H].
  - rewrite rdiv_nz by lra; cbn [bind].
    destruct (cast_int ((q_xlow q - x) / q_r q)) as [k|e] eqn:Hc; cbn [bind]; [|discriminate].
    intros E; injection E as <-.
    apply cast_int_ok in Hc.
    assert (Hv : 0 <= (q_xlow q - x) / q_r q).
    { apply Rlt_le; apply Rdiv_lt_0_compat; lra. }
    destruct (Rtrunc_nonneg _ Hv) as [[H1 H2] _]; rewrite <- Hc in *.
    set (v := (q_xlow q - x) / q_r q) in *.
    assert (Hv2 : q_xlow q - x = v * q_r q) by (unfold v; field; lra).
    split; [nra|split; [left; nra|]].
    exists (1 + k)%Z; split; [rewrite plus_IZR; lra|left; lra].
  - intros E; injection E as <-. split; [lra|split; [right; reflexivity|]].
    exists 0%Z; split; [lra|right; reflexivity].
Qed.

Lemma shift_down_ok x x1 :
  q_xlow q <= x ->
  shift_down q x = Ok x1 ->
  q_xlow q <= x1 <= q_xup q /\ exists k : Z, x1 = x - IZR k * q_r q.
Proof.
  intros Hl; unfold shift_down; pose proof r_pos as Hr; pose proof xup_xlow as Hx.
  destruct (Rlt_dec (q_xup q) x) as [H|H].
  - rewrite rdiv_nz by lra; cbn [bind].
    destruct (cast_int ((x - q_xup q) / q_r q)) as [k|e] eqn:Hc; cbn [bind]; [|discriminate].
    intros E; injection E as <-.
    apply cast_int_ok in Hc.
    assert (Hv : 0 <= (x - q_xup q) / q_r q).
    { apply Rlt_le; apply Rdiv_lt_0_compat; lra. }
    destruct (Rtrunc_nonneg _ Hv) as [[H1 H2] _]; rewrite <- Hc in *.
    set (v := (x - q_xup q) / q_r q) in *.
    assert (Hv2 : x - q_xup q = v * q_r q) by (unfold v; field; lra).
    split; [split; nra|].
    exists (1 + k)%Z; rewrite plus_IZR; lra.
  - intros E; injection E as <-. split; [lra|exists 0%Z; lra].
Qed.

Lemma shift_up_fault x e : shift_up q x = Fault e -> e = IntCast.
Proof.
  unfold shift_up; pose proof r_pos.
  destruct (Rlt_dec x (q_xlow q)); [|discriminate].
  rewrite rdiv_nz by lra; cbn [bind].
  destruct (cast_int _) eqn:Hc; cbn [bind]; [discriminate|].
  intros E; injection E as <-; eapply cast_int_fault; eauto.
Qed.

Lemma shift_down_fault x e : shift_down q x = Fault e -> e = IntCast.
Proof.
  unfold shift_down; pose proof r_pos.
  destruct (Rlt_dec (q_xup q) x); [|discriminate].
  rewrite rdiv_nz by lra; cbn [bind].
  destruct (cast_int _) eqn:Hc; cbn [bind]; [discriminate|].
  intros E; injection E as <-; eapply cast_int_fault; eauto.
Qed.

Lemma reflect_range x :
  q_xlow q <= x <= q_xup q ->
  q_lb q - q_al q <= reflect_up q (reflect_low q x) <= q_ub q + q_au q.
Proof.
  destruct G as [g1 g2 g3 g4 g5 g6 g7 g8]; intros Hx; unfold reflect_up, reflect_low.
  destruct (Rlt_dec x (q_lb q - q_al q)) as [H|H];
    match goal with |- context [Rlt_dec ?a ?b] => destruct (Rlt_dec a b) end; lra.
Qed.

Lemma shift_coord_range x y :
  shift_coord q x = Ok y -> q_lb q - q_al q <= y <= q_ub q + q_au q.
Proof.
  unfold shift_coord; intros H.
  apply bind_ok in H; destruct H as [x1 [H1 H]].
  apply bind_ok in H; destruct H as [x2 [H2 H]].
  injection H as <-.
  apply reflect_range.
  destruct (shift_up_ok _ _ H1) as [Hl _].
  destruct (shift_down_ok _ _ Hl H2) as [Hr _]; exact Hr.
Qed.

(** The LOG(FATAL) of pwq_bound_strategy.cc:108 is dead code in exact arithmetic. *)
Lemma shift_coord_no_fatal x y : shift_coord q x = Ok y -> ~ shift_fatal q y.
Proof.
  intros H; apply shift_coord_range in H; unfold shift_fatal; lra.
Qed.

Lemma shift_coord_fault x e : shift_coord q x = Fault e -> e = IntCast.
Proof.
  unfold shift_coord.
  destruct (shift_up q x) as [x1|e1] eqn:H1; cbn [bind].
  - destruct (shift_down q x1) as [x2|e2] eqn:H2; cbn [bind]; intros E; [discriminate|].
    injection E as <-; eapply shift_down_fault; eauto.
  - intros E; injection E as <-; eapply shift_up_fault; eauto.
Qed.

(** Points in the extended interval are not moved by the shift. *)
Lemma shift_coord_id x :
  q_lb q - q_al q <= x <= q_ub q + q_au q -> shift_coord q x = Ok x.
Proof.
  destruct G as [g1 g2 g3 g4 g5 g6 g7 g8]; intros Hx; unfold shift_coord, shift_up, shift_down.
  destruct (Rlt_dec x (q_xlow q)) as [H|_]; [lra|]; cbn [bind].
  destruct (Rlt_dec (q_xup q) x) as [H|_]; [lra|]; cbn [bind].
  unfold reflect_up, reflect_low.
  destruct (Rlt_dec x (q_lb q - q_al q)) as [H|_]; [lra|].
  destruct (Rlt_dec (q_ub q + q_au q) x) as [H|_]; [lra|]; reflexivity.
Qed.

Lemma quad_ok x : exists y, quad_coord q x = Ok y.
Proof.
  destruct G as [g1 g2 g3 _ _ _ _ _]; unfold quad_coord.
  destruct (Rlt_dec x (q_lb q + q_al q)).
  - rewrite rdiv_nz by lra; cbn [bind]; eauto.
  - destruct (Rlt_dec (q_ub q - q_au q) x); [rewrite rdiv_nz by lra; cbn [bind]|]; eauto.
Qed.

(** Closed form of the quadratic pieces. *)
Lemma quad_low x : x < q_lb q + q_al q ->
  quad_coord q x = Ok (q_lb q + (x - (q_lb q - q_al q)) * (x - (q_lb q - q_al q)) / 4 / q_al q).
Proof.
  destruct G as [g1 g2 g3 _ _ _ _ _]; unfold quad_coord; intros H.
  destruct (Rlt_dec x (q_lb q + q_al q)) as [_|?]; [|contradiction].
  rewrite rdiv_nz by lra; reflexivity.
Qed.
Lemma quad_high x : q_ub q - q_au q < x ->
  quad_coord q x = Ok (q_ub q - (x - (q_ub q + q_au q)) * (x - (q_ub q + q_au q)) / 4 / q_au q).
Proof.
  destruct G as [g1 g2 g3 g4 g5 _ _ _]; unfold quad_coord; intros H.
  destruct (Rlt_dec x (q_lb q + q_al q)) as [?|_]; [lra|].
  destruct (Rlt_dec (q_ub q - q_au q) x) as [_|?]; [|contradiction].
  rewrite rdiv_nz by lra; reflexivity.
Qed.
Lemma quad_mid x : q_lb q + q_al q <= x <= q_ub q - q_au q -> quad_coord q x = Ok x.
Proof.
  intros H; unfold quad_coord.
  destruct (Rlt_dec x (q_lb q + q_al q)) as [?|_]; [lra|].
  destruct (Rlt_dec (q_ub q - q_au q) x) as [?|_]; [lra|reflexivity].
Qed.

(** value of the lower piece: between 0 and al *)
Lemma sq_bound t a : 0 < a -> 0 <= t <= 2 * a -> 0 <= t * t / 4 / a <= a.
Proof.
  intros Ha Ht.
  assert (E : t * t / 4 / a = (t * t) * / (4 * a)) by (field; lra).
  rewrite E.
  assert (Hi : 0 < / (4 * a)) by (apply Rinv_0_lt_compat; lra).
  split.
  - apply Rmult_le_pos; nra.
  - apply Rle_trans with (4 * a * a * / (4 * a)).
    + apply Rmult_le_compat_r; nra.
    + right; field; lra.
Qed.

Lemma quad_range x y :
  q_lb q - q_al q <= x <= q_ub q + q_au q -> quad_coord q x = Ok y -> q_lb q <= y <= q_ub q.
Proof.
  pose proof G as [g1 g2 g3 g4 g5 _ _ _]; intros Hx.
  destruct (Rlt_dec x (q_lb q + q_al q)) as [H|H].
  - rewrite quad_low by exact H; intros E; injection E as <-.
    pose proof (sq_bound (x - (q_lb q - q_al q)) (q_al q) g2); lra.
  - destruct (Rlt_dec (q_ub q - q_au q) x) as [H2|H2].
    + rewrite quad_high by exact H2; intros E; injection E as <-.
      pose proof (sq_bound ((q_ub q + q_au q) - x) (q_au q) g3) as Hs.
      replace ((x - (q_ub q + q_au q)) * (x - (q_ub q + q_au q)))
        with ((q_ub q + q_au q - x) * (q_ub q + q_au q - x)) by ring.
      lra.
    + rewrite quad_mid by lra; intros E; injection E as <-; lra.
Qed.

(** one coordinate of to_f_representation *)
Definition tof (x : R) : res R := do s <- shift_coord q x; quad_coord q s.

Lemma tof_range x y : tof x = Ok y -> q_lb q <= y <= q_ub q.
Proof.
  unfold tof; intros H; apply bind_ok in H; destruct H as [s [H1 H2]].
  eapply quad_range; [|exact H2]; eapply shift_coord_range; eauto.
Qed.

Lemma tof_fault x e : tof x = Fault e -> e = IntCast.
Proof.
  unfold tof; destruct (shift_coord q x) as [s|e'] eqn:H; cbn [bind].
  - destruct (quad_ok s) as [y ->]; discriminate.
  - intros E; injection E as <-; eapply shift_coord_fault; eauto.
Qed.

(** The transform returns a value as soon as the point is within 2^32 widths. *)
Lemma tof_total x :
  q_lb q - 4294967296 * (q_ub q - q_lb q) <= x <= q_ub q + 4294967296 * (q_ub q - q_lb q) ->
  exists y, tof x = Ok y.
Proof.
  pose proof G as [g1 g2 g3 g4 g5 g6 g7 g8]; pose proof r_pos as Hr.
  intros Hx; unfold tof, shift_coord.
  assert (H1 : exists x1, shift_up q x = Ok x1).
  { unfold shift_up; destruct (Rlt_dec x (q_xlow q)) as [H|H]; [|eauto].
    rewrite rdiv_nz by lra; cbn [bind].
    destruct (cast_int_small ((q_xlow q - x) / q_r q)) as [k Hk].
    - split; [apply Rlt_le, Rdiv_lt_0_compat; lra|].
      apply Rmult_lt_reg_r with (q_r q); [lra|].
      replace ((q_xlow q - x) / q_r q * q_r q) with (q_xlow q - x) by (field; lra). lra.
    - rewrite Hk; cbn [bind]; eauto. }
  destruct H1 as [x1 H1]; rewrite H1; cbn [bind].
  destruct (shift_up_ok _ _ H1) as [Hl [Hu _]].
  assert (H2 : exists x2, shift_down q x1 = Ok x2).
  { unfold shift_down; destruct (Rlt_dec (q_xup q) x1) as [H|H]; [|eauto].
    rewrite rdiv_nz by lra; cbn [bind].
    destruct (cast_int_small ((x1 - q_xup q) / q_r q)) as [k Hk].
    - split; [apply Rlt_le, Rdiv_lt_0_compat; lra|].
      apply Rmult_lt_reg_r with (q_r q); [lra|].
      replace ((x1 - q_xup q) / q_r q * q_r q) with (x1 - q_xup q) by (field; lra).
      destruct Hu as [Hu| ->]; lra.
    - rewrite Hk; cbn [bind]; eauto. }
  destruct H2 as [x2 H2]; rewrite H2; cbn [bind].
  apply quad_ok.
Qed.

(** identity in the core *)
Lemma tof_core x : q_lb q + q_al q <= x <= q_ub q - q_au q -> tof x = Ok x.
Proof.
  pose proof G as [g1 g2 g3 g4 g5 g6 g7 g8]; intros Hx; unfold tof.
  rewrite shift_coord_id by lra; cbn [bind]. apply quad_mid; exact Hx.
Qed.

(** round trip *)
Lemma intern_range y :
  q_lb q <= y <= q_ub q -> q_lb q - q_al q <= intern_coord q y <= q_ub q + q_au q.
Proof.
  pose proof G as [g1 g2 g3 g4 g5 g6 g7 g8]; intros Hy; unfold intern_coord.
  assert (Hs : forall a t, 0 < a -> 0 <= t <= a -> 0 <= sqrt (a * t) <= a).
  { intros a t Ha Ht; split; [apply sqrt_pos|].
    rewrite <- (sqrt_square a) at 2 by lra. apply sqrt_le_1_alt; nra. }
  destruct (Rlt_dec y (q_lb q + q_al q)) as [H|H].
  - rewrite Rabs_left1 by lra.
    pose proof (Hs (q_al q) (- (q_lb q - y)) g2); lra.
  - destruct (Rlt_dec (q_ub q - q_au q) y) as [H2|H2]; [|lra].
    rewrite Rabs_left1 by lra.
    pose proof (Hs (q_au q) (- (y - q_ub q)) g3); lra.
Qed.

Lemma tof_intern y : q_lb q <= y <= q_ub q -> tof (intern_coord q y) = Ok y.
Proof.
  pose proof G as [g1 g2 g3 g4 g5 g6 g7 g8]; intros Hy; unfold tof.
  rewrite shift_coord_id by (apply intern_range; exact Hy); cbn [bind].
  unfold intern_coord.
  destruct (Rlt_dec y (q_lb q + q_al q)) as [H|H].
  - rewrite Rabs_left1 by lra.
    set (s := sqrt (q_al q * - (q_lb q - y))).
    assert (Hs2 : s * s = q_al q * (y - q_lb q)).
    { unfold s; rewrite sqrt_sqrt; [ring|nra]. }
    assert (Hs0 : 0 <= s) by apply sqrt_pos.
    assert (Hlt : s < q_al q) by nra.
    rewrite quad_low by lra. f_equal.
    replace (q_lb q - q_al q + 2 * s - (q_lb q - q_al q)) with (2 * s) by ring.
    replace (2 * s * (2 * s) / 4 / q_al q) with (s * s / q_al q) by (field; lra).
    rewrite Hs2; field; lra.
  - destruct (Rlt_dec (q_ub q - q_au q) y) as [H2|H2].
    + rewrite Rabs_left1 by lra.
      set (s := sqrt (q_au q * - (y - q_ub q))).
      assert (Hs2 : s * s = q_au q * (q_ub q - y)).
      { unfold s; rewrite sqrt_sqrt; [ring|nra]. }
      assert (Hs0 : 0 <= s) by apply sqrt_pos.
      assert (Hlt : s < q_au q) by nra.
      rewrite quad_high by lra. f_equal.
      replace (q_ub q + q_au q - 2 * s - (q_ub q + q_au q)) with (- (2 * s)) by ring.
      replace (- (2 * s) * - (2 * s) / 4 / q_au q) with (s * s / q_au q) by (field; lra).
      rewrite Hs2; field; lra.
    + apply quad_mid; lra.
Qed.

(** monotone on the extended interval *)
Lemma quad_mono x x' y y' :
  q_lb q - q_al q <= x -> x <= x' -> x' <= q_ub q + q_au q ->
  quad_coord q x = Ok y -> quad_coord q x' = Ok y' -> y <= y'.
Proof.
  pose proof G as [g1 g2 g3 g4 g5 _ _ _]; intros H1 H2 H3.
  assert (Hil : 0 < / (4 * q_al q)) by (apply Rinv_0_lt_compat; lra).
  assert (Hiu : 0 < / (4 * q_au q)) by (apply Rinv_0_lt_compat; lra).
  assert (El : forall t, t * t / 4 / q_al q = (t * t) * / (4 * q_al q)) by (intros; field; lra).
  assert (Eu : forall t, t * t / 4 / q_au q = (t * t) * / (4 * q_au q)) by (intros; field; lra).
  destruct (Rlt_dec x (q_lb q + q_al q)) as [A|A];
    [rewrite quad_low by exact A|destruct (Rlt_dec (q_ub q - q_au q) x) as [B|B];
      [rewrite quad_high by exact B|rewrite quad_mid by lra]];
  (destruct (Rlt_dec x' (q_lb q + q_al q)) as [A'|A'];
    [rewrite quad_low by exact A'|destruct (Rlt_dec (q_ub q - q_au q) x') as [B'|B'];
      [rewrite quad_high by exact B'|rewrite quad_mid by lra]]);
  intros E1 E2; injection E1 as <-; injection E2 as <-; try lra.
  - rewrite !El. apply Rplus_le_compat_l. apply Rmult_le_compat_r; nra.
  - pose proof (sq_bound (x - (q_lb q - q_al q)) (q_al q) g2) as Hs1.
    pose proof (sq_bound (q_ub q + q_au q - x') (q_au q) g3) as Hs2.
    replace ((x' - (q_ub q + q_au q)) * (x' - (q_ub q + q_au q)))
        with ((q_ub q + q_au q - x') * (q_ub q + q_au q - x')) by ring.
    lra.
  - pose proof (sq_bound (x - (q_lb q - q_al q)) (q_al q) g2) as Hs1. lra.
  - rewrite !Eu. apply Rplus_le_compat_l, Ropp_le_contravar.
    apply Rmult_le_compat_r; nra.
  - pose proof (sq_bound (q_ub q + q_au q - x') (q_au q) g3) as Hs2.
    replace ((x' - (q_ub q + q_au q)) * (x' - (q_ub q + q_au q)))
        with ((q_ub q + q_au q - x') * (q_ub q + q_au q - x')) by ring.
    lra.
Qed.

Lemma tof_mono x x' y y' :
  q_lb q - q_al q <= x -> x <= x' -> x' <= q_ub q + q_au q ->
  tof x = Ok y -> tof x' = Ok y' -> y <= y'.
Proof.
  intros H1 H2 H3; unfold tof; rewrite !shift_coord_id by lra; cbn [bind].
  apply quad_mono; assumption.
Qed.

(** The reflected transform of a point of one period; [refl x] only depends on
    the distance to the two reflection axes, hence periodicity. *)
Lemma tof_period_gen x y j : tof x = Ok y -> tof (x + IZR j * q_r q) = Ok y \/ tof (x + IZR j * q_r q) = Fault IntCast.
Proof.
  pose proof G as [g1 g2 g3 g4 g5 g6 g7 g8]; pose proof r_pos as Hr; pose proof xup_xlow as Hw.
  intros Hy.
  destruct (tof (x + IZR j * q_r q)) as [y'|e] eqn:Hy'.
  2:{ right; f_equal; eapply tof_fault; eauto. }
  left; f_equal.
  revert Hy Hy'; unfold tof, shift_coord.
  intros Hy Hy'.
  repeat match goal with H : bind _ _ = Ok _ |- _ => apply bind_ok in H; destruct H as [? [? H]] end.
  repeat match goal with H : bind _ _ = Ok _ |- _ => apply bind_ok in H; destruct H as [? [? H]] end.
  repeat match goal with H : Ok _ = Ok _ |- _ => injection H as <- end.
  match goal with H1 : shift_up q x = Ok ?a, H2 : shift_down q ?a = Ok ?b |- _ =>
    destruct (shift_up_ok _ _ H1) as [Hl1 [_ [k1 [E1 _]]]];
    destruct (shift_down_ok _ _ Hl1 H2) as [Hr1 [k2 E2]]; set (s := b) in * end.
  match goal with H1 : shift_up q (x + _) = Ok ?a, H2 : shift_down q ?a = Ok ?b |- _ =>
    destruct (shift_up_ok _ _ H1) as [Hl1' [_ [k1' [E1' _]]]];
    destruct (shift_down_ok _ _ Hl1' H2) as [Hr1' [k2' E2']]; set (s' := b) in * end.
  assert (D : exists m : Z, s' = s + IZR m * q_r q).
  { exists (j + k1' - k2' - k1 + k2)%Z.
    rewrite E2', E1', E2, E1. rewrite !plus_IZR, !minus_IZR, plus_IZR. lra. }
  destruct D as [m Hm].
  assert (Hcase : m = 0%Z \/ (m = 1%Z /\ s = q_xlow q /\ s' = q_xup q) \/ (m = (-1)%Z /\ s = q_xup q /\ s' = q_xlow q)).
  { assert (-2 < m < 2)%Z.
    { split; apply lt_IZR; nra. }
    assert (Hm3 : m = 0%Z \/ m = 1%Z \/ m = (-1)%Z) by lia.
    destruct Hm3 as [->|[->| ->]]; [left; reflexivity|right; left|right; right];
      (split; [reflexivity|lra]). }
  destruct Hcase as [->|[(-> & Es & Es')|(-> & Es & Es')]].
  - replace s' with s in * by lra. congruence.
  - (* both endpoints reflect to lb+d/2 *)
    assert (R1 : reflect_up q (reflect_low q s) = q_lb q + (q_ub q - q_lb q) / 2).
    { rewrite Es; unfold reflect_low; destruct (Rlt_dec _ _) as [_|?]; [|lra].
      unfold reflect_up; destruct (Rlt_dec _ _); lra. }
    assert (R2 : reflect_up q (reflect_low q s') = q_lb q + (q_ub q - q_lb q) / 2).
    { rewrite Es'; unfold reflect_low; destruct (Rlt_dec _ _) as [?|_]; [lra|].
      unfold reflect_up; destruct (Rlt_dec _ _) as [_|?]; lra. }
    rewrite R1 in *; rewrite R2 in *; congruence.
  - assert (R1 : reflect_up q (reflect_low q s') = q_lb q + (q_ub q - q_lb q) / 2).
    { rewrite Es'; unfold reflect_low; destruct (Rlt_dec _ _) as [_|?]; [|lra].
      unfold reflect_up; destruct (Rlt_dec _ _); lra. }
    assert (R2 : reflect_up q (reflect_low q s) = q_lb q + (q_ub q - q_lb q) / 2).
    { rewrite Es; unfold reflect_low; destruct (Rlt_dec _ _) as [?|_]; [lra|].
      unfold reflect_up; destruct (Rlt_dec _ _) as [_|?]; lra. }
    rewrite R1 in *; rewrite R2 in *; congruence.
Qed.

End Coord.
