(** The bound transform with rounded operations on real numbers. *)
From Coq Require Import Reals Lra Psatz ZArith.
Local Open Scope R_scope.

Lemma rabs_le a b : Rabs a <= b -> - b <= a <= b.
Proof. intros H. unfold Rabs in H. destruct (Rcase_abs a); lra. Qed.
Lemma le_rabs a b : - b <= a <= b -> Rabs a <= b.
Proof. intros H. unfold Rabs. destruct (Rcase_abs a); lra. Qed.

Definition u64 : R := / 9007199254740992.

Section Rounded.
Variable rnd : R -> R.
Variable F : R -> Prop.
Variable eta : R.
Hypothesis mono : forall x y, x <= y -> rnd x <= rnd y.
Hypothesis fix_ : forall x, F x -> rnd x = x.
Hypothesis fmt : forall x, F (rnd x).
Hypothesis err : forall x, Rabs (rnd x - x) <= u64 * Rabs x + eta.
Hypothesis sum : forall x y, F x -> F y -> Rabs (rnd (x + y) - (x + y)) <= u64 * Rabs (x + y).
Hypothesis fopp : forall x, F x -> F (- x).
Hypothesis two : forall x, F x -> F (2 * x).
Hypothesis eta0 : 0 < eta.

Lemma rnd_ge a x : F a -> a <= x -> a <= rnd x.
Proof. intros Ha H. rewrite <- (fix_ a Ha). now apply mono. Qed.
Lemma rnd_le a x : F a -> x <= a -> rnd x <= a.
Proof. intros Ha H. rewrite <- (fix_ a Ha). now apply mono. Qed.
Lemma diff x y : F x -> F y -> Rabs (rnd (x - y) - (x - y)) <= u64 * Rabs (x - y).
Proof. intros. apply (sum x (- y)); auto. Qed.
Lemma err_in x c : Rabs x <= c -> x - (u64 * c + eta) <= rnd x <= x + (u64 * c + eta).
Proof. intros H. pose proof (rabs_le _ _ (err x)). unfold u64 in *. lra. Qed.
Lemma diff_in x y c : F x -> F y -> Rabs (x - y) <= c -> x - y - u64 * c <= rnd (x - y) <= x - y + u64 * c.
Proof. intros Hx Hy H. pose proof (rabs_le _ _ (diff x y Hx Hy)). unfold u64 in *. lra. Qed.
Lemma sum_in x y c : F x -> F y -> Rabs (x + y) <= c -> x + y - u64 * c <= rnd (x + y) <= x + y + u64 * c.
Proof. intros Hx Hy H. pose proof (rabs_le _ _ (sum x y Hx Hy)). unfold u64 in *. lra. Qed.
Lemma F_0 : F 0.
Proof. replace 0 with (rnd 0). apply fmt. pose proof (sum (rnd 0) (- rnd 0) (fmt 0) (fopp _ (fmt 0))) as H.
  replace (rnd 0 + - rnd 0) with 0 in H by ring. rewrite Rabs_R0, Rmult_0_r in H. apply rabs_le in H. lra. Qed.

Variables lb ub : R.
Hypothesis Flb : F lb.
Hypothesis Fub : F ub.
Let W := ub - lb.
Hypothesis W0 : 0 < W.
Hypothesis Mlb : Rabs lb <= 1099511627776 * W.
Hypothesis Mub : Rabs ub <= 1099511627776 * W.
Hypothesis eta1 : eta <= / 1000000000000.
Hypothesis etaW : 1000000 * eta <= W.
Hypothesis etaWW : 1000000 * eta <= W * W.

Definition r_d := rnd (ub - lb).
Definition r_d2 := rnd (/ 2 * r_d).
Definition r_20 := rnd (1 / 20).
Definition r_al := Rmin r_d2 (rnd (r_20 * rnd (1 + Rabs lb))).
Definition r_au := Rmin r_d2 (rnd (r_20 * rnd (1 + Rabs ub))).
Definition r_xlow := rnd (rnd (lb - rnd (2 * r_al)) - r_d2).
Definition r_xup := rnd (rnd (ub + rnd (2 * r_au)) + r_d2).
Definition r_r := rnd (2 * rnd (rnd (r_d + r_al) + r_au)).
Definition r_A := rnd (lb - r_al).
Definition r_L := rnd (lb + r_al).
Definition r_B := rnd (ub + r_au).
Definition r_U := rnd (ub - r_au).

Lemma d_in : W * (1 - / 1000000) <= r_d <= W * (1 + / 1000000).
Proof.
  unfold r_d. pose proof (diff_in ub lb W Fub Flb) as H. fold W in H. rewrite Rabs_pos_eq in H by lra. specialize (H (Rle_refl _)). unfold u64 in H. fold W. lra.
Qed.
Lemma d2_in : W * (1/2 - / 100000) <= r_d2 <= W * (1/2 + / 100000).
Proof.
  pose proof d_in. unfold r_d2. pose proof (err_in (/ 2 * r_d) W) as H1. rewrite Rabs_pos_eq in H1 by lra. unfold u64 in H1. lra.
Qed.
Lemma c20_in : 49 / 1000 <= r_20 <= 51 / 1000.
Proof. unfold r_20. pose proof (err_in (1/20) (1/20)) as H. rewrite Rabs_pos_eq in H by lra. unfold u64 in H. lra. Qed.
Lemma c_in x : 3 / 100 * (1 + Rabs x) <= rnd (r_20 * rnd (1 + Rabs x)).
Proof.
  pose proof c20_in. pose proof (Rabs_pos x). set (a := Rabs x) in *.
  assert (H1 : 99 / 100 * (1 + a) <= rnd (1 + a) <= 101 / 100 * (1 + a)).
  { pose proof (err_in (1 + a) (1 + a)) as H1. rewrite Rabs_pos_eq in H1 by lra. unfold u64 in H1. lra. }
  set (b := rnd (1 + a)) in *. assert (H2 : 48 / 1000 * (1 + a) <= r_20 * b <= 52 / 1000 * (1 + a)) by nra.
  pose proof (err_in (r_20 * b) (1 + a)) as H3. rewrite Rabs_pos_eq in H3 by lra. unfold u64 in H3. lra.
Qed.
(** The width of the quadratic strips. *)
Lemma strip_in x : Rabs x <= 1099511627776 * W -> let a := Rmin r_d2 (rnd (r_20 * rnd (1 + Rabs x))) in
  0 < a /\ a <= W * (1/2 + / 100000) /\ u64 * Rabs x <= a / 2000 /\ 10000 * eta <= a * a /\ 10000 * eta <= a.
Proof.
  intros Hx. cbv zeta. pose proof d2_in. pose proof (c_in x). pose proof (Rabs_pos x). set (c := rnd _) in *. unfold u64.
  unfold Rmin. destruct (Rle_dec r_d2 c).
  - split; [lra|]. split; [lra|]. split; [lra|]. split; [|lra]. assert (49 / 100 * W * (49 / 100 * W) <= r_d2 * r_d2) by (apply Rmult_le_compat; lra). lra.
  - split; [lra|]. split; [lra|]. split; [lra|]. assert (3 / 100 <= c) by lra. split; [|lra]. assert (3 / 100 * (3 / 100) <= c * c) by (apply Rmult_le_compat; lra). lra.
Qed.
Lemma al_in : 0 < r_al /\ r_al <= W * (1/2 + / 100000) /\ u64 * Rabs lb <= r_al / 2000 /\ 10000 * eta <= r_al * r_al /\ 10000 * eta <= r_al.
Proof. apply strip_in, Mlb. Qed.
Lemma au_in : 0 < r_au /\ r_au <= W * (1/2 + / 100000) /\ u64 * Rabs ub <= r_au / 2000 /\ 10000 * eta <= r_au * r_au /\ 10000 * eta <= r_au.
Proof. apply strip_in, Mub. Qed.
Lemma F_min a b : F a -> F b -> F (Rmin a b).
Proof. unfold Rmin. destruct (Rle_dec a b); auto. Qed.
Lemma F_al : F r_al. Proof. apply F_min; apply fmt. Qed.
Lemma F_au : F r_au. Proof. apply F_min; apply fmt. Qed.
Lemma A_in : lb - r_al * (1 + / 1000) <= r_A <= lb - r_al * (1 - / 1000).
Proof.
  destruct al_in as (H1 & H2 & H3 & _). unfold r_A. pose proof (diff_in lb r_al (Rabs lb + r_al) Flb F_al) as H.
  assert (Rabs (lb - r_al) <= Rabs lb + r_al) by (unfold Rabs; destruct (Rcase_abs _), (Rcase_abs _); lra). specialize (H H0). unfold u64 in *. lra.
Qed.
Lemma L_in : lb + r_al * (1 - / 1000) <= r_L <= lb + r_al * (1 + / 1000).
Proof.
  destruct al_in as (H1 & H2 & H3 & _). unfold r_L. pose proof (sum_in lb r_al (Rabs lb + r_al) Flb F_al) as H.
  assert (Rabs (lb + r_al) <= Rabs lb + r_al) by (unfold Rabs; destruct (Rcase_abs _), (Rcase_abs _); lra). specialize (H H0). unfold u64 in *. lra.
Qed.
Lemma B_in : ub + r_au * (1 - / 1000) <= r_B <= ub + r_au * (1 + / 1000).
Proof.
  destruct au_in as (H1 & H2 & H3 & _). unfold r_B. pose proof (sum_in ub r_au (Rabs ub + r_au) Fub F_au) as H.
  assert (Rabs (ub + r_au) <= Rabs ub + r_au) by (unfold Rabs; destruct (Rcase_abs _), (Rcase_abs _); lra). specialize (H H0). unfold u64 in *. lra.
Qed.
Lemma U_in : ub - r_au * (1 + / 1000) <= r_U <= ub - r_au * (1 - / 1000).
Proof.
  destruct au_in as (H1 & H2 & H3 & _). unfold r_U. pose proof (diff_in ub r_au (Rabs ub + r_au) Fub F_au) as H.
  assert (Rabs (ub - r_au) <= Rabs ub + r_au) by (unfold Rabs; destruct (Rcase_abs _), (Rcase_abs _); lra). specialize (H H0). unfold u64 in *. lra.
Qed.

(** The value computed in a quadratic strip of width [a]. *)
Lemma quad_in a t : 0 < a -> 10000 * eta <= a * a -> 10000 * eta <= a -> F a -> Rabs t <= 25 / 10 * a -> let v := rnd (rnd (rnd (t * t) / 4) / a) in 0 <= v <= 17 / 10 * a.
Proof.
  intros Ha E1 E2 Fa Ht. cbv zeta. apply rabs_le in Ht. assert (T : 0 <= t * t <= 625 / 100 * (a * a)) by nra. assert (Ap : 0 < a * a) by nra.
  set (q := a * a) in *. assert (Eq : q = a * a) by reflexivity. clearbody q.
  assert (H1 : 0 <= rnd (t * t) <= 626 / 100 * q).
  { split; [apply rnd_ge; [apply F_0|lra]|]. pose proof (err_in (t * t) (625 / 100 * q)) as H. rewrite Rabs_pos_eq in H by lra. unfold u64 in H. lra. }
  set (p := rnd (t * t)) in *. clearbody p.
  assert (H2 : 0 <= rnd (p / 4) <= 157 / 100 * q).
  { split; [apply rnd_ge; [apply F_0|lra]|]. pose proof (err_in (p / 4) (626 / 400 * q)) as H. rewrite Rabs_pos_eq in H by lra. unfold u64 in H. lra. }
  set (w := rnd (p / 4)) in *. clearbody w.
  assert (H3 : 0 <= w / a <= 158 / 100 * a).
  { split; [apply Rmult_le_pos; [lra|left; now apply Rinv_0_lt_compat]|]. apply Rmult_le_reg_r with a; [assumption|]. unfold Rdiv at 1. rewrite Rmult_assoc, Rinv_l by lra. rewrite (Rmult_assoc (158 / 100)), <- Eq. lra. }
  split; [apply rnd_ge; [apply F_0|lra]|]. pose proof (err_in (w / a) (158 / 100 * a)) as H. rewrite Rabs_pos_eq in H by lra. unfold u64 in H. lra.
Qed.
Definition r_quad (y : R) : R :=
  if Rlt_dec y r_L then rnd (lb + rnd (rnd (rnd (rnd (y - r_A) * rnd (y - r_A)) / 4) / r_al))
  else if Rlt_dec r_U y then rnd (ub - rnd (rnd (rnd (rnd (y - r_B) * rnd (y - r_B)) / 4) / r_au))
  else y.
Lemma quad_inside y : F y -> r_A - r_al * (4/10) <= y -> y <= r_B + r_au * (4/10) -> lb <= r_quad y <= ub.
Proof.
  intros Fy H1 H2. unfold r_quad. pose proof A_in. pose proof L_in. pose proof B_in. pose proof U_in. destruct al_in as (A1 & A2 & A3 & A4 & A5). destruct au_in as (U1 & U2 & U3 & U4 & U5).
  assert (Wd : ub = lb + W) by (unfold W; ring). destruct (Rlt_dec y r_L) as [Hl|Hl].
  - assert (T : Rabs (rnd (y - r_A)) <= 25 / 10 * r_al).
    { pose proof (diff_in y r_A (3 * r_al) Fy (fmt _)) as H5. assert (Rabs (y - r_A) <= 3 * r_al) by (apply le_rabs; lra). specialize (H5 H6). apply le_rabs. unfold u64 in H5. lra. }
    pose proof (quad_in r_al _ A1 A4 A5 F_al T) as H5. cbv zeta in H5. split; [apply rnd_ge|apply rnd_le]; auto; lra.
  - destruct (Rlt_dec r_U y) as [Hu|Hu].
    + assert (T : Rabs (rnd (y - r_B)) <= 25 / 10 * r_au).
      { pose proof (diff_in y r_B (3 * r_au) Fy (fmt _)) as H5. assert (Rabs (y - r_B) <= 3 * r_au) by (apply le_rabs; lra). specialize (H5 H6). apply le_rabs. unfold u64 in H5. lra. }
      pose proof (quad_in r_au _ U1 U4 U5 F_au T) as H5. cbv zeta in H5. split; [apply rnd_ge|apply rnd_le]; auto; lra.
    + split; [apply Rle_trans with r_L; [apply rnd_ge; auto; lra|lra]|apply Rle_trans with r_U; [lra|apply rnd_le; auto; lra]].
Qed.

(** Errors of operations on numbers of moderate size. *)
Lemma slack z : Rabs z <= 4398046511104 * W -> z - W / 2000 <= rnd z <= z + W / 2000.
Proof. intros H. pose proof (err_in z _ H). unfold u64 in H0. lra. Qed.
Lemma lb_in : - (1099511627776 * W) <= lb <= 1099511627776 * W. Proof. now apply rabs_le. Qed.
Lemma ub_in : - (1099511627776 * W) <= ub <= 1099511627776 * W. Proof. now apply rabs_le. Qed.
Lemma xlow_in : lb - 2 * r_al - W / 2 - W / 400 <= r_xlow <= lb - 2 * r_al - W / 2 + W / 400.
Proof.
  pose proof lb_in. pose proof d2_in. destruct al_in as (A1 & A2 & _). unfold r_xlow.
  rewrite (fix_ (2 * r_al)) by (apply two, F_al).
  assert (H1 := slack (lb - 2 * r_al)). assert (H1' : Rabs (lb - 2 * r_al) <= 4398046511104 * W) by (apply le_rabs; lra). specialize (H1 H1').
  set (z := rnd (lb - 2 * r_al)) in *. assert (H2 := slack (z - r_d2)). assert (H2' : Rabs (z - r_d2) <= 4398046511104 * W) by (apply le_rabs; lra). specialize (H2 H2'). lra.
Qed.
Lemma xup_in : ub + 2 * r_au + W / 2 - W / 400 <= r_xup <= ub + 2 * r_au + W / 2 + W / 400.
Proof.
  pose proof ub_in. pose proof d2_in. destruct au_in as (A1 & A2 & _). unfold r_xup.
  rewrite (fix_ (2 * r_au)) by (apply two, F_au).
  assert (H1 := slack (ub + 2 * r_au)). assert (H1' : Rabs (ub + 2 * r_au) <= 4398046511104 * W) by (apply le_rabs; lra). specialize (H1 H1').
  set (z := rnd (ub + 2 * r_au)) in *. assert (H2 := slack (z + r_d2)). assert (H2' : Rabs (z + r_d2) <= 4398046511104 * W) by (apply le_rabs; lra). specialize (H2 H2'). lra.
Qed.
Lemma r_in : 2 * (W + r_al + r_au) - W / 400 <= r_r <= 2 * (W + r_al + r_au) + W / 400.
Proof.
  pose proof d_in. destruct al_in as (A1 & A2 & _). destruct au_in as (U1 & U2 & _). unfold r_r.
  assert (H1 := slack (r_d + r_al)). assert (H1' : Rabs (r_d + r_al) <= 4398046511104 * W) by (apply le_rabs; lra). specialize (H1 H1').
  set (z := rnd (r_d + r_al)) in *. assert (H2 := slack (z + r_au)). assert (H2' : Rabs (z + r_au) <= 4398046511104 * W) by (apply le_rabs; lra). specialize (H2 H2').
  rewrite fix_ by (apply two, fmt). lra.
Qed.

(** The two shifts by a multiple of the period. [k] is the number of periods computed. *)
Lemma shift_up_in x k : F x -> x < r_xlow -> 0 <= IZR k <= 2147483647 -> IZR k <= rnd (rnd (r_xlow - x) / r_r) -> rnd (rnd (r_xlow - x) / r_r) < IZR k + 1 ->
  r_xlow - W / 100 <= rnd (x + rnd (r_r * (1 + IZR k))) <= r_xlow + r_r + W / 100.
Proof.
  intros Fx Hx Hk K1 K2. pose proof r_in. pose proof xlow_in. pose proof lb_in. destruct al_in as (A1 & A2 & _). destruct au_in as (U1 & U2 & _).
  set (D := r_xlow - x) in *. assert (D0 : 0 < D) by (unfold D; lra).
  pose proof (diff_in r_xlow x D (fmt _) Fx) as H2. fold D in H2. rewrite Rabs_pos_eq in H2 by lra. specialize (H2 (Rle_refl _)).
  set (D' := rnd D) in *. set (v := D' / r_r) in *.
  assert (R0 : 2 * W - W / 400 <= r_r <= 5 * W) by lra.
  assert (V : v * r_r = D') by (unfold v; field; lra).
  assert (D'0 : 0 < D') by (unfold u64 in H2; lra).
  assert (V0 : 0 < v) by (apply Rdiv_lt_0_compat; lra).
  pose proof (err_in v v) as H3. rewrite Rabs_pos_eq in H3 by lra. specialize (H3 (Rle_refl _)). unfold u64 in *.
  assert (V1 : v <= 2147483650) by lra.
  assert (D1 : D' <= 2147483650 * r_r) by (rewrite <- V; apply Rmult_le_compat_r; lra).
  assert (V2 : v <= IZR k + 1 + / 100000) by lra.
  assert (P1 : v * r_r <= (IZR k + 1 + / 100000) * r_r) by (apply Rmult_le_compat_r; lra).
  set (m := r_r * (1 + IZR k)) in *.
  assert (M0 : 0 <= m <= 2147483648 * r_r) by (unfold m; split; [apply Rmult_le_pos; lra|rewrite Rmult_comm; apply Rmult_le_compat_r; lra]).
  assert (P2 : D' <= m + / 100000 * r_r) by (unfold m; lra).
  assert (P3 : IZR k * r_r <= (v + / 100000) * r_r) by (apply Rmult_le_compat_r; lra).
  assert (P4 : m <= D' + r_r + / 100000 * r_r) by (unfold m; lra).
  assert (H4 := slack m). assert (H4' : Rabs m <= 4398046511104 * W) by (apply le_rabs; lra). specialize (H4 H4').
  set (m' := rnd m) in *. assert (H5 := slack (x + m')). assert (H5' : Rabs (x + m') <= 4398046511104 * W) by (apply le_rabs; unfold D in *; lra). specialize (H5 H5').
  unfold D in *. lra.
Qed.
Lemma shift_down_in x k : F x -> r_xup < x -> 0 <= IZR k <= 2147483647 -> IZR k <= rnd (rnd (x - r_xup) / r_r) -> rnd (rnd (x - r_xup) / r_r) < IZR k + 1 ->
  r_xlow - W / 50 <= rnd (x - rnd (r_r * (1 + IZR k))) <= r_xup + W / 100.
Proof.
  intros Fx Hx Hk K1 K2. pose proof r_in. pose proof xlow_in. pose proof xup_in. pose proof ub_in. destruct al_in as (A1 & A2 & _). destruct au_in as (U1 & U2 & _).
  set (D := x - r_xup) in *. assert (D0 : 0 < D) by (unfold D; lra).
  pose proof (diff_in x r_xup D Fx (fmt _)) as E2. fold D in E2. rewrite Rabs_pos_eq in E2 by lra. specialize (E2 (Rle_refl _)).
  set (D' := rnd D) in *. set (v := D' / r_r) in *.
  assert (R0 : 2 * W - W / 400 <= r_r <= 5 * W) by lra.
  assert (V : v * r_r = D') by (unfold v; field; lra).
  assert (D'0 : 0 < D') by (unfold u64 in E2; lra).
  assert (V0 : 0 < v) by (apply Rdiv_lt_0_compat; lra).
  pose proof (err_in v v) as H4. rewrite Rabs_pos_eq in H4 by lra. specialize (H4 (Rle_refl _)). unfold u64 in *.
  assert (V1 : v <= 2147483650) by lra.
  assert (D1 : D' <= 2147483650 * r_r) by (rewrite <- V; apply Rmult_le_compat_r; lra).
  assert (P1 : v * r_r <= (IZR k + 1 + / 100000) * r_r) by (apply Rmult_le_compat_r; lra).
  set (m := r_r * (1 + IZR k)) in *.
  assert (M0 : 0 <= m <= 2147483648 * r_r) by (unfold m; split; [apply Rmult_le_pos; lra|rewrite Rmult_comm; apply Rmult_le_compat_r; lra]).
  assert (P2 : D' <= m + / 100000 * r_r) by (unfold m; lra).
  assert (P3 : IZR k * r_r <= (v + / 100000) * r_r) by (apply Rmult_le_compat_r; lra).
  assert (P4 : m <= D' + r_r + / 100000 * r_r) by (unfold m; lra).
  assert (H5 := slack m). assert (H5' : Rabs m <= 4398046511104 * W) by (apply le_rabs; lra). specialize (H5 H5').
  set (m' := rnd m) in *. assert (H6 := slack (x - m')). assert (H6' : Rabs (x - m') <= 4398046511104 * W) by (apply le_rabs; unfold D in *; lra). specialize (H6 H6').
  assert (Wd : ub = lb + W) by (unfold W; ring). unfold D in *. lra.
Qed.

(** The two reflections. *)
Definition r_low (x : R) : R := if Rlt_dec x r_A then rnd (x + rnd (2 * rnd (r_A - x))) else x.
Definition r_up (x : R) : R := if Rlt_dec r_B x then rnd (x - rnd (2 * rnd (rnd (x - ub) - r_au))) else x.
Lemma low_in x : F x -> r_xlow - W / 50 <= x <= r_xup + W / 100 -> F (r_low x) /\ r_A <= r_low x <= r_xup + W / 100.
Proof.
  intros Fx H. pose proof xlow_in. pose proof xup_in. pose proof ub_in. pose proof lb_in. pose proof A_in. pose proof B_in. destruct al_in as (A1 & A2 & A3 & A4 & A5). destruct au_in as (U1 & U2 & U3 & U4 & U5).
  assert (Wd : ub = lb + W) by (unfold W; ring).
  unfold r_low. destruct (Rlt_dec x r_A) as [L|L]; [|split; auto; lra].
    pose proof (diff_in r_A x (r_A - x) (fmt _) Fx) as H6. rewrite Rabs_pos_eq in H6 by lra. specialize (H6 (Rle_refl _)). unfold u64 in H6.
    rewrite (fix_ (2 * rnd (r_A - x))) by (apply two, fmt). set (g := rnd (r_A - x)) in *. split; [apply fmt|]. split; [apply rnd_ge; [apply fmt|lra]|].
    assert (H7 := slack (x + 2 * g)). assert (H7' : Rabs (x + 2 * g) <= 4398046511104 * W) by (apply le_rabs; lra). specialize (H7 H7'). lra.
Qed.
Lemma reflect_in x : F x -> r_xlow - W / 50 <= x <= r_xup + W / 100 ->
  F (r_up (r_low x)) /\ r_A - r_al * (4/10) <= r_up (r_low x) <= r_B + r_au * (4/10).
Proof.
  intros Fx H. pose proof xlow_in. pose proof xup_in. pose proof ub_in. pose proof lb_in. pose proof A_in. pose proof B_in. destruct al_in as (A1 & A2 & A3 & A4 & A5). destruct au_in as (U1 & U2 & U3 & U4 & U5).
  assert (Wd : ub = lb + W) by (unfold W; ring).
  destruct (low_in x Fx H) as (Fl & L1 & L2). set (y := r_low x) in *. clearbody y. unfold r_up. destruct (Rlt_dec r_B y) as [B|B]; [|split; auto; lra].
  assert (Y : ub + r_au <= y).
  { destruct (Rle_dec (ub + r_au) y); auto. exfalso. assert (y <= r_B) by (unfold r_B; apply rnd_ge; auto; lra). lra. }
  pose proof (diff_in y ub (y - ub) Fl Fub) as H6. rewrite Rabs_pos_eq in H6 by lra. specialize (H6 (Rle_refl _)). unfold u64 in H6.
  assert (G1 : r_au <= rnd (y - ub)) by (apply rnd_ge; [apply F_au|lra]).
  set (h := rnd (y - ub)) in *. pose proof (diff_in h r_au (h - r_au) (fmt _) F_au) as H7. rewrite Rabs_pos_eq in H7 by lra. specialize (H7 (Rle_refl _)). unfold u64 in H7.
  rewrite (fix_ (2 * rnd (h - r_au))) by (apply two, fmt). set (g := rnd (h - r_au)) in *.
  split; [apply fmt|]. split.
  - assert (H8 := slack (y - 2 * g)). assert (H8' : Rabs (y - 2 * g) <= 4398046511104 * W) by (apply le_rabs; lra). specialize (H8 H8'). lra.
  - apply Rle_trans with (rnd (ub + r_au * (101/100))); [apply mono; lra|].
    pose proof (err_in (ub + r_au * (101/100)) (Rabs ub + r_au * (101/100))) as H8.
    assert (Rabs (ub + r_au * (101/100)) <= Rabs ub + r_au * (101/100)) by (unfold Rabs; destruct (Rcase_abs _), (Rcase_abs _); lra). specialize (H8 H9). unfold u64 in *. lra.
Qed.
Lemma all_inside x : F x -> r_xlow - W / 50 <= x <= r_xup + W / 100 -> lb <= r_quad (r_up (r_low x)) <= ub.
Proof. intros Fx H. destruct (reflect_in x Fx H) as (F1 & H1). apply quad_inside; auto; lra. Qed.
End Rounded.
