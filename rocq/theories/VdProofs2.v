(** The weight of the mixed part keeps the system positive definite; the code
    solves it by elimination and the Sherman-Morrison formula. *)
From Coq Require Import Reals List Lia Lra Psatz ZArith.
From Verif Require Import Base Vec VecProofs Params Search Update ActiveProofs SpecVd VdProofs.
Local Open Scope R_scope.

Lemma cauchy_dot n f h : dot n f h * dot n f h <= dot n f f * dot n h h.
Proof.
  pose proof (dot_self_nonneg n h) as H0. destruct (Req_dec (dot n h h) 0) as [E|E].
  - assert (Z : dot n f h = 0). { unfold dot. rewrite (rsum_ext n _ (fun _ => 0)); [apply rsum_0|]. intros i Hi. rewrite (dot_self_zero n h E i Hi). ring. }
    rewrite Z, E. lra.
  - set (t := dot n f h / dot n h h). pose proof (dot_self_nonneg n (fun i => f i + - t * h i)) as P.
    rewrite dot_plus_r, !dot_plus_l, !dot_scal_r, !dot_scal_l, (dot_comm n h f) in P.
    assert (Q : dot n f f - dot n f h * dot n f h / dot n h h >= 0).
    { replace (dot n f f - dot n f h * dot n f h / dot n h h) with (dot n f f + - t * dot n f h + - t * (dot n f h + - t * dot n h h)); [lra|]. unfold t. field. lra. }
    apply (Rmult_le_reg_r (/ dot n h h)); [apply Rinv_0_lt_compat; lra|]. replace (dot n f f * dot n h h * / dot n h h) with (dot n f f) by (field; lra). unfold Rdiv in Q. lra.
Qed.
Lemma vmax_scal n c u : 0 <= c -> vmax n (fun i => c * u i) = c * vmax n u.
Proof.
  intros H. induction n as [|[|n] IH]; [cbn; ring|reflexivity|].
  change (Rmax (vmax (S n) (fun i => c * u i)) (c * u (S n)) = c * Rmax (vmax (S n) u) (u (S n))). rewrite IH. unfold Rmax.
  destruct (Rle_dec (c * vmax (S n) u) (c * u (S n))), (Rle_dec (vmax (S n) u) (u (S n))); auto; [|exfalso; nra].
  destruct H as [H|<-]; [|ring]. exfalso. nra.
Qed.

Section Alpha.
Variables (n : nat) (v : vec).
Let q := dot n v v.
Let g := 1 + q.
Let r := sqrt q.
Hypothesis HV : 0 < q.
Definition vb : vec := fun i => v i / r.
Definition vbb : vec := fun i => vb i * vb i.
Let al := alpha_vd n v.
Definition cb : R := - (1 - al * al) * q * q / g + 2 * al * al.
Definition ca : vec := fun i => 2 - (cb + 2 * al * al) * vbb i.
Lemma r_pos : 0 < r. Proof using HV. apply sqrt_lt_R0, HV. Qed.
Lemma r_sq : r * r = q. Proof using HV. apply sqrt_sqrt. lra. Qed.
Lemma v_vb i : v i = r * vb i. Proof using HV. unfold vb. pose proof r_pos. field. lra. Qed.
Lemma vb_one : dot n vb vb = 1.
Proof using HV.
  pose proof r_pos as R0. rewrite (dot_ext n vb (fun i => / r * v i) vb (fun i => / r * v i)); try (intros; unfold vb, Rdiv; ring).
  rewrite dot_scal_r, dot_scal_l. fold q. rewrite <- r_sq. field. lra.
Qed.
Lemma n_pos : (1 <= n)%nat. Proof using HV. destruct n; [unfold q in HV; cbn in HV; lra|lia]. Qed.
Lemma vbb_nonneg i : 0 <= vbb i. Proof using Type. apply (Rle_0_sqr (vb i)). Qed.
Lemma vbb_le1 i : (i < n)%nat -> vbb i <= 1.
Proof using HV. intros H. rewrite <- vb_one. apply (rsum_term n (fun i => vb i * vb i) i H). intros. apply vbb_nonneg. Qed.
Let mx := vmax n vbb.
Lemma mx_pos : 0 < mx.
Proof using HV.
  assert (N : 0 <= mx) by (apply vmax_nonneg; intros; apply vbb_nonneg). destruct N as [N|N]; [exact N|exfalso].
  assert (Z : dot n vb vb <= rsum n (fun _ => 0)). { apply rsum_le. intros i Hi. rewrite N. apply (vmax_ge n vbb i Hi). }
  rewrite rsum_0, vb_one in Z. lra.
Qed.
Lemma mx_eq : vmax n (fun i => v i * v i) = q * mx.
Proof using HV.
  unfold mx. rewrite <- vmax_scal by lra. f_equal. apply FunctionalExtensionality.functional_extensionality. intros i. rewrite (v_vb i), <- r_sq. unfold vbb. ring.
Qed.
Let rad := q * q + (2 - 1 / sqrt g) * g / mx.
Lemma sg : 1 < sqrt g. Proof using HV. rewrite <- sqrt_1. apply sqrt_lt_1; unfold g; lra. Qed.
Lemma inv_sg : 0 < 1 / sqrt g < 1.
Proof using HV. pose proof sg. split; [apply Rdiv_lt_0_compat; lra|]. apply (Rmult_lt_reg_r (sqrt g)); [lra|]. replace (1 / sqrt g * sqrt g) with 1 by (field; lra). lra. Qed.
Lemma rad_pos : 0 < rad.
Proof using HV.
  pose proof inv_sg. pose proof mx_pos. unfold rad. assert (0 < (2 - 1 / sqrt g) * g / mx) by (apply Rdiv_lt_0_compat; [apply Rmult_lt_0_compat; [lra|unfold g; lra]|lra]). pose proof (Rmult_lt_0_compat q q HV HV). lra.
Qed.
Lemma al_eq : al = Rmin 1 (sqrt rad / (2 + q)).
Proof using HV.
  unfold al, alpha_vd. fold q g. rewrite mx_eq. replace ((2 - 1 / sqrt g) * g * q / (q * mx)) with ((2 - 1 / sqrt g) * g / mx); [reflexivity|].
  pose proof mx_pos. pose proof sg. field. repeat split; lra.
Qed.
Lemma al_pos : 0 < al <= 1.
Proof using HV.
  rewrite al_eq. split; [|apply Rmin_l]. apply Rmin_glb_lt; [lra|]. apply Rdiv_lt_0_compat; [apply sqrt_lt_R0, rad_pos|lra].
Qed.
Lemma al_sq : al * al * ((2 + q) * (2 + q)) <= rad.
Proof using HV.
  pose proof al_pos as [A0 _]. assert (L : al <= sqrt rad / (2 + q)) by (rewrite al_eq; apply Rmin_r).
  assert (S0 : 0 <= al * (2 + q)) by nra. assert (S1 : al * (2 + q) <= sqrt rad).
  { apply (Rmult_le_compat_r (2 + q)) in L; [|lra]. replace (sqrt rad / (2 + q) * (2 + q)) with (sqrt rad) in L by (field; lra). exact L. }
  pose proof (sqrt_sqrt rad (Rlt_le _ _ rad_pos)). nra.
Qed.
Lemma al_one : (2 + q) * (2 + q) <= rad -> al = 1.
Proof using HV.
  intros H. rewrite al_eq. apply Rmin_left. apply (Rmult_le_reg_r (2 + q)); [lra|]. replace (sqrt rad / (2 + q) * (2 + q)) with (sqrt rad) by (field; lra).
  rewrite <- (sqrt_square (1 * (2 + q))) by lra. apply sqrt_le_1_alt. lra.
Qed.
Lemma cb_sum : cb + 2 * al * al = (al * al * ((2 + q) * (2 + q)) - q * q) / g.
Proof using HV. unfold cb, g in *. field. lra. Qed.
Lemma ca_pos i : (i < n)%nat -> 0 < ca i.
Proof using HV.
  intros Hi. unfold ca. rewrite cb_sum. pose proof al_sq as H. unfold rad in H. pose proof inv_sg as I. pose proof mx_pos as M. pose proof (vmax_ge n vbb i Hi) as V. fold mx in V. pose proof (vbb_nonneg i) as V0.
  set (x := (al * al * ((2 + q) * (2 + q)) - q * q) / g). assert (G : 0 < g) by (unfold g; lra).
  assert (X : x <= (2 - 1 / sqrt g) / mx).
  { unfold x. apply (Rmult_le_reg_r g); [exact G|]. replace ((al * al * ((2 + q) * (2 + q)) - q * q) / g * g) with (al * al * ((2 + q) * (2 + q)) - q * q) by (field; lra).
    replace ((2 - 1 / sqrt g) / mx * g) with ((2 - 1 / sqrt g) * g / mx) by (unfold Rdiv; ring). lra. }
  assert (B : x * vbb i <= 2 - 1 / sqrt g); [|lra].
  apply Rle_trans with ((2 - 1 / sqrt g) / mx * vbb i); [apply Rmult_le_compat_r; [exact V0|exact X]|].
  apply Rle_trans with ((2 - 1 / sqrt g) / mx * mx); [|right; field; split; [pose proof sg; lra|lra]].
  apply Rmult_le_compat_l; [|exact V]. left. apply Rdiv_lt_0_compat; lra.
Qed.
Definition nu2 : R := rsum n (fun i => vbb i / ca i * vbb i).
Lemma nu2_nonneg : 0 <= nu2.
Proof using HV. apply rsum_nonneg. intros i Hi. pose proof (ca_pos i Hi). pose proof (vbb_nonneg i). apply Rmult_le_pos; [|auto]. apply Rmult_le_pos; [auto|left; apply Rinv_0_lt_compat; auto]. Qed.
Lemma nu2_pos : 0 < 1 + cb * nu2.
Proof using HV.
  pose proof nu2_nonneg as N0. destruct (Rle_lt_dec 0 cb) as [B|B]; [assert (0 <= cb * nu2) by (apply Rmult_le_pos; auto); lra|].
  pose proof al_pos as A. assert (A1 : al * al < 1).
  { destruct (Req_dec al 1) as [E|E]; [|nra]. exfalso. unfold cb in B. rewrite E in B. replace (- (1 - 1 * 1) * q * q / g + 2 * 1 * 1) with 2 in B; [lra|]. unfold g. field. lra. }
  set (c := cb + 2 * al * al) in *.
  assert (C2 : 0 < 2 - c) by (unfold c; lra).
  assert (L : nu2 <= rsum n (fun i => vb i * vb i * (1 / (2 - c)))).
  { apply rsum_le. intros i Hi. pose proof (vbb_nonneg i) as V0. pose proof (vbb_le1 i Hi) as V1. pose proof (ca_pos i Hi) as P. fold (vbb i).
    replace (vbb i / ca i * vbb i) with (vbb i * (vbb i / ca i)) by (unfold Rdiv; ring). apply Rmult_le_compat_l; [exact V0|].
    apply (Rmult_le_reg_r (ca i * (2 - c))); [apply Rmult_lt_0_compat; assumption|].
    replace (vbb i / ca i * (ca i * (2 - c))) with (vbb i * (2 - c)) by (field; lra). replace (1 / (2 - c) * (ca i * (2 - c))) with (ca i) by (field; lra). unfold ca. fold c. nra. }
  rewrite rsum_scal_r in L. change (rsum n (fun i => vb i * vb i)) with (dot n vb vb) in L. rewrite vb_one in L.
  assert (E : cb = c - 2 * al * al) by (unfold c; ring).
  assert (Q : - cb * nu2 < 1); [|lra]. apply Rle_lt_trans with (- cb * (1 * (1 / (2 - c)))); [apply Rmult_le_compat_l; lra|].
  apply (Rmult_lt_reg_r (2 - c)); [exact C2|]. replace (- cb * (1 * (1 / (2 - c))) * (2 - c)) with (- cb) by (field; lra). lra.
Qed.
(** The Schur complement. *)
Lemma schur_pos s : (exists i, (i < n)%nat /\ s i <> 0) -> 0 < rsum n (fun i => ca i * (s i * s i)) + cb * (dot n vbb s * dot n vbb s).
Proof using HV.
  intros (i & Hi & Hs). set (P := rsum n (fun i => ca i * (s i * s i))).
  assert (PP : 0 < P).
  { apply (rsum_pos n _ i Hi). - apply Rmult_lt_0_compat; [apply ca_pos, Hi|]. apply (Rsqr_pos_lt _ Hs). - intros j Hj. apply Rmult_le_pos; [left; apply ca_pos, Hj|apply (Rle_0_sqr (s j))]. }
  destruct (Rle_lt_dec 0 cb) as [B|B].
  - pose proof (Rle_0_sqr (dot n vbb s)) as T. unfold Rsqr in T. assert (0 <= cb * (dot n vbb s * dot n vbb s)) by (apply Rmult_le_pos; auto). lra.
  - assert (C : dot n vbb s * dot n vbb s <= nu2 * P).
    { pose proof (cauchy_dot n (fun i => vbb i / sqrt (ca i)) (fun i => sqrt (ca i) * s i)) as C.
      replace (dot n (fun i => vbb i / sqrt (ca i)) (fun i => sqrt (ca i) * s i)) with (dot n vbb s) in C.
      2:{ apply rsum_ext. intros j Hj. pose proof (sqrt_lt_R0 _ (ca_pos j Hj)). field. lra. }
      replace (dot n (fun i => vbb i / sqrt (ca i)) (fun i => vbb i / sqrt (ca i))) with nu2 in C.
      2:{ apply rsum_ext. intros j Hj. pose proof (ca_pos j Hj). pose proof (sqrt_lt_R0 _ (ca_pos j Hj)). rewrite <- (sqrt_sqrt (ca j)) at 1 by lra. field. lra. }
      replace (dot n (fun i => sqrt (ca i) * s i) (fun i => sqrt (ca i) * s i)) with P in C; [exact C|].
      apply rsum_ext. intros j Hj. pose proof (ca_pos j Hj). rewrite <- (sqrt_sqrt (ca j)) at 1 by lra. ring. }
    pose proof nu2_pos. assert (cb * (dot n vbb s * dot n vbb s) >= cb * (nu2 * P)) by (apply Rmult_le_ge_compat_neg_l; lra).
    assert (0 < (1 + cb * nu2) * P) by (apply Rmult_lt_0_compat; auto). nra.
Qed.

(** * The elimination *)
Variables (pv qv : vec).
Definition rv : vec := fun i => pv i - al / g * ((2 + q) * (vb i * qv i) - q * dot n vb qv * vbb i).
Definition sv : vec := fun i => rv i * (1 / ca i) - cb * dot n (fun i => 1 / ca i * vbb i) rv / (1 + cb * dot n (fun i => 1 / ca i * vbb i) vbb) * (1 / ca i * vbb i).
Definition uv : vec := fun i => (qv i - al * ((2 + q) * (vb i * sv i) - dot n sv vbb * vb i)) / r.
Lemma sherman i : (i < n)%nat -> ca i * sv i + cb * dot n vbb sv * vbb i = rv i.
Proof using HV.
  intros Hi. pose proof nu2_pos as N.
  assert (E2 : dot n (fun i => 1 / ca i * vbb i) vbb = nu2) by (apply rsum_ext; intros; unfold Rdiv; ring).
  set (nu := dot n (fun i => 1 / ca i * vbb i) rv).
  assert (T : dot n vbb sv = nu / (1 + cb * nu2)).
  { unfold sv. rewrite E2. fold nu. unfold dot.
    rewrite (rsum_ext n _ (fun i => 1 / ca i * vbb i * rv i - (cb * nu / (1 + cb * nu2)) * (vbb i / ca i * vbb i))) by (intros; unfold Rdiv; ring).
    rewrite rsum_minus, rsum_scal. fold nu2. change (rsum n (fun i => 1 / ca i * vbb i * rv i)) with nu. field. lra. }
  rewrite T. unfold sv. rewrite E2. fold nu. pose proof (ca_pos i Hi). field. split; lra.
Qed.
(** The two lines of the system, with D divided out. *)
Definition line_v (u s : vec) (l : nat) : R :=
  q / g * (u l - v l * dot n v u / g) + v l * dot n v u / (g * g) + al * (v l * s l * (1 + 1 / g) - v l * dot n (fun i => v i * v i) s / g).
Definition line_d (u s : vec) (l : nat) : R :=
  al * (v l * u l * (1 + 1 / g) - v l * v l * dot n v u / g) + (s l * (2 + v l * v l * q / g) - v l * v l * dot n (fun i => v i * v i) s / g).
Lemma dot_v x : dot n v x = r * dot n vb x.
Proof using HV. rewrite <- dot_scal_l. apply dot_ext; auto. intros. apply v_vb. Qed.
Lemma dot_vv x : dot n (fun i => v i * v i) x = q * dot n vbb x.
Proof using HV. rewrite <- dot_scal_l. apply dot_ext; auto. intros. rewrite (v_vb i), <- r_sq. unfold vbb. ring. Qed.
Lemma vb_uv : dot n vb uv = (dot n vb qv - al * (1 + q) * dot n vbb sv) / r.
Proof using HV.
  pose proof r_pos as R0. unfold uv, dot at 1.
  rewrite (rsum_ext n _ (fun i => / r * (vb i * qv i) - (al * (2 + q) / r) * (vbb i * sv i) + (al * dot n sv vbb / r) * (vb i * vb i))) by (intros; unfold vbb; field; lra).
  rewrite rsum_plus, rsum_minus, !rsum_scal. fold (dot n vb qv) (dot n vbb sv) (dot n vb vb). rewrite vb_one, (dot_comm n sv vbb). field. lra.
Qed.
Lemma solve_v l : (l < n)%nat -> line_v uv sv l = r / g * (qv l + (1 - q) / g * dot n vb qv * vb l).
Proof using HV.
  intros Hl. pose proof r_pos as R0. assert (G : 0 < g) by (unfold g; lra). unfold line_v. rewrite dot_v, dot_vv, vb_uv. rewrite (v_vb l). unfold uv. rewrite (dot_comm n sv vbb).
  set (T := dot n vbb sv). set (Q := dot n vb qv). rewrite <- r_sq. unfold g in *. rewrite <- r_sq in *. field. split; nra.
Qed.
Lemma solve_d l : (l < n)%nat -> line_d uv sv l = pv l.
Proof using HV.
  intros Hl. pose proof r_pos as R0. assert (G : 0 < g) by (unfold g; lra).
  pose proof (sherman l Hl) as S. unfold rv, ca in S. rewrite cb_sum in S.
  assert (P : pv l = (2 - (al * al * ((2 + q) * (2 + q)) - q * q) / g * vbb l) * sv l + cb * dot n vbb sv * vbb l + al / g * ((2 + q) * (vb l * qv l) - q * dot n vb qv * vbb l)) by lra.
  rewrite P. unfold line_d. rewrite dot_v, dot_vv, vb_uv. rewrite (v_vb l). unfold uv. rewrite (dot_comm n sv vbb). unfold cb.
  set (T := dot n vbb sv). set (Q := dot n vb qv). unfold vbb. unfold g in *. rewrite <- r_sq in *. field. split; nra.
Qed.
End Alpha.
