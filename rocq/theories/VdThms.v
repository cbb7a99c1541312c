(** The natural gradient step of VD-CMA for the runs of the model. *)
From Coq Require Import Reals List Lia Lra Psatz ZArith.
From Verif Require Import Base Dbl Vec VecProofs Params SpecParams ParamsProofs AdaptProofs ParamSound Config Search SpecSearch SpecSafe SearchInv Update SpecUpdate UpdateProofs UpdateProofs2 ActiveProofs ActiveThms Corr SpecRate SpecAlgo AlgoProofs SpecVd VdProofs VdProofs2.
Import ListNotations.
Local Open Scope R_scope.

(** * The system *)
Section System.
Variables (n : nat) (d v : vec) (ki : mat).
Let q := dot n v v.
Let g := 1 + q.
Let al := alpha_vd n v.
Hypothesis HV : 0 < q.
Hypothesis HD : forall i, (i < n)%nat -> d i <> 0.
Hypothesis HK : inverse n ki (vd_matrix d v).
Lemma gp : 0 < g. Proof using HV. unfold g. lra. Qed.
Lemma fisher_v_line u sd l : (l < n)%nat -> fisher_v n ki d v al u sd l = line_v n v u (over d sd) l.
Proof using HV HD HK.
  intros Hl. pose proof gp as G. unfold fisher_v, line_v. fold q g al. f_equal; [|f_equal].
  - rewrite (rsum_ext n _ (fun m => q / g * (delta l m * u m) + (v l / (g * g) - q / g * v l / g) * (v m * u m))).
    + rewrite rsum_plus, !rsum_scal, (sum_delta' n u l Hl). fold (dot n v u). unfold Rdiv. ring.
    + intros m Hm. rewrite (fisher_vv n d v HD ki HK l m Hl Hm). fold q g. field. lra.
  - rewrite (rsum_ext n _ (fun m => delta l m * (v m * (1 + 1 / g) * over d sd m) - v l / g * (v m * v m * over d sd m))).
    + rewrite rsum_minus, rsum_scal, (sum_delta' n (fun m => v m * (1 + 1 / g) * over d sd m) l Hl). fold (dot n (fun i => v i * v i) (over d sd)). unfold Rdiv. ring.
    + intros m Hm. rewrite (fisher_vd n d v HD ki HK l m Hl Hm). fold q g. unfold over. pose proof (HD m Hm). field. split; auto; lra.
Qed.
Lemma fisher_d_line u sd l : (l < n)%nat -> fisher_d n ki d v al u sd l = 1 / d l * line_d n v u (over d sd) l.
Proof using HV HD HK.
  intros Hl. pose proof gp as G. pose proof (HD l Hl) as Dl. unfold fisher_d, line_d. fold q g al.
  rewrite (rsum_ext n (fun m => fisher n ki (wrt_d d v l) (wrt_v d v m) * u m) (fun m => 1 / d l * (v l * (1 + 1 / g)) * (delta l m * u m) - 1 / d l * (v l * v l / g) * (v m * u m))).
  - rewrite (rsum_ext n (fun m => fisher n ki (wrt_d d v l) (wrt_d d v m) * sd m) (fun m => 1 / d l * (2 + v l * v l * q / g) * (delta l m * over d sd m) - 1 / d l * (v l * v l / g) * (v m * v m * over d sd m))).
    + rewrite !rsum_minus, !rsum_scal, !sum_delta' by exact Hl. fold (dot n v u) (dot n (fun i => v i * v i) (over d sd)). unfold Rdiv. ring.
    + intros m Hm. rewrite (fisher_dd n d v HD ki HK l m Hl Hm). fold q g. unfold over. pose proof (HD m Hm). field. repeat split; auto; lra.
  - intros m Hm. rewrite (fisher_dv n d v HD ki HK l m Hl Hm). fold q g. field. split; auto; lra.
Qed.
(** Completing the square. *)
Lemma lines_square u s : let T := dot n (vbb n v) s in let w := fun i => u i + al / sqrt q * ((2 + q) * (vb n v i * s i) - T * vb n v i) in
  dot n u (line_v n v u s) + dot n s (line_d n v u s) =
  q / g * (dot n w w + (1 - q) / g * (dot n (vb n v) w * dot n (vb n v) w)) + (rsum n (fun i => ca n v i * (s i * s i)) + cb n v * (T * T)).
Proof using HV.
  cbv zeta. set (r := sqrt q). set (T := dot n (vbb n v) s). pose proof gp as G.
  assert (R0 : 0 < r) by exact (r_pos n v HV). assert (RR : r * r = q) by exact (r_sq n v HV).
  set (b := vb n v). assert (VB : forall i, v i = r * b i) by exact (v_vb n v HV).
  assert (B1 : dot n b b = 1) by exact (vb_one n v HV).
  set (X := dot n u u). set (Y := dot n b u). set (Z := rsum n (fun i => b i * u i * s i)). set (P := rsum n (fun i => b i * b i * (s i * s i))). set (S2 := dot n s s).
  assert (L1 : dot n u (line_v n v u s) = q / g * (X - q * (Y * Y) / g) + q * (Y * Y) / (g * g) + al * (r * Z * (1 + 1 / g) - r * Y * (q * T) / g)).
  { unfold dot at 1. rewrite (rsum_ext n _ (fun i => q / g * (u i * u i) + (r * (r * Y) / (g * g) - q / g * r * (r * Y) / g - al * r * (q * T) / g) * (b i * u i) + al * r * (1 + 1 / g) * (b i * u i * s i))).
    - rewrite !rsum_plus, !rsum_scal. fold (dot n u u) (dot n b u) Z X Y. rewrite <- RR. unfold Rdiv. ring.
    - intros i _. unfold line_v. fold q g al. rewrite (dot_v n v HV), (dot_vv n v HV). fold q r b T Y. rewrite (VB i). unfold Rdiv. ring. }
  assert (L2 : dot n s (line_d n v u s) = al * (r * Z * (1 + 1 / g) - q * T * (r * Y) / g) + 2 * S2 + q * q * P / g - q * q * (T * T) / g).
  { unfold dot at 1. rewrite (rsum_ext n _ (fun i => al * r * (1 + 1 / g) * (b i * u i * s i) + (- (al * q * (r * Y) / g) - q * (q * T) / g) * (b i * b i * s i) + 2 * (s i * s i) + q * q / g * (b i * b i * (s i * s i)))).
    - rewrite !rsum_plus, !rsum_scal. fold (dot n s s) Z P S2. change (rsum n (fun i => b i * b i * s i)) with T. unfold Rdiv. ring.
    - intros i _. unfold line_d. fold q g al. rewrite (dot_v n v HV), (dot_vv n v HV). fold q r b T Y. rewrite (VB i), <- RR. unfold Rdiv. ring. }
  set (w := fun i => u i + al / r * ((2 + q) * (b i * s i) - T * b i)).
  assert (W1 : dot n w w = X + 2 * (al / r) * ((2 + q) * Z - T * Y) + al * al / q * ((2 + q) * (2 + q) * P - 2 * (2 + q) * (T * T) + T * T)).
  { unfold dot at 1, w. rewrite (rsum_ext n _ (fun i => u i * u i + 2 * (al / r) * (2 + q) * (b i * u i * s i) + (- (2 * (al / r) * T)) * (b i * u i) + al * al / q * ((2 + q) * (2 + q)) * (b i * b i * (s i * s i)) + (- (al * al / q * (2 * (2 + q) * T))) * (b i * b i * s i) + al * al / q * (T * T) * (b i * b i))).
    - rewrite !rsum_plus, !rsum_scal. fold (dot n u u) (dot n b u) (dot n b b) Z P X Y. change (rsum n (fun i => b i * b i * s i)) with T. rewrite B1. unfold Rdiv. ring.
    - intros i _. rewrite <- RR. field. lra. }
  assert (W2 : dot n b w = Y + al / r * (1 + q) * T).
  { unfold dot at 1, w. rewrite (rsum_ext n _ (fun i => b i * u i + al / r * (2 + q) * (b i * b i * s i) + (- (al / r * T)) * (b i * b i))) by (intros; ring).
    rewrite !rsum_plus, !rsum_scal. fold (dot n b u) (dot n b b) Y. change (rsum n (fun i => b i * b i * s i)) with T. rewrite B1. ring. }
  assert (C1 : rsum n (fun i => ca n v i * (s i * s i)) = 2 * S2 - (cb n v + 2 * al * al) * P).
  { rewrite (rsum_ext n _ (fun i => 2 * (s i * s i) - (cb n v + 2 * al * al) * (b i * b i * (s i * s i)))) by (intros; unfold ca, vbb; fold b al; ring).
    rewrite rsum_minus, !rsum_scal. reflexivity. }
  rewrite L1, L2, W1, W2, C1. unfold cb. fold q g al. unfold g in *. rewrite <- RR in *. field. split; nra.
Qed.
Lemma definite u s : (exists i, (i < n)%nat /\ (u i <> 0 \/ s i <> 0)) -> 0 < dot n u (line_v n v u s) + dot n s (line_d n v u s).
Proof using HV.
  intros H. rewrite lines_square. cbv zeta. set (T := dot n (vbb n v) s). set (w := fun i => u i + al / sqrt q * ((2 + q) * (vb n v i * s i) - T * vb n v i)). pose proof gp as G.
  pose proof (cauchy_dot n (vb n v) w) as C. rewrite (vb_one n v HV), Rmult_1_l in C. set (c := dot n (vb n v) w) in *. pose proof (Rle_0_sqr c) as C0. unfold Rsqr in C0.
  assert (QG : 0 < q / g) by (apply Rdiv_lt_0_compat; auto).
  replace (dot n w w + (1 - q) / g * (c * c)) with (dot n w w - c * c + 2 / g * (c * c)) by (unfold g; field; unfold g in G; lra).
  assert (G2 : 0 < 2 / g) by (apply Rdiv_lt_0_compat; lra).
  assert (F0 : 0 <= 2 / g * (c * c)) by (apply Rmult_le_pos; lra).
  destruct (classic_tr n s) as [HS|HS].
  - pose proof (schur_pos n v HV s HS) as P. fold T in P. assert (0 <= q / g * (dot n w w - c * c + 2 / g * (c * c))) by (apply Rmult_le_pos; lra). lra.
  - assert (HU : exists i, (i < n)%nat /\ u i <> 0) by (destruct H as (i & Hi & [U|U]); [eauto|exfalso; apply U, HS, Hi]).
    assert (T0 : T = 0). { unfold T, dot. rewrite (rsum_ext n _ (fun _ => 0)); [apply rsum_0|]. intros i Hi. rewrite (HS i Hi). ring. }
    assert (Z : rsum n (fun i => ca n v i * (s i * s i)) = 0). { rewrite (rsum_ext n _ (fun _ => 0)); [apply rsum_0|]. intros i Hi. rewrite (HS i Hi). ring. }
    rewrite Z, T0. assert (WW : dot n w w <> 0).
    { intros E. destruct HU as (i & Hi & U). apply U. pose proof (dot_self_zero n w E i Hi) as W0. unfold w in W0. rewrite T0, (HS i Hi) in W0. rewrite <- W0. ring. }
    pose proof (dot_self_nonneg n w). assert (0 < dot n w w - c * c + 2 / g * (c * c)).
    { destruct (Req_dec (c * c) 0) as [E|E]; [rewrite E in *; lra|]. assert (0 < 2 / g * (c * c)) by (apply Rmult_lt_0_compat; lra). lra. }
    assert (0 < q / g * (dot n w w - c * c + 2 / g * (c * c))) by (apply Rmult_lt_0_compat; auto). lra.
Qed.
Lemma form_lines u sd : dot n u (fisher_v n ki d v al u sd) + dot n sd (fisher_d n ki d v al u sd) = dot n u (line_v n v u (over d sd)) + dot n (over d sd) (line_d n v u (over d sd)).
Proof using HV HD HK.
  f_equal; apply rsum_ext; intros i Hi; [rewrite fisher_v_line by exact Hi; reflexivity|]. rewrite fisher_d_line by exact Hi. unfold over at 2. pose proof (HD i Hi). field. auto.
Qed.
Lemma fisher_definite u sd : (exists i, (i < n)%nat /\ (u i <> 0 \/ sd i <> 0)) -> 0 < dot n u (fisher_v n ki d v al u sd) + dot n sd (fisher_d n ki d v al u sd).
Proof using HV HD HK.
  intros (i & Hi & H). rewrite form_lines. apply definite. exists i. split; [exact Hi|]. destruct H as [H|H]; [left; exact H|right]. unfold over. pose proof (HD i Hi). intros E. apply H.
  replace (sd i) with (sd i / d i * d i) by (field; auto). rewrite E. ring.
Qed.
Lemma fisher_v_minus u sd u' sd' l : fisher_v n ki d v al (fun i => u i - u' i) (fun i => sd i - sd' i) l = fisher_v n ki d v al u sd l - fisher_v n ki d v al u' sd' l.
Proof using Type.
  unfold fisher_v. rewrite (rsum_ext n _ (fun m => fisher n ki (wrt_v d v l) (wrt_v d v m) * u m - fisher n ki (wrt_v d v l) (wrt_v d v m) * u' m)) by (intros; ring).
  rewrite (rsum_ext n (fun m => fisher n ki (wrt_v d v l) (wrt_d d v m) * (sd m - sd' m)) (fun m => fisher n ki (wrt_v d v l) (wrt_d d v m) * sd m - fisher n ki (wrt_v d v l) (wrt_d d v m) * sd' m)) by (intros; ring).
  rewrite !rsum_minus. ring.
Qed.
Lemma fisher_d_minus u sd u' sd' l : fisher_d n ki d v al (fun i => u i - u' i) (fun i => sd i - sd' i) l = fisher_d n ki d v al u sd l - fisher_d n ki d v al u' sd' l.
Proof using Type.
  unfold fisher_d. rewrite (rsum_ext n _ (fun m => fisher n ki (wrt_d d v l) (wrt_v d v m) * u m - fisher n ki (wrt_d d v l) (wrt_v d v m) * u' m)) by (intros; ring).
  rewrite (rsum_ext n (fun m => fisher n ki (wrt_d d v l) (wrt_d d v m) * (sd m - sd' m)) (fun m => fisher n ki (wrt_d d v l) (wrt_d d v m) * sd m - fisher n ki (wrt_d d v l) (wrt_d d v m) * sd' m)) by (intros; ring).
  rewrite !rsum_minus. ring.
Qed.
Lemma step_unique gv gd u sd u' sd' : natural_step n ki d v al gv gd u sd -> natural_step n ki d v al gv gd u' sd' -> forall l, (l < n)%nat -> u l = u' l /\ sd l = sd' l.
Proof using HV HD HK.
  intros H H' l Hl. destruct (Req_dec (u l) (u' l)) as [E1|E1]; [destruct (Req_dec (sd l) (sd' l)) as [E2|E2]; [auto|]|].
  all: exfalso; assert (P : 0 < dot n (fun i => u i - u' i) (fisher_v n ki d v al (fun i => u i - u' i) (fun i => sd i - sd' i)) + dot n (fun i => sd i - sd' i) (fisher_d n ki d v al (fun i => u i - u' i) (fun i => sd i - sd' i)))
    by (apply fisher_definite; exists l; split; [exact Hl|]; first [left; lra|right; lra]).
  all: assert (Z1 : forall w, dot n w (fisher_v n ki d v al (fun i => u i - u' i) (fun i => sd i - sd' i)) = 0) by (intros w; unfold dot; rewrite (rsum_ext n _ (fun _ => 0)); [apply rsum_0|]; intros i Hi; rewrite fisher_v_minus, (proj1 (H i Hi)), (proj1 (H' i Hi)); ring).
  all: assert (Z2 : forall w, dot n w (fisher_d n ki d v al (fun i => u i - u' i) (fun i => sd i - sd' i)) = 0) by (intros w; unfold dot; rewrite (rsum_ext n _ (fun _ => 0)); [apply rsum_0|]; intros i Hi; rewrite fisher_d_minus, (proj2 (H i Hi)), (proj2 (H' i Hi)); ring).
  all: rewrite Z1, Z2 in P; lra.
Qed.
End System.

(** * The model *)
Lemma any_basics k : constructed_any k -> (1 <= k_dim k)%nat /\ 0 < k_alphathuh k /\ 0 < k_csigma k < 1.
Proof.
  intros [C|(k0 & a & C & ->)]; pose proof (constructed_sound _ C) as (D & (A & _) & _ & AL).
  - split; [exact D|]. split; [exact AL|]. lra.
  - pose proof (constructed_muw _ C) as M. unfold set_vd. destruct (_ || _ || _)%bool; cbn [k_dim k_alphathuh k_csigma set_algo with_algo k_muw]; (split; [exact D|]; split; [exact AL|]); [|lra].
    assert (S1 : 0 < sqrt (k_muw k0)) by (apply sqrt_lt_R0; lra). assert (S2 : 0 < sqrt (INR (k_dim k0))) by (apply sqrt_lt_R0, lt_0_INR; lia).
    revert S1 S2. generalize (sqrt (k_muw k0)) (sqrt (INR (k_dim k0))). intros u w U W. split; [apply Rdiv_lt_0_compat; lra|].
    apply (Rmult_lt_reg_r (2 * (w + u))); [lra|]. replace (u / (2 * (w + u)) * (2 * (w + u))) with u by (field; lra). lra.
Qed.
Lemma h_eq p gen xs n a' : 0 < k_csigma (p_k p) < 1 -> (0 <= gen)%Z -> d_ps a' = new_psigma p xs n -> h_sigma (p_k p) gen a' = hsig p gen xs n.
Proof.
  intros CS HG F3. unfold h_sigma, hsig. rewrite F3. set (k := p_k p) in *. set (d := k_dim k).
  replace (INR d + 1 - INR (length (k_fixed k))) with (INR d - INR (length (k_fixed k)) + 1) by ring.
  replace (2 * Z.to_nat (gen + 1))%nat with (2 * (Z.to_nat gen + 1))%nat by lia.
  set (q := 1 - (1 - k_csigma k) ^ (2 * (Z.to_nat gen + 1))). set (t := (1.4 + 2 / (INR d - INR (length (k_fixed k)) + 1)) * k_chi k).
  assert (Q : 0 < q). { assert ((1 - k_csigma k) ^ (2 * (Z.to_nat gen + 1)) < 1); [|unfold q; lra]. apply pow_lt_1_compat; [lra|lia]. }
  assert (SQ : 0 < sqrt q) by (apply sqrt_lt_R0, Q). set (m := norm d (new_psigma p xs n)).
  replace (sqrt q * (1.4 + 2 / (INR d - INR (length (k_fixed k)) + 1)) * k_chi k) with (sqrt q * t) by (unfold t; ring).
  destruct (Rlt_dec (m / sqrt q) t) as [A|A]; destruct (Rlt_dec m (sqrt q * t)) as [B|B]; auto; exfalso.
  - apply B. apply (Rmult_lt_compat_l (sqrt q)) in A; [|exact SQ]. replace (sqrt q * (m / sqrt q)) with m in A by (field; lra). exact A.
  - apply A. apply (Rmult_lt_reg_l (sqrt q)); [exact SQ|]. replace (sqrt q * (m / sqrt q)) with m by (field; lra). exact B.
Qed.
Section Model.
Variables (p : npar) (niter : Z) (xs : list (list R)) (m : num).
Let k := p_k p.
Let n := k_dim k.
Let v := x_v m.
Let d := x_sep m.
Let q := dot n v v.
Let g := 1 + q.
Hypothesis HV : 0 < q.
Lemma model_alpha : vd_alpha p m = alpha_vd n v.
Proof using HV. rewrite (al_eq n v HV). reflexivity. Qed.
Lemma model_b : vd_b p m = cb n v.
Proof using HV. unfold vd_b, cb. rewrite model_alpha. reflexivity. Qed.
Lemma model_ainv i : vd_ainv p m i = 1 / ca n v i.
Proof using HV. unfold vd_ainv, ca. rewrite model_alpha, model_b. reflexivity. Qed.
Let pv := vd_pvec p niter xs m.
Let qv := vd_qvec p niter xs m.
Lemma model_r i : vd_r p niter xs m i = rv n v pv qv i.
Proof using HV. unfold vd_r, rv. rewrite model_alpha. reflexivity. Qed.
Lemma model_abb w : dot n (fun i => vd_ainv p m i * vbb n v i) w = dot n (fun i => 1 / ca n v i * vbb n v i) w.
Proof using HV. apply dot_ext; auto. intros. rewrite model_ainv. reflexivity. Qed.
Lemma model_s i : vd_s p niter xs m i = sv n v pv qv i.
Proof using HV.
  unfold vd_s, sv. rewrite model_b, model_r, model_ainv.
  change (fun i => vd_ainv p m i * (x_v m i / sqrt (dot (k_dim (p_k p)) (x_v m) (x_v m)) * (x_v m i / sqrt (dot (k_dim (p_k p)) (x_v m) (x_v m))))) with (fun i => vd_ainv p m i * vbb n v i).
  change (fun i => x_v m i / sqrt (dot (k_dim (p_k p)) (x_v m) (x_v m)) * (x_v m i / sqrt (dot (k_dim (p_k p)) (x_v m) (x_v m)))) with (vbb n v).
  fold k n. rewrite !model_abb. rewrite (dot_ext n _ (fun i => 1 / ca n v i * vbb n v i) (vd_r p niter xs m) (rv n v pv qv)) by (auto; intros; apply model_r). reflexivity.
Qed.
Lemma model_ngv i : vd_ngv p niter xs m i = uv n v pv qv i.
Proof using HV.
  unfold vd_ngv, uv. rewrite model_alpha, model_s.
  change (fun i => x_v m i / sqrt (dot (k_dim (p_k p)) (x_v m) (x_v m)) * (x_v m i / sqrt (dot (k_dim (p_k p)) (x_v m) (x_v m)))) with (vbb n v).
  fold k n. rewrite (dot_ext n (vd_s p niter xs m) (sv n v pv qv) (vbb n v) (vbb n v)) by (auto; intros; apply model_s). reflexivity.
Qed.
(** The gradients. *)
Hypothesis HD : forall i, (i < n)%nat -> d i <> 0.
Variable ki : mat.
Hypothesis HK : inverse n ki (vd_matrix d v).
Lemma vb_over z : dot n v (over d z) = sqrt q * dot n (vb n v) (over d z).
Proof using HV. apply (dot_v n v HV). Qed.
Lemma single_d z l : (l < n)%nat -> score n ki z (wrt_d d v l) = 1 / d l * vd_p p m (over d z) l.
Proof using HV HD HK.
  intros Hl. rewrite (score_d n d v HD ki HK z l Hl). f_equal. unfold vd_p. fold k n. change (x_v m) with v. fold q. change (fun i => v i / sqrt q) with (vb n v). fold g.
  pose proof (r_pos n v HV) as R0. fold q in R0. pose proof (r_sq n v HV) as RR. fold q in RR. cbv beta. change (v l / sqrt q) with (vb n v l). rewrite vb_over, (v_vb n v HV l). fold q. set (r := sqrt q) in *. rewrite <- RR. unfold Rdiv. ring.
Qed.
Lemma single_v z l : (l < n)%nat -> score n ki z (wrt_v d v l) = sqrt q / g * (vd_q p m (over d z) l + (1 - q) / g * dot n (vb n v) (vd_q p m (over d z)) * vb n v l).
Proof using HV HD HK.
  intros Hl. rewrite (score_v n d v HD ki HK z l Hl). pose proof (r_pos n v HV) as R0. fold q in R0. pose proof (r_sq n v HV) as RR. fold q in RR.
  set (c := dot n (vb n v) (over d z)).
  assert (Q1 : forall i, vd_q p m (over d z) i = over d z i * c - 1 / 2 * vb n v i * (c * c + g)) by reflexivity.
  assert (Q2 : dot n (vb n v) (vd_q p m (over d z)) = 1 / 2 * (c * c - g)).
  { unfold dot. rewrite (rsum_ext n _ (fun i => c * (vb n v i * over d z i) - 1 / 2 * (c * c + g) * (vb n v i * vb n v i))) by (intros; rewrite Q1; ring).
    rewrite rsum_minus, !rsum_scal. fold (dot n (vb n v) (over d z)) c. fold (dot n (vb n v) (vb n v)). rewrite (vb_one n v HV). field. }
  rewrite Q1, Q2, vb_over. fold c. rewrite (v_vb n v HV l). fold q. fold q g. set (r := sqrt q) in *. unfold g in *. rewrite <- RR. field. nra.
Qed.
End Model.
Section Gen.
Variables (p : npar) (niter : Z) (xs : list (list R)) (m : num) (a a' : dist).
Let k := p_k p.
Let n := k_dim k.
Let v := x_v m.
Let d := x_sep m.
Hypothesis HV : 0 < dot n v v.
Hypothesis HD : forall i, (i < n)%nat -> d i <> 0.
Variable ki : mat.
Hypothesis HK : inverse n ki (vd_matrix d v).
Hypothesis E1 : d_mean a = x_mean m.
Hypothesis E2 : d_sigma a = x_sigma m.
Hypothesis HS : 0 < x_sigma m.
Hypothesis F3 : h_sigma k niter a' = hsig p niter xs m.
Hypothesis F4 : d_pc a' = new_pc p niter xs m.
Lemma over_point l i : over d (y_point xs a l) i = vd_y xs m l i.
Proof using E1 E2 HS. unfold over, y_point, vd_y. fold d. rewrite E1, E2. unfold pt, at0. unfold Rdiv. ring. Qed.
Lemma over_path i : over d (d_pc a') i = vd_ym p niter xs m i.
Proof using F4. unfold over, vd_ym. rewrite F4. fold d. unfold Rdiv. ring. Qed.
Lemma vdp_ext y y' l : (l < n)%nat -> (forall i, (i < n)%nat -> y i = y' i) -> vd_p p m y l = vd_p p m y' l.
Proof using Type. intros Hl H. unfold vd_p. fold k n. set (b := fun i => x_v m i / sqrt (dot n (x_v m) (x_v m))). rewrite (dot_ext n b b y y') by auto. rewrite (H l Hl). reflexivity. Qed.
Lemma vdq_ext y y' l : (l < n)%nat -> (forall i, (i < n)%nat -> y i = y' i) -> vd_q p m y l = vd_q p m y' l.
Proof using Type. intros Hl H. unfold vd_q. fold k n. set (b := fun i => x_v m i / sqrt (dot n (x_v m) (x_v m))). rewrite (dot_ext n b b y y') by auto. rewrite (H l Hl). reflexivity. Qed.
Lemma grad_d l : (l < n)%nat -> weighted_score k niter xs a a' ki (wrt_d d v l) = 1 / d l * vd_pvec p niter xs m l.
Proof using HV HD HK E1 E2 HS F3 F4.
  intros Hl. unfold weighted_score, vd_pvec, vd_mix. fold n k. rewrite F3. rewrite (single_d p m HV HD ki HK _ l Hl), (vdp_ext _ (vd_ym p niter xs m) l Hl) by (intros; apply over_path).
  rewrite (rsum_ext (k_mu k) _ (fun j => 1 / d l * (wgt p j * vd_p p m (vd_y xs m j) l))).
  - rewrite rsum_scal. fold d. ring.
  - intros j _. rewrite (single_d p m HV HD ki HK _ l Hl), (vdp_ext _ (vd_y xs m j) l Hl) by (intros; apply over_point). unfold wgt. fold k d. ring.
Qed.
Lemma grad_v l : (l < n)%nat -> let q := dot n v v in weighted_score k niter xs a a' ki (wrt_v d v l) = sqrt q / (1 + q) * (vd_qvec p niter xs m l + (1 - q) / (1 + q) * dot n (vb n v) (vd_qvec p niter xs m) * vb n v l).
Proof using HV HD HK E1 E2 HS F3 F4.
  intros Hl q. assert (G : 0 < 1 + q) by (unfold q; lra).
  assert (S : forall z y, (forall i, over d z i = y i) -> score n ki z (wrt_v d v l) = sqrt q / (1 + q) * (vd_q p m y l + (1 - q) / (1 + q) * dot n (vb n v) (vd_q p m y) * vb n v l)).
  { intros z y H. pose proof (single_v p m HV HD ki HK z l Hl) as X. change (x_v m) with v in X. change (x_sep m) with d in X. fold k n in X. fold q in X. rewrite X. rewrite (vdq_ext (over d z) y l Hl) by auto.
    rewrite (dot_ext n (vb n v) (vb n v) (vd_q p m (over d z)) (vd_q p m y)); [reflexivity|auto|]. intros i Hi. apply vdq_ext; auto. }
  assert (Q : dot n (vb n v) (vd_qvec p niter xs m) = k_cmu k * rsum (k_mu k) (fun j => wgt p j * dot n (vb n v) (vd_q p m (vd_y xs m j))) + hsig p niter xs m * (k_c1 k * dot n (vb n v) (vd_q p m (vd_ym p niter xs m)))).
  { unfold vd_qvec, vd_mix. fold k. rewrite dot_plus_r, !dot_scal_r. f_equal. f_equal. unfold dot. rewrite (rsum_ext n _ (fun i => rsum (k_mu k) (fun l => wgt p l * (vb n v i * vd_q p m (vd_y xs m l) i)))) by (intros; rewrite <- rsum_scal; apply rsum_ext; intros; ring).
    rewrite rsum_swap. apply rsum_ext. intros. apply rsum_scal. }
  unfold weighted_score. fold n k. rewrite F3. rewrite (S _ (vd_ym p niter xs m)) by apply over_path.
  rewrite (rsum_ext (k_mu k) _ (fun j => sqrt q / (1 + q) * (wgt p j * vd_q p m (vd_y xs m j) l) + sqrt q / (1 + q) * ((1 - q) / (1 + q)) * vb n v l * (wgt p j * dot n (vb n v) (vd_q p m (vd_y xs m j))))).
  - rewrite rsum_plus, !rsum_scal, Q. unfold vd_qvec, vd_mix. fold k. ring.
  - intros j _. rewrite (S _ (vd_y xs m j)) by apply over_point. unfold wgt. fold k. ring.
Qed.
Lemma natural_thm : natural_step n ki d v (alpha_vd n v) (fun l => weighted_score k niter xs a a' ki (wrt_v d v l)) (fun l => weighted_score k niter xs a a' ki (wrt_d d v l)) (vd_ngv p niter xs m) (fun i => d i * vd_s p niter xs m i).
Proof using HV HD HK E1 E2 HS F3 F4.
  intros l Hl. set (pv := vd_pvec p niter xs m). set (qv := vd_qvec p niter xs m).
  assert (U : forall i, vd_ngv p niter xs m i = uv n v pv qv i) by (intros; apply model_ngv, HV).
  assert (V : forall i, (i < n)%nat -> over d (fun i => d i * vd_s p niter xs m i) i = sv n v pv qv i).
  { intros i Hi. unfold over. rewrite (model_s p niter xs m HV i). unfold pv, qv, n, k, v. field. apply HD, Hi. }
  split.
  - rewrite (fisher_v_line n d v ki HV HD HK _ _ l Hl), (grad_v l Hl). cbv zeta. fold qv. rewrite <- (solve_v n v HV pv qv l Hl).
    unfold line_v. rewrite (dot_ext n v v (vd_ngv p niter xs m) (uv n v pv qv)), (dot_ext n (fun i => v i * v i) (fun i => v i * v i) (over d (fun i => d i * vd_s p niter xs m i)) (sv n v pv qv)), U, (V l Hl) by auto. reflexivity.
  - rewrite (fisher_d_line n d v ki HV HD HK _ _ l Hl), (grad_d l Hl). f_equal. fold pv. rewrite <- (solve_d n v HV pv qv l Hl).
    unfold line_d. rewrite (dot_ext n v v (vd_ngv p niter xs m) (uv n v pv qv)), (dot_ext n (fun i => v i * v i) (fun i => v i * v i) (over d (fun i => d i * vd_s p niter xs m i)) (sv n v pv qv)), U, (V l Hl) by auto. reflexivity.
Qed.
End Gen.

(** * The generation *)
Lemma nonzero_dot n v : (exists i, (i < n)%nat /\ v i <> 0) -> 0 < dot n v v.
Proof. intros (i & Hi & V). pose proof (dot_self_nonneg n v) as P. destruct (Req_dec (dot n v v) 0) as [E|E]; [exfalso; apply V, (dot_self_zero n v E i Hi)|lra]. Qed.
Section Run.
Variables (p : npar) (e : env R num) (g : cfg R) (h : list (op R)).
Variables (s0 s1 s2 s3 s4 : st R num) (pop cols phen : list (list R)).
Hypothesis C : constructed_any (p_k p).
Hypothesis HU : p_upd p = Vd.
Hypothesis HVd : k_vd (p_k p) = true.
Hypothesis HN : g_uh g = false.
Hypothesis H0 : started p e g s0.
Hypothesis HI : Forall iteration h.
Hypothesis HR : run_ops (cma_num p) e g h s0 = Ok s1.
Hypothesis HA : ask (cma_num p) e g s1 = Ok (pop, s2).
Hypothesis HE : eval (cma_num p) e g cols phen s2 = Ok s3.
Hypothesis HT : tell (cma_num p) e g s3 = Ok s4.
Let n := k_dim (p_k p).
Let xs := map c_x (s_cands (t_sol s4)).
Let gen := s_niter (t_sol s1).
Lemma vd_gen : exists m, x_v m = v_of s1 /\ x_sep m = D_of s1 /\ x_mean m = d_mean (dist_of p s1) /\ x_sigma m = d_sigma (dist_of p s1) /\ 0 < x_sigma m /\
  h_sigma (p_k p) gen (dist_of p s4) = hsig p gen xs m /\ d_pc (dist_of p s4) = new_pc p gen xs m /\ v_of s4 = new_v p gen xs m /\ D_of s4 = new_vd_sep p gen xs m.
Proof using C HU HN H0 HI HR HA HE HT.
  destruct (any_basics _ C) as (B1 & B2 & B3).
  assert (NN : (0 <= gen)%Z). { eapply niter_nonneg; eauto. }
  assert (SP : 0 < sigma_of s1) by (apply (sigma_positive p B1 B2 e g h s0 s1 H0 HR)).
  destruct (gen_update p e g s1 pop s2 cols phen s3 s4 HN HA HE HT) as (m & Q & G). cbv zeta in G. destruct G as (G1 & G2 & G3 & G4 & G5 & G6 & G7 & G8 & G9 & G10).
  fold xs gen in Q. exists m. unfold v_of, D_of. rewrite Q. cbn [update_num x_v x_sep]. rewrite HU.
  do 2 (split; [assumption|]). split; [rewrite G1; reflexivity|]. split; [rewrite G2; reflexivity|]. split; [rewrite G2; exact SP|].
  split; [apply h_eq; auto; unfold dist_of; rewrite Q; reflexivity|]. split; [unfold dist_of; rewrite Q; reflexivity|]. split; reflexivity.
Qed.
Lemma vd_natural ki : (exists i, (i < n)%nat /\ v_of s1 i <> 0) -> (forall i, (i < n)%nat -> D_of s1 i <> 0) -> inverse n ki (d_cov (dist_of p s1)) -> 0 < vd_rate p s1 s4 ->
  natural_step n ki (D_of s1) (v_of s1) (alpha_vd n (v_of s1))
    (fun l => weighted_score (p_k p) gen xs (dist_of p s1) (dist_of p s4) ki (wrt_v (D_of s1) (v_of s1) l))
    (fun l => weighted_score (p_k p) gen xs (dist_of p s1) (dist_of p s4) ki (wrt_d (D_of s1) (v_of s1) l))
    (fun l => v_of s4 l - v_of s1 l) (fun l => D_of s4 l - D_of s1 l).
Proof using C HU HVd HN H0 HI HR HA HE HT.
  intros NV ND IK RT. destruct vd_gen as (m & M1 & M2 & M3 & M4 & M5 & M6 & M7 & M8 & M9).
  assert (V0 : 0 < dot n (v_of s1) (v_of s1)) by (apply nonzero_dot, NV).
  assert (CV : d_cov (dist_of p s1) = vd_matrix (D_of s1) (v_of s1)). { unfold dist_of, full_cov. cbn [d_cov]. rewrite HVd, orb_true_r. reflexivity. }
  rewrite CV in IK. rewrite <- M1, <- M2 in *.
  assert (T : vd_test p gen xs m = true). { unfold vd_test. unfold vd_rate in RT. fold gen in RT. rewrite M6 in RT. destruct (Rlt_dec _ _); [reflexivity|contradiction]. }
  pose proof (natural_thm p gen xs m (dist_of p s1) (dist_of p s4) V0 ND ki IK (eq_sym M3) (eq_sym M4) M5 M6 M7) as N.
  intros l Hl. specialize (N l Hl). fold n in N.
  assert (X1 : (fun l => v_of s4 l - x_v m l) = vd_ngv p gen xs m). { apply FunctionalExtensionality.functional_extensionality. intros i. rewrite M8. unfold new_v. rewrite T. ring. }
  assert (X2 : (fun l => D_of s4 l - x_sep m l) = fun i => x_sep m i * vd_s p gen xs m i). { apply FunctionalExtensionality.functional_extensionality. intros i. rewrite M9. unfold new_vd_sep. rewrite T. ring. }
  rewrite X1, X2. exact N.
Qed.
Lemma vd_frozen : vd_rate p s1 s4 <= 0 -> v_of s4 = v_of s1 /\ D_of s4 = D_of s1.
Proof using C HU HN H0 HI HR HA HE HT.
  intros RT. destruct vd_gen as (m & M1 & M2 & M3 & M4 & M5 & M6 & M7 & M8 & M9).
  assert (T : vd_test p gen xs m = false). { unfold vd_test. unfold vd_rate in RT. fold gen in RT. rewrite M6 in RT. destruct (Rlt_dec _ _); [lra|reflexivity]. }
  rewrite M8, M9. unfold new_v, new_vd_sep. rewrite T. auto.
Qed.
End Run.
Lemma vd_natural_thm p e g h s0 s1 pop s2 cols phen s3 s4 ki :
  constructed_any (p_k p) -> p_upd p = Vd -> k_vd (p_k p) = true -> g_uh g = false -> started p e g s0 -> Forall iteration h -> run_ops (cma_num p) e g h s0 = Ok s1 ->
  ask (cma_num p) e g s1 = Ok (pop, s2) -> eval (cma_num p) e g cols phen s2 = Ok s3 -> tell (cma_num p) e g s3 = Ok s4 ->
  let n := k_dim (p_k p) in let d := D_of s1 in let v := v_of s1 in
  (exists i, (i < n)%nat /\ v i <> 0) -> (forall i, (i < n)%nat -> d i <> 0) -> inverse n ki (d_cov (dist_of p s1)) -> 0 < vd_rate p s1 s4 ->
  let grad := weighted_score (p_k p) (s_niter (t_sol s1)) (map c_x (s_cands (t_sol s4))) (dist_of p s1) (dist_of p s4) ki in
  let step := natural_step n ki d v (alpha_vd n v) (fun l => grad (wrt_v d v l)) (fun l => grad (wrt_d d v l)) in
  step (fun l => v_of s4 l - v l) (fun l => D_of s4 l - d l) /\
  forall sv sd, step sv sd -> forall l, (l < n)%nat -> v_of s4 l = v l + sv l /\ D_of s4 l = d l + sd l.
Proof.
  intros C U V N S I R A E T n d v NV ND IK RT grad step.
  assert (H : step (fun l => v_of s4 l - v l) (fun l => D_of s4 l - d l)) by (apply (vd_natural p e g h s0 s1 s2 s3 s4 pop cols phen); assumption).
  split; [exact H|]. intros sv sd HS l Hl.
  assert (CV : d_cov (dist_of p s1) = vd_matrix d v). { unfold dist_of, full_cov. cbn [d_cov]. rewrite V, orb_true_r. reflexivity. } rewrite CV in IK.
  destruct (step_unique n d v ki (nonzero_dot n v NV) ND IK _ _ _ _ _ _ H HS l Hl). split; lra.
Qed.
Lemma vd_ascent_thm p e g h s0 s1 pop s2 cols phen s3 s4 ki :
  constructed_any (p_k p) -> p_upd p = Vd -> k_vd (p_k p) = true -> g_uh g = false -> started p e g s0 -> Forall iteration h -> run_ops (cma_num p) e g h s0 = Ok s1 ->
  ask (cma_num p) e g s1 = Ok (pop, s2) -> eval (cma_num p) e g cols phen s2 = Ok s3 -> tell (cma_num p) e g s3 = Ok s4 ->
  let n := k_dim (p_k p) in let d := D_of s1 in let v := v_of s1 in
  (exists i, (i < n)%nat /\ v i <> 0) -> (forall i, (i < n)%nat -> d i <> 0) -> inverse n ki (d_cov (dist_of p s1)) -> 0 < vd_rate p s1 s4 ->
  let grad := weighted_score (p_k p) (s_niter (t_sol s1)) (map c_x (s_cands (t_sol s4))) (dist_of p s1) (dist_of p s4) ki in
  (exists i, (i < n)%nat /\ (v_of s4 i <> v i \/ D_of s4 i <> d i)) ->
  0 < rsum n (fun l => (v_of s4 l - v l) * grad (wrt_v d v l)) + rsum n (fun l => (D_of s4 l - d l) * grad (wrt_d d v l)).
Proof.
  intros C U V N S I R A E T n d v NV ND IK RT grad (i & Hi & M).
  pose proof (vd_natural p e g h s0 s1 s2 s3 s4 pop cols phen C U V N S I R A E T ki NV ND IK RT) as H.
  assert (CV : d_cov (dist_of p s1) = vd_matrix d v). { unfold dist_of, full_cov. cbn [d_cov]. rewrite V, orb_true_r. reflexivity. } rewrite CV in IK.
  pose proof (fisher_definite n d v ki (nonzero_dot n v NV) ND IK (fun l => v_of s4 l - v l) (fun l => D_of s4 l - d l)) as P.
  eapply Rlt_le_trans; [apply P; exists i; split; [exact Hi|]; destruct M; [left|right]; lra|]. right. unfold dot. f_equal; apply rsum_ext; intros l Hl; f_equal; [exact (proj1 (H l Hl))|exact (proj2 (H l Hl))].
Qed.
(** The weight. *)
Lemma alpha_thm n v : (exists i, (i < n)%nat /\ v i <> 0) -> 0 < alpha_vd n v <= 1 /\
  ((2 + dot n v v) * (2 + dot n v v) <= dot n v v * dot n v v + (2 - 1 / sqrt (1 + dot n v v)) * (1 + dot n v v) * dot n v v / vmax n (fun i => v i * v i) -> alpha_vd n v = 1).
Proof.
  intros H. apply nonzero_dot in H. split; [apply (al_pos n v H)|]. intros L. apply (al_one n v H). rewrite (mx_eq n v H) in L.
  replace ((2 - 1 / sqrt (1 + dot n v v)) * (1 + dot n v v) * dot n v v / (dot n v v * vmax n (vbb n v))) with ((2 - 1 / sqrt (1 + dot n v v)) * (1 + dot n v v) / vmax n (vbb n v)) in L; [exact L|].
  pose proof (mx_pos n v H) as M. pose proof (sg n v H). field. repeat split; lra.
Qed.
Lemma definite_thm n d v ki u sd : (exists i, (i < n)%nat /\ v i <> 0) -> (forall i, (i < n)%nat -> d i <> 0) -> inverse n ki (vd_matrix d v) -> (exists i, (i < n)%nat /\ (u i <> 0 \/ sd i <> 0)) ->
  0 < rsum n (fun l => u l * fisher_v n ki d v (alpha_vd n v) u sd l) + rsum n (fun l => sd l * fisher_d n ki d v (alpha_vd n v) u sd l).
Proof. intros V D K H. exact (fisher_definite n d v ki (nonzero_dot n v V) D K u sd H). Qed.
Lemma vd_inverse_thm n d v : (forall i, (i < n)%nat -> d i <> 0) -> exists ki, inverse n ki (vd_matrix d v) /\
  forall z, quad n ki z = let y := fun i => z i / d i in dot n y y - dot n v y * dot n v y / (1 + dot n v v).
Proof. intros D. exists (kinv n d v). split; [apply kinv_inverse, D|]. intros z. apply (mahalanobis n d v D (kinv n d v) (kinv_inverse n d v D) z). Qed.
