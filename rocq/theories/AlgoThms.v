(** Theorem forms for C82. *)
From Coq Require Import Reals List Lia Lra Psatz ZArith Permutation.
From Verif Require Import Base Dbl Vec VecProofs Params SpecParams ParamsProofs AdaptProofs ParamSound Config Search SpecSearch SpecSafe SearchInv StopProofs SearchThms CounterProofs Update SpecUpdate UpdateProofs UpdateProofs2 CorrProofs ActiveProofs ActiveThms NumThms SampleProofs SampleThms TpaThms Corr SpecAlgo AlgoProofs.
Import ListNotations.
Local Open Scope R_scope.

Lemma op_inv_sp p dec : op_inv_sqrt p dec = sp (k_dim (p_k p)) dec (fun l => sqrt (1 / fst dec l)).
Proof. reflexivity. Qed.
Lemma dist_sigma_pos p e g h s0 s : constructed (p_k p) -> started p e g s0 -> run_ops (cma_num p) e g h s0 = Ok s -> 0 < sigma_of s.
Proof. intros C H0 R. pose proof (constructed_sound _ C) as (D & _ & _ & AL). apply (sigma_positive p D AL e g h s0 s H0 R). Qed.

Lemma full_step p e g h s0 s1 pop s2 cols phen s3 s4 :
  constructed (p_k p) -> p_upd p = Full -> k_sep (p_k p) = false -> p_lazy p = false -> eigensolver_ok p -> k_c1 (p_k p) + k_cmu (p_k p) < 1 -> (k_tpa (p_k p) < 2)%Z -> g_uh g = false ->
  started p e g s0 -> Forall iteration h -> run_ops (cma_num p) e g h s0 = Ok s1 ->
  ask (cma_num p) e g s1 = Ok (pop, s2) -> eval (cma_num p) e g cols phen s2 = Ok s3 -> tell (cma_num p) e g s3 = Ok s4 ->
  exists b, inverse_root (k_dim (p_k p)) b (d_cov (dist_of p s1)) /\
    cma_step (p_k p) (s_niter (t_sol s1)) (map c_x (s_cands (t_sol s4))) b (dist_of p s1) (dist_of p s4).
Proof.
  intros C F S L E R T U H0 W H HA HE HT. pose proof (constructed_vd _ C) as V.
  assert (NN : (0 <= s_niter (t_sol s1))%Z) by (eapply niter_nonneg; eauto).
  assert (SP : 0 < sigma_of s1) by (eapply dist_sigma_pos; eauto).
  destruct (gen_update p e g s1 pop s2 cols phen s3 s4 U HA HE HT) as (n & Q & G). cbv zeta in G. destruct G as (G1 & G2 & G3 & G4 & G5 & G6 & G7 & G8 & G9 & G10).
  set (xs := map c_x (s_cands (t_sol s4))) in *. set (gen := s_niter (t_sol s1)) in *.
  destruct (cov_psd_thm p e g h s0 s1 C F H0 H) as [SY _]. pose proof (cov_pd_thm p e g h s0 s1 C F R H0 H) as PD.
  assert (EN : eigen_num p (t_niter s1) (s_num (t_sol s1)) = with_solver (s_num (t_sol s1)) true (t_niter s1) (x_mean (s_num (t_sol s1))) (p_eig p (mtab (k_dim (p_k p)) (cov_of s1)))).
  { unfold eigen_num. rewrite S, V, L. cbn [orb negb]. rewrite orb_true_r. reflexivity. }
  rewrite EN in G9, G10. cbn [with_solver x_fresh x_dec] in G9, G10. pose proof (E _ SY) as DG. rewrite <- G10 in DG.
  assert (EVP : forall l, (l < k_dim (p_k p))%nat -> 0 < fst (x_dec n) l) by (intros; apply (diag_ev_pos _ _ _ DG); auto).
  exists (op_inv_sqrt p (x_dec n)).
  assert (CV : forall s, d_cov (dist_of p s) = cov_of s). { intros s. unfold dist_of, full_cov. cbn [d_cov]. rewrite S, V. reflexivity. }
  rewrite CV. split; [rewrite op_inv_sp; apply sp_inverse_root; auto|].
  assert (XS : 0 < x_sigma n) by (rewrite G2; exact SP).
  assert (E1 : d_mean (dist_of p s1) = x_mean n) by (rewrite G1; reflexivity).
  assert (E2 : d_sigma (dist_of p s1) = x_sigma n) by (rewrite G2; reflexivity).
  assert (E3 : d_ps (dist_of p s1) = x_psigma n) by (rewrite G6; reflexivity).
  assert (E4 : d_pc (dist_of p s1) = x_pc n) by (rewrite G7; reflexivity).
  assert (F1 : d_mean (dist_of p s4) = new_mean p xs n) by (unfold dist_of; rewrite Q; reflexivity).
  assert (F2 : d_sigma (dist_of p s4) = new_sigma p gen xs n) by (unfold dist_of; rewrite Q; reflexivity).
  assert (F3 : d_ps (dist_of p s4) = new_psigma p xs n) by (unfold dist_of; rewrite Q; reflexivity).
  assert (F4 : d_pc (dist_of p s4) = new_pc p gen xs n) by (unfold dist_of; rewrite Q; reflexivity).
  destruct (constructed_norm _ C) as (_ & _ & N1 & N2). specialize (N2 S). cbv zeta in N1, N2.
  split; [eapply rule_mean; eauto|]. split; [|split; [|split]].
  - eapply rule_ps; eauto. intros i Hi. rewrite F, S. unfold new_csqinv. rewrite G9, S. reflexivity.
  - eapply rule_pc; eauto. rewrite N2. exact N1.
  - intros i j Hi Hj. rewrite CV. unfold cov_of. rewrite Q. cbn [x_cov update_num]. rewrite F, S. symmetry. eapply rule_entry; eauto. rewrite CV, G3. reflexivity.
  - eapply rule_sigma; eauto. rewrite F. discriminate.
Qed.

(** * Separable *)
Lemma diag_inverse_root n v : (forall i, (i < n)%nat -> 0 < v i) -> inverse_root n (diag (fun i => sqrt (1 / v i))) (diag v).
Proof.
  intros H. split; [|split].
  - intros i j _ _. unfold diag. rewrite (Nat.eqb_sym j i). destruct (Nat.eqb_spec i j) as [->|]; reflexivity.
  - apply diag_pd. intros i Hi. apply sqrt_lt_R0, Rdiv_lt_0_compat; [lra|auto].
  - intros i j Hi Hj. rewrite (rsum_single n _ i Hi).
    + rewrite (rsum_single n _ i Hi).
      * unfold diag. rewrite !Nat.eqb_refl. destruct (Nat.eqb i j); [|ring].
        replace (sqrt (1 / v i) * v i * sqrt (1 / v i)) with (sqrt (1 / v i) * sqrt (1 / v i) * v i) by ring.
        pose proof (H i Hi). rewrite sqrt_sqrt by (left; apply Rdiv_lt_0_compat; lra). field. lra.
      * intros m _ N. unfold diag. destruct (Nat.eqb_spec i m); [congruence|ring].
    + intros l _ N. rewrite (rsum_ext n _ (fun _ => 0)); [apply rsum_0|]. intros m _. unfold diag. destruct (Nat.eqb_spec i l); [congruence|ring].
Qed.
Lemma sep_step_thm p e g x0 n0 h s0 s1 pop s2 cols phen s3 s4 :
  constructed (p_k p) -> p_upd p = Full -> k_sep (p_k p) = true -> k_vd (p_k p) = false -> k_c1 (p_k p) + k_cmu (p_k p) < 1 -> (k_tpa (p_k p) < 2)%Z -> g_uh g = false ->
  st_new (cma_num p) g x0 n0 = Ok s0 -> Forall iteration h -> run_ops (cma_num p) e g h s0 = Ok s1 ->
  ask (cma_num p) e g s1 = Ok (pop, s2) -> eval (cma_num p) e g cols phen s2 = Ok s3 -> tell (cma_num p) e g s3 = Ok s4 ->
  exists b, inverse_root (k_dim (p_k p)) b (d_cov (dist_of p s1)) /\
    sep_step (p_k p) (s_niter (t_sol s1)) (map c_x (s_cands (t_sol s4))) b (default_cc (p_k p)) (dist_of p s1) (dist_of p s4).
Proof.
  intros C F S V R T U N0 W H HA HE HT.
  assert (H0 : started p e g s0) by (econstructor; exact N0).
  assert (NN : (0 <= s_niter (t_sol s1))%Z) by (eapply niter_nonneg; eauto).
  assert (SP : 0 < sigma_of s1) by (eapply dist_sigma_pos; eauto).
  pose proof (sep_pos_thm p e g h x0 n0 s0 s1 C F R N0 H) as VP.
  destruct (gen_update p e g s1 pop s2 cols phen s3 s4 U HA HE HT) as (n & Q & G). cbv zeta in G. destruct G as (G1 & G2 & G3 & G4 & G5 & G6 & G7 & G8 & G9 & G10).
  set (xs := map c_x (s_cands (t_sol s4))) in *. set (gen := s_niter (t_sol s1)) in *.
  assert (CV : forall s, d_cov (dist_of p s) = diag (x_sep (s_num (t_sol s)))). { intros s. unfold dist_of, full_cov. cbn [d_cov]. rewrite S, V. reflexivity. }
  exists (diag (fun i => sqrt (1 / x_sep (s_num (t_sol s1)) i))).
  rewrite CV. split; [apply diag_inverse_root; intros; apply VP|].
  assert (XS : 0 < x_sigma n) by (rewrite G2; exact SP).
  assert (E1 : d_mean (dist_of p s1) = x_mean n) by (rewrite G1; reflexivity).
  assert (E2 : d_sigma (dist_of p s1) = x_sigma n) by (rewrite G2; reflexivity).
  assert (E3 : d_ps (dist_of p s1) = x_psigma n) by (rewrite G6; reflexivity).
  assert (E4 : d_pc (dist_of p s1) = x_pc n) by (rewrite G7; reflexivity).
  assert (F1 : d_mean (dist_of p s4) = new_mean p xs n) by (unfold dist_of; rewrite Q; reflexivity).
  assert (F2 : d_sigma (dist_of p s4) = new_sigma p gen xs n) by (unfold dist_of; rewrite Q; reflexivity).
  assert (F3 : d_ps (dist_of p s4) = new_psigma p xs n) by (unfold dist_of; rewrite Q; reflexivity).
  assert (F4 : d_pc (dist_of p s4) = new_pc p gen xs n) by (unfold dist_of; rewrite Q; reflexivity).
  destruct (constructed_norm _ C) as (M & _ & N1 & _). cbv zeta in N1.
  split; [eapply rule_mean; eauto|]. split; [|split; [|split]].
  - eapply rule_ps; eauto. intros i Hi. rewrite F, S, mv_diag by exact Hi. rewrite G4. reflexivity.
  - eapply rule_pc; eauto. rewrite N1. unfold default_cc. rewrite <- M. reflexivity.
  - intros i j Hi Hj. rewrite CV. rewrite Q. cbn [x_sep update_num]. rewrite F, S. unfold diag at 1. destruct (Nat.eqb_spec i j) as [->|]; [|reflexivity].
    symmetry. eapply rule_entry_sep; eauto. rewrite CV, G4. unfold diag. rewrite Nat.eqb_refl. reflexivity.
  - eapply rule_sigma; eauto. rewrite F. discriminate.
Qed.

(** * Active *)
Lemma vmax_at m u : (1 <= m)%nat -> exists i, (i < m)%nat /\ vmax m u = u i.
Proof.
  induction m as [|m IH]; intros H; [lia|]. destruct m as [|m]; [exists 0%nat; split; [lia|reflexivity]|].
  change (vmax (S (S m)) u) with (Rmax (vmax (S m) u) (u (S m))). destruct (IH ltac:(lia)) as (i & Hi & E).
  destruct (Rle_dec (vmax (S m) u) (u (S m))) as [L|L].
  - exists (S m). split; [lia|apply Rmax_right, L].
  - exists i. split; [lia|]. rewrite Rmax_left by lra. exact E.
Qed.
Section Minus.
Variable p : npar.
Let k := p_k p.
Let d := k_dim k.
Variables (xs : list (list R)) (n : num) (a : dist).
Hypothesis HC : constructed k.
Hypothesis E1 : d_mean a = x_mean n.
Hypothesis E2 : d_sigma a = x_sigma n.
Hypothesis E3 : d_cov a = x_cov n.
Hypothesis HS0 : 0 < x_sigma n.
Hypothesis HE : eigensolver_ok p.
Hypothesis HSep : k_sep k = false.
Hypothesis HR : k_cmu k < 1.
Hypothesis FR : x_fresh n = true.
Hypothesis DG : diagonalises d (x_cov n) (x_dec n).
Hypothesis PD : pos_def d (x_cov n).
Let b := op_inv_sqrt p (x_dec n).
Let W := spread p (worst_of p xs) n.
Let M := mm d (mm d b W) b.
Let t := vmax d (fst (p_eig p (mtab d M))).
Lemma b_root : inverse_root d b (x_cov n).
Proof using DG PD. unfold b. rewrite op_inv_sp. apply sp_inverse_root; auto. intros. apply (diag_ev_pos _ _ _ DG); auto. Qed.
Lemma b_unit x : quad d (x_cov n) (mv d b x) = dot d x x.
Proof using DG PD.
  destruct b_root as (S & _ & I). rewrite <- quad_sandwich by exact S. rewrite <- quad_ident. apply quad_ext. intros i j Hi Hj.
  unfold ident, diag. rewrite <- (I i j Hi Hj). unfold mm.
  rewrite (rsum_ext d _ (fun m => rsum d (fun l => b i l * x_cov n l m * b m j))) by (intros; rewrite <- rsum_scal_r; reflexivity).
  apply rsum_swap.
Qed.
Lemma DM : diagonalises d M (p_eig p (mtab d M)).
Proof using HE. apply HE. apply mm_sym; [apply inv_sqrt_sym|intros i j _ _; apply spread_sym]. Qed.
Lemma little_iff c : 0 <= c -> (removes_little k xs a c <-> c * t <= 0.34 * (1 - k_cmu k)).
Proof using HC E1 E2 E3 HS0 HE HR DG PD.
  intros Hc. pose proof (constructed_sound _ HC) as HSd. assert (QW : forall u, quad d (rank_minus k xs a) u = quad d W u).
  { intros u. apply quad_ext. intros i j _ _. apply rule_minus; assumption. }
  unfold removes_little. fold d. rewrite E3. split.
  - intros H. destruct (vmax_at d (fst (p_eig p (mtab d M))) (proj1 HSd)) as (m & Hm & Em). fold t in Em.
    pose (x := fun i => rsum d (fun l => snd (p_eig p (mtab d M)) i l * (if Nat.eqb l m then 1 else 0))).
    assert (T : forall l, (l < d)%nat -> tr d (snd (p_eig p (mtab d M))) x l = if Nat.eqb l m then 1 else 0) by (intros; apply (tr_synth d M _ DM (fun l => if Nat.eqb l m then 1 else 0)); auto).
    specialize (H (mv d b x)). rewrite QW, b_unit in H.
    assert (D : dot d x x = 1).
    { rewrite (parseval d M _ DM). unfold dot. rewrite (rsum_single d _ m Hm); [rewrite (T m Hm), Nat.eqb_refl; ring|].
      intros l Hl N. rewrite (T l Hl). apply Nat.eqb_neq in N. rewrite N. ring. }
    assert (QM : quad d W (mv d b x) = t).
    { rewrite <- quad_sandwich by apply (proj1 b_root). fold M. rewrite (diag_quad d M _ DM), (rsum_single d _ m Hm); [rewrite (T m Hm), Nat.eqb_refl, <- Em; ring|].
      intros l Hl N. rewrite (T l Hl). apply Nat.eqb_neq in N. rewrite N. ring. }
    rewrite QM, D in H. lra.
  - intros H u. rewrite QW. apply Rle_trans with (c * (t * quad d (x_cov n) u)).
    + apply Rmult_le_compat_l; [exact Hc|]. revert u. apply (inv_sqrt_bound p (x_cov n) (x_dec n)); auto. fold k d b M. apply (diag_max d M), DM.
    + rewrite <- Rmult_assoc. apply Rmult_le_compat_r; [apply (pos_def_psd d _ PD)|exact H].
Qed.
Lemma minus_rate_ok : minus_rate k xs a (cminus p xs n).
Proof using HC E1 E2 E3 HS0 HE HSep HR FR DG PD.
  pose proof (constructed_sound _ HC) as HSd. pose proof (constructed_muw _ HC) as MU. destruct (constructed_norm _ HC) as (NM & _).
  assert (ED : cminus_denom p xs n = t). { unfold cminus_denom. fold k d. rewrite HSep. unfold new_csqinv. fold k. rewrite FR, HSep. reflexivity. }
  assert (T0 : 0 <= t). { apply (psd_vmax p M); [exact (proj1 HSd)|exact DM|]. intros y. unfold M. rewrite quad_sandwich by apply (proj1 b_root). apply (spread_psd p HSd), HS0. }
  assert (B0 : 0 <= default_minus k).
  { unfold default_minus. fold d. rewrite <- NM. apply Rmult_le_pos; [lra|]. apply Rmult_le_pos; [fold k in MU; lra|]. left. apply Rinv_0_lt_compat.
    assert (0 < Rpower (INR d + 2) (3 / 2)) by (unfold Rpower; apply exp_pos). fold k in MU. lra. }
  assert (EB : (1 - k_cmu k) * 2 / 8 * (k_muw k / (Rpower (INR d + 2) 1.5 + 2 * k_muw k)) = default_minus k).
  { unfold default_minus. fold d. rewrite <- NM. replace 1.5 with (3 / 2) by lra. unfold Rdiv. ring. }
  assert (CM : cminus p xs n = if Req_EM_T t 0 then default_minus k else Rmin (0.34 * (1 - k_cmu k) / t) (default_minus k)).
  { unfold cminus. fold k d. rewrite ED, EB. destruct (Req_EM_T t 0); auto. f_equal. replace (1 - 0.66) with 0.34 by lra. unfold Rdiv. ring. }
  rewrite CM. destruct (Req_EM_T t 0) as [E|E].
  - split; [lra|]. split; [|intros; lra]. apply little_iff; [exact B0|]. rewrite E. lra.
  - assert (TP : 0 < t) by lra. assert (KP : 0 <= 0.34 * (1 - k_cmu k) / t) by (left; apply Rdiv_lt_0_compat; lra).
    split; [split; [apply Rmin_glb; assumption|apply Rmin_r]|]. split.
    + apply little_iff; [apply Rmin_glb; assumption|].
      apply Rle_trans with (0.34 * (1 - k_cmu k) / t * t); [apply Rmult_le_compat_r; [exact T0|apply Rmin_l]|right; field; lra].
    + intros c [C0 C1] L. apply little_iff in L; [|exact C0]. apply Rmin_glb; [|exact C1].
      apply (Rmult_le_reg_r t); [exact TP|]. replace (0.34 * (1 - k_cmu k) / t * t) with (0.34 * (1 - k_cmu k)) by (field; lra). exact L.
Qed.
End Minus.

Lemma asked_iteration h : forall b, asked b h -> Forall iteration h.
Proof. induction h as [|o h IH]; intros b H; [constructor|]. destruct o; cbn in H; try contradiction; constructor; cbn; auto; first [eapply IH; exact H|eapply IH; exact (proj2 H)]. Qed.
Lemma active_step_thm p e g h s0 s1 pop s2 cols phen s3 s4 :
  constructed (p_k p) -> p_upd p = Active -> k_sep (p_k p) = false -> p_lazy p = false -> eigensolver_ok p -> k_c1 (p_k p) + 0.66 * k_cmu (p_k p) < 0.66 -> (k_tpa (p_k p) < 2)%Z -> g_uh g = false ->
  started p e g s0 -> asked false h -> run_ops (cma_num p) e g h s0 = Ok s1 ->
  ask (cma_num p) e g s1 = Ok (pop, s2) -> eval (cma_num p) e g cols phen s2 = Ok s3 -> tell (cma_num p) e g s3 = Ok s4 ->
  exists b, inverse_root (k_dim (p_k p)) b (d_cov (dist_of p s1)) /\
    active_step (p_k p) (s_niter (t_sol s1)) (map c_x (s_cands (t_sol s4))) b (dist_of p s1) (dist_of p s4).
Proof.
  intros C F S L E R T U H0 W H HA HE HT. pose proof (constructed_vd _ C) as V.
  assert (W' : Forall iteration h) by (eapply asked_iteration; exact W).
  assert (NN : (0 <= s_niter (t_sol s1))%Z) by (eapply niter_nonneg; eauto).
  assert (SP : 0 < sigma_of s1) by (eapply dist_sigma_pos; eauto).
  destruct (active_pd_thm p e g h s0 s1 C F S V L E R H0 W H) as [SY PD].
  destruct (gen_update p e g s1 pop s2 cols phen s3 s4 U HA HE HT) as (n & Q & G). cbv zeta in G. destruct G as (G1 & G2 & G3 & G4 & G5 & G6 & G7 & G8 & G9 & G10).
  set (xs := map c_x (s_cands (t_sol s4))) in *. set (gen := s_niter (t_sol s1)) in *.
  assert (EN : eigen_num p (t_niter s1) (s_num (t_sol s1)) = with_solver (s_num (t_sol s1)) true (t_niter s1) (x_mean (s_num (t_sol s1))) (p_eig p (mtab (k_dim (p_k p)) (cov_of s1)))).
  { unfold eigen_num. rewrite S, V, L. cbn [orb negb]. rewrite orb_true_r. reflexivity. }
  rewrite EN in G9, G10. cbn [with_solver x_fresh x_dec] in G9, G10. pose proof (E _ SY) as DG. rewrite <- G10 in DG.
  assert (CV : forall s, d_cov (dist_of p s) = cov_of s). { intros s. unfold dist_of, full_cov. cbn [d_cov]. rewrite S, V. reflexivity. }
  assert (XC : cov_of s1 = x_cov n) by (rewrite G3; reflexivity). rewrite XC in DG, PD.
  exists (op_inv_sqrt p (x_dec n)). rewrite CV, XC. split; [apply b_root; auto|].
  assert (XS : 0 < x_sigma n) by (rewrite G2; exact SP).
  assert (E1 : d_mean (dist_of p s1) = x_mean n) by (rewrite G1; reflexivity).
  assert (E2 : d_sigma (dist_of p s1) = x_sigma n) by (rewrite G2; reflexivity).
  assert (E3 : d_ps (dist_of p s1) = x_psigma n) by (rewrite G6; reflexivity).
  assert (E4 : d_pc (dist_of p s1) = x_pc n) by (rewrite G7; reflexivity).
  assert (F1 : d_mean (dist_of p s4) = new_mean p xs n) by (unfold dist_of; rewrite Q; reflexivity).
  assert (F2 : d_sigma (dist_of p s4) = new_sigma p gen xs n) by (unfold dist_of; rewrite Q; reflexivity).
  assert (F3 : d_ps (dist_of p s4) = new_psigma p xs n) by (unfold dist_of; rewrite Q; reflexivity).
  assert (F4 : d_pc (dist_of p s4) = new_pc p gen xs n) by (unfold dist_of; rewrite Q; reflexivity).
  destruct (constructed_norm _ C) as (_ & _ & N1 & N2). specialize (N2 S). cbv zeta in N1, N2.
  pose proof (constructed_sound _ C) as (_ & (K1 & K2 & K3 & K4 & K5 & K6) & _).
  split; [eapply rule_mean; eauto|]. split; [|split; [|split]].
  - eapply rule_ps; eauto. intros i Hi. rewrite F, S. unfold new_csqinv. rewrite G9, S. reflexivity.
  - eapply rule_pc; eauto. rewrite N2. exact N1.
  - exists (cminus p xs n). split; [apply minus_rate_ok; auto; [rewrite CV; exact XC|lra]|].
    intros i j Hi Hj. rewrite !CV. unfold cov_of at 1. rewrite Q. cbn [x_cov update_num]. rewrite F, S. unfold active_cov.
    rewrite <- (rule_mu p xs n (dist_of p s1) E1 E2 XS), <- (rule_minus p xs n (dist_of p s1) E1 E2 XS). unfold rank_one. rewrite F4, XC.
    replace 0.5 with (1 / 2) by lra. ring.
  - eapply rule_sigma_active; eauto.
Qed.

(** * Active and separable *)
Section SepMinus.
Variable p : npar.
Let k := p_k p.
Let d := k_dim k.
Variables (xs : list (list R)) (n : num) (a : dist).
Hypothesis HC : constructed k.
Hypothesis E1 : d_mean a = x_mean n.
Hypothesis E2 : d_sigma a = x_sigma n.
Hypothesis E3 : d_cov a = diag (x_sep n).
Hypothesis HS0 : 0 < x_sigma n.
Hypothesis HSep : k_sep k = true.
Hypothesis HR : k_cmu k < 1.
Hypothesis VP : forall j, (j < d)%nat -> 0 < x_sep n j.
Let W := spread p (worst_of p xs) n.
Let u := fun i => sqrt (1 / x_sep n i) * (W i i * sqrt (1 / x_sep n i)).
Let t := vmax d u.
Lemma u_eq i : (i < d)%nat -> u i = W i i / x_sep n i.
Proof using VP.
  intros Hi. unfold u. replace (sqrt (1 / x_sep n i) * (W i i * sqrt (1 / x_sep n i))) with (sqrt (1 / x_sep n i) * sqrt (1 / x_sep n i) * W i i) by ring.
  pose proof (VP i Hi). rewrite sqrt_sqrt by (left; apply Rdiv_lt_0_compat; lra). field. lra.
Qed.
Lemma sep_little_iff c : 0 <= c -> (sep_removes_little k xs a c <-> c * t <= 0.34 * (1 - k_cmu k)).
Proof using HC E1 E2 E3 HS0 HR VP.
  intros Hc. pose proof (constructed_sound _ HC) as HSd.
  assert (QW : forall i, rank_minus k xs a i i = W i i) by (intros i; apply rule_minus; assumption).
  unfold sep_removes_little. fold d. rewrite E3. split.
  - intros H. destruct (vmax_at d u (proj1 HSd)) as (m & Hm & Em). fold t in Em. specialize (H m Hm). rewrite QW in H. unfold diag in H. rewrite Nat.eqb_refl in H.
    rewrite Em, u_eq by exact Hm. pose proof (VP m Hm). apply (Rmult_le_reg_r (x_sep n m)); [auto|].
    replace (c * (W m m / x_sep n m) * x_sep n m) with (c * W m m) by (field; lra). exact H.
  - intros H i Hi. rewrite QW. unfold diag. rewrite Nat.eqb_refl. pose proof (VP i Hi) as V. assert (L : u i <= t) by (apply vmax_ge; exact Hi).
    rewrite u_eq in L by exact Hi. apply Rle_trans with (c * (t * x_sep n i)).
    + apply Rmult_le_compat_l; [exact Hc|]. apply (Rmult_le_compat_r (x_sep n i)) in L; [|lra]. replace (W i i / x_sep n i * x_sep n i) with (W i i) in L by (field; lra). exact L.
    + rewrite <- Rmult_assoc. apply Rmult_le_compat_r; [lra|exact H].
Qed.
Lemma sep_minus_rate_ok : sep_minus_rate k xs a (cminus p xs n).
Proof using HC E1 E2 E3 HS0 HSep HR VP.
  pose proof (constructed_sound _ HC) as HSd. pose proof (constructed_muw _ HC) as MU. destruct (constructed_norm _ HC) as (NM & _).
  assert (ED : cminus_denom p xs n = t). { unfold cminus_denom. fold k d. rewrite HSep. reflexivity. }
  assert (T0 : 0 <= t).
  { destruct (vmax_at d u (proj1 HSd)) as (m & Hm & Em). fold t in Em. rewrite Em, u_eq by exact Hm. pose proof (VP m Hm).
    assert (0 <= W m m) by (apply (spread_diag p HSd); exact HS0). apply Rmult_le_pos; [auto|]. left. now apply Rinv_0_lt_compat. }
  assert (B0 : 0 <= default_minus k).
  { unfold default_minus. fold d. rewrite <- NM. apply Rmult_le_pos; [lra|]. apply Rmult_le_pos; [fold k in MU; lra|]. left. apply Rinv_0_lt_compat.
    assert (0 < Rpower (INR d + 2) (3 / 2)) by (unfold Rpower; apply exp_pos). fold k in MU. lra. }
  assert (EB : (1 - k_cmu k) * 2 / 8 * (k_muw k / (Rpower (INR d + 2) 1.5 + 2 * k_muw k)) = default_minus k).
  { unfold default_minus. fold d. rewrite <- NM. replace 1.5 with (3 / 2) by lra. unfold Rdiv. ring. }
  assert (CM : cminus p xs n = if Req_EM_T t 0 then default_minus k else Rmin (0.34 * (1 - k_cmu k) / t) (default_minus k)).
  { unfold cminus. fold k d. rewrite ED, EB. destruct (Req_EM_T t 0); auto. f_equal. replace (1 - 0.66) with 0.34 by lra. unfold Rdiv. ring. }
  rewrite CM. destruct (Req_EM_T t 0) as [E|E].
  - split; [lra|]. split; [|intros; lra]. apply sep_little_iff; [exact B0|]. rewrite E. lra.
  - assert (TP : 0 < t) by lra. assert (KP : 0 <= 0.34 * (1 - k_cmu k) / t) by (left; apply Rdiv_lt_0_compat; lra).
    split; [split; [apply Rmin_glb; assumption|apply Rmin_r]|]. split.
    + apply sep_little_iff; [apply Rmin_glb; assumption|].
      apply Rle_trans with (0.34 * (1 - k_cmu k) / t * t); [apply Rmult_le_compat_r; [exact T0|apply Rmin_l]|right; field; lra].
    + intros c [C0 C1] L. apply sep_little_iff in L; [|exact C0]. apply Rmin_glb; [|exact C1].
      apply (Rmult_le_reg_r t); [exact TP|]. replace (0.34 * (1 - k_cmu k) / t * t) with (0.34 * (1 - k_cmu k)) by (field; lra). exact L.
Qed.
End SepMinus.
Lemma active_sep_step_thm p e g x0 n0 h s0 s1 pop s2 cols phen s3 s4 :
  constructed (p_k p) -> p_upd p = Active -> k_sep (p_k p) = true -> k_c1 (p_k p) + 0.66 * k_cmu (p_k p) < 0.66 -> (k_tpa (p_k p) < 2)%Z -> g_uh g = false ->
  st_new (cma_num p) g x0 n0 = Ok s0 -> Forall iteration h -> run_ops (cma_num p) e g h s0 = Ok s1 ->
  ask (cma_num p) e g s1 = Ok (pop, s2) -> eval (cma_num p) e g cols phen s2 = Ok s3 -> tell (cma_num p) e g s3 = Ok s4 ->
  exists b, inverse_root (k_dim (p_k p)) b (d_cov (dist_of p s1)) /\
    active_sep_step (p_k p) (s_niter (t_sol s1)) (map c_x (s_cands (t_sol s4))) b (default_cc (p_k p)) (dist_of p s1) (dist_of p s4).
Proof.
  intros C F S R T U N0 W H HA HE HT. pose proof (constructed_vd _ C) as V.
  assert (H0 : started p e g s0) by (econstructor; exact N0).
  assert (NN : (0 <= s_niter (t_sol s1))%Z) by (eapply niter_nonneg; eauto).
  assert (SP : 0 < sigma_of s1) by (eapply dist_sigma_pos; eauto).
  pose proof (active_sep_thm p e g h x0 n0 s0 s1 C F S R N0 H) as VP.
  destruct (gen_update p e g s1 pop s2 cols phen s3 s4 U HA HE HT) as (n & Q & G). cbv zeta in G. destruct G as (G1 & G2 & G3 & G4 & G5 & G6 & G7 & G8 & G9 & G10).
  set (xs := map c_x (s_cands (t_sol s4))) in *. set (gen := s_niter (t_sol s1)) in *.
  assert (CV : forall s, d_cov (dist_of p s) = diag (x_sep (s_num (t_sol s)))). { intros s. unfold dist_of, full_cov. cbn [d_cov]. rewrite S, V. reflexivity. }
  exists (diag (fun i => sqrt (1 / x_sep (s_num (t_sol s1)) i))).
  rewrite CV. split; [apply diag_inverse_root; intros; apply VP; auto|].
  assert (XS : 0 < x_sigma n) by (rewrite G2; exact SP).
  assert (E1 : d_mean (dist_of p s1) = x_mean n) by (rewrite G1; reflexivity).
  assert (E2 : d_sigma (dist_of p s1) = x_sigma n) by (rewrite G2; reflexivity).
  assert (E3 : d_ps (dist_of p s1) = x_psigma n) by (rewrite G6; reflexivity).
  assert (E4 : d_pc (dist_of p s1) = x_pc n) by (rewrite G7; reflexivity).
  assert (F1 : d_mean (dist_of p s4) = new_mean p xs n) by (unfold dist_of; rewrite Q; reflexivity).
  assert (F2 : d_sigma (dist_of p s4) = new_sigma p gen xs n) by (unfold dist_of; rewrite Q; reflexivity).
  assert (F3 : d_ps (dist_of p s4) = new_psigma p xs n) by (unfold dist_of; rewrite Q; reflexivity).
  assert (F4 : d_pc (dist_of p s4) = new_pc p gen xs n) by (unfold dist_of; rewrite Q; reflexivity).
  destruct (constructed_norm _ C) as (M & _ & N1 & _). cbv zeta in N1.
  pose proof (constructed_sound _ C) as (_ & (K1 & K2 & K3 & K4 & K5 & K6) & _).
  split; [eapply rule_mean; eauto|]. split; [|split; [|split]].
  - eapply rule_ps; eauto. intros i Hi. rewrite F, S, mv_diag by exact Hi. rewrite G4. reflexivity.
  - eapply rule_pc; eauto. rewrite N1. unfold default_cc. rewrite <- M. reflexivity.
  - exists (cminus p xs n). split.
    + apply sep_minus_rate_ok; auto; [rewrite CV, G4; reflexivity|lra|]. intros j Hj. rewrite G4. apply VP, Hj.
    + intros i j Hi Hj. rewrite !CV. rewrite Q. cbn [x_sep update_num]. rewrite F, S. unfold diag at 1. destruct (Nat.eqb_spec i j) as [->|]; [|reflexivity].
      unfold active_sep. rewrite <- (rule_mu p xs n (dist_of p s1) E1 E2 XS), <- (rule_minus p xs n (dist_of p s1) E1 E2 XS). unfold rank_one, diag. rewrite F4, Nat.eqb_refl, G4.
      replace 0.5 with (1 / 2) by lra. ring.
  - eapply rule_sigma_active; eauto.
Qed.

(** With the ranking made by tell. *)
Lemma tell_ranked p e g s s' : g_uh g = false -> tell (cma_num p) e g s = Ok s' -> ranked_points s s'.
Proof. intros U T H. destruct (tell_ranks (cma_num p) e g s s' U H T) as (A & B & _). auto. Qed.
Lemma full_thm p e g h s0 s1 pop s2 cols phen s3 s4 :
  constructed (p_k p) -> p_upd p = Full -> k_sep (p_k p) = false -> p_lazy p = false -> eigensolver_ok p -> k_c1 (p_k p) + k_cmu (p_k p) < 1 -> (k_tpa (p_k p) < 2)%Z -> g_uh g = false ->
  started p e g s0 -> Forall iteration h -> run_ops (cma_num p) e g h s0 = Ok s1 ->
  ask (cma_num p) e g s1 = Ok (pop, s2) -> eval (cma_num p) e g cols phen s2 = Ok s3 -> tell (cma_num p) e g s3 = Ok s4 ->
  ranked_points s3 s4 /\ exists b, inverse_root (k_dim (p_k p)) b (d_cov (dist_of p s1)) /\
    cma_step (p_k p) (s_niter (t_sol s1)) (map c_x (s_cands (t_sol s4))) b (dist_of p s1) (dist_of p s4).
Proof. intros. split; [eapply tell_ranked; eauto|eapply full_step; eauto]. Qed.
Lemma active_thm p e g h s0 s1 pop s2 cols phen s3 s4 :
  constructed (p_k p) -> p_upd p = Active -> k_sep (p_k p) = false -> p_lazy p = false -> eigensolver_ok p -> k_c1 (p_k p) + 0.66 * k_cmu (p_k p) < 0.66 -> (k_tpa (p_k p) < 2)%Z -> g_uh g = false ->
  started p e g s0 -> asked false h -> run_ops (cma_num p) e g h s0 = Ok s1 ->
  ask (cma_num p) e g s1 = Ok (pop, s2) -> eval (cma_num p) e g cols phen s2 = Ok s3 -> tell (cma_num p) e g s3 = Ok s4 ->
  ranked_points s3 s4 /\ exists b, inverse_root (k_dim (p_k p)) b (d_cov (dist_of p s1)) /\
    active_step (p_k p) (s_niter (t_sol s1)) (map c_x (s_cands (t_sol s4))) b (dist_of p s1) (dist_of p s4).
Proof. intros. split; [eapply tell_ranked; eauto|eapply active_step_thm; eauto]. Qed.
Lemma sep_thm p e g x0 n0 h s0 s1 pop s2 cols phen s3 s4 :
  constructed (p_k p) -> p_upd p = Full -> k_sep (p_k p) = true -> k_vd (p_k p) = false -> k_c1 (p_k p) + k_cmu (p_k p) < 1 -> (k_tpa (p_k p) < 2)%Z -> g_uh g = false ->
  st_new (cma_num p) g x0 n0 = Ok s0 -> Forall iteration h -> run_ops (cma_num p) e g h s0 = Ok s1 ->
  ask (cma_num p) e g s1 = Ok (pop, s2) -> eval (cma_num p) e g cols phen s2 = Ok s3 -> tell (cma_num p) e g s3 = Ok s4 ->
  ranked_points s3 s4 /\ exists b, inverse_root (k_dim (p_k p)) b (d_cov (dist_of p s1)) /\
    sep_step (p_k p) (s_niter (t_sol s1)) (map c_x (s_cands (t_sol s4))) b (default_cc (p_k p)) (dist_of p s1) (dist_of p s4).
Proof. intros. split; [eapply tell_ranked; eauto|eapply sep_step_thm; eauto]. Qed.
Lemma active_sep_full_thm p e g x0 n0 h s0 s1 pop s2 cols phen s3 s4 :
  constructed (p_k p) -> p_upd p = Active -> k_sep (p_k p) = true -> k_c1 (p_k p) + 0.66 * k_cmu (p_k p) < 0.66 -> (k_tpa (p_k p) < 2)%Z -> g_uh g = false ->
  st_new (cma_num p) g x0 n0 = Ok s0 -> Forall iteration h -> run_ops (cma_num p) e g h s0 = Ok s1 ->
  ask (cma_num p) e g s1 = Ok (pop, s2) -> eval (cma_num p) e g cols phen s2 = Ok s3 -> tell (cma_num p) e g s3 = Ok s4 ->
  ranked_points s3 s4 /\ exists b, inverse_root (k_dim (p_k p)) b (d_cov (dist_of p s1)) /\
    active_sep_step (p_k p) (s_niter (t_sol s1)) (map c_x (s_cands (t_sol s4))) b (default_cc (p_k p)) (dist_of p s1) (dist_of p s4).
Proof. intros. split; [eapply tell_ranked; eauto|eapply active_sep_step_thm; eauto]. Qed.
