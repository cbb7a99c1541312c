(** Proofs about the reported standard deviations. *)
From Coq Require Import Reals Lra Lia Bool ZArith List.
From Verif Require Import Base Dbl Vec EoMatrix Pwq PwqProofs LipProofs Scaling GenoPheno SpecBounds GenoPhenoProofs ScalingProofs
  Params Config Search SpecSearch Update Corr SpecUpdate VecProofs CorrProofs Report SpecReport.
Import ListNotations.
Open Scope R_scope.

Lemma nth_tab n f i : (i < n)%nat -> nth_error (tab n f) i = Some (f i).
Proof.
  intros H. unfold tab. rewrite nth_error_map. rewrite (nth_error_nth' _ 0%nat) by (rewrite seq_length; exact H).
  rewrite seq_nth by exact H. reflexivity.
Qed.
Lemma nth_some {A} (l : list A) i a : nth_error l i = Some a -> (i < length l)%nat.
Proof. intros H. apply nth_error_Some. congruence. Qed.
Lemma nth_ex {A} (l : list A) i : (i < length l)%nat -> exists a, nth_error l i = Some a.
Proof. intros H. apply nth_error_Some in H. destruct (nth_error l i) eqn:E; [eauto|contradiction]. Qed.

Lemma pheno_contracts lb ub gp : ordered lb ub -> gp_bounds None lb ub = Ok gp -> contracts (length lb) (pheno gp).
Proof.
  intros Ho Hg x x' y y' Hx Hx' Hy Hy'.
  pose proof (feasible None lb ub gp x Ho I Hg Hx) as F. pose proof (feasible None lb ub gp x' Ho I Hg Hx') as F'.
  destruct F as [(y0 & E & L1 & L2 & _)|E]; rewrite Hy in E; [|discriminate]; injection E as <-.
  destruct F' as [(y0 & E & L1' & _)|E]; rewrite Hy' in E; [|discriminate]; injection E as <-.
  split; [exact L1|]. split; [exact L1'|].
  intros i a a' b b' Ha Ha' Hb Hb'.
  destruct (nth_ex lb i) as [l Hl]; [rewrite <- L1; eapply nth_some; eauto|].
  destruct (nth_ex ub i) as [u Hu]; [rewrite <- L2; eapply nth_some; eauto|].
  destruct (pheno_coord lb ub gp x y Ho Hg Hx Hy i l u a Hl Hu Ha) as [w [Hw Ew]].
  destruct (pheno_coord lb ub gp x' y' Ho Hg Hx' Hy' i l u a' Hl Hu Ha') as [w' [Hw' Ew']].
  rewrite Hb in Hw; injection Hw as <-. rewrite Hb' in Hw'; injection Hw' as <-.
  eapply (tof_lip (pwq_coord l u l u)); eauto. apply good_of_bounds; eapply ordered_nth; eauto.
Qed.

Section Report.
Variable p : npar.
Let k := p_k p.
Let d := k_dim k.

Lemma raw_is_std s i : has_variances p s -> (i < k_dim (p_k p))%nat -> is_std p s i (Rabs (raw_stds p (s_num (t_sol s)) i)).
Proof.
  intros [HX HV] Hi. specialize (HV i Hi). unfold is_std, raw_stds. split; [apply Rabs_pos|].
  rewrite <- Rabs_mult. revert HX HV. unfold full_cov.
  destruct (k_sep (p_k p)), (k_vd (p_k p)); cbn [negb orb andb]; intros HX HV; try discriminate.
  - unfold diag in *. rewrite Nat.eqb_refl in *. rewrite sqrt_sqrt by exact HV. apply Rabs_pos_eq, HV.
  - rewrite vd_diag in *. rewrite Rabs_pos_eq.
    + replace (sqrt _ * _ * (sqrt _ * _)) with (sqrt (1 + x_v (s_num (t_sol s)) i * x_v (s_num (t_sol s)) i) * sqrt (1 + x_v (s_num (t_sol s)) i * x_v (s_num (t_sol s)) i) * (x_sep (s_num (t_sol s)) i * x_sep (s_num (t_sol s)) i)) by ring.
      rewrite sqrt_sqrt; [reflexivity|]. pose proof (Rle_0_sqr (x_v (s_num (t_sol s)) i)) as Q; unfold Rsqr in Q; lra.
    + match goal with |- 0 <= ?a * ?a => pose proof (Rle_0_sqr a) as Q; unfold Rsqr in Q; exact Q end.
  - rewrite sqrt_sqrt by exact HV. apply Rabs_pos_eq, HV.
Qed.
Lemma is_std_unique s i a b : is_std p s i a -> is_std p s i b -> a = b.
Proof. intros [A1 A2] [B1 B2]. apply Rsqr_inj; auto. unfold Rsqr. congruence. Qed.

(** the coordinates of stds from those of the two transformed points *)
Lemma stds_coords gp s v : stds p gp (s_num (t_sol s)) = Ok v -> exists y0 y1,
  pheno gp (tab (k_dim (p_k p)) (mean_of s)) = Ok y0 /\
  pheno gp (tab (k_dim (p_k p)) (fun i => mean_of s i + raw_stds p (s_num (t_sol s)) i)) = Ok y1 /\
  length v = length y0 /\ length y1 = length y0 /\
  forall i a, nth_error v i = Some a -> exists b0 b1, nth_error y0 i = Some b0 /\ nth_error y1 i = Some b1 /\ a = Rabs (b1 - b0).
Proof.
  unfold stds, mean_of. intros H. apply bind_ok in H; destruct H as [y0 [H0 H]]. apply bind_ok in H; destruct H as [y1 [H1 H]].
  exists y0, y1. destruct (mapM2_ok_length _ _ _ _ H) as [L1 L2].
  split; [exact H0|]. split; [exact H1|]. split; [congruence|]. split; [congruence|].
  intros i a Ha. pose proof (nth_some _ _ _ Ha) as Li.
  destruct (nth_ex y0 i ltac:(lia)) as [b0 E0]. destruct (nth_ex y1 i ltac:(lia)) as [b1 E1].
  destruct (mapM2_nth _ _ _ _ H i b1 b0 E1 E0) as [c [Hc E]]. injection E as <-.
  exists b0, b1. split; [exact E0|split; [exact E1|]]. congruence.
Qed.
Lemma stds_ok gp s y0 y1 : pheno gp (tab (k_dim (p_k p)) (mean_of s)) = Ok y0 ->
  pheno gp (tab (k_dim (p_k p)) (fun i => mean_of s i + raw_stds p (s_num (t_sol s)) i)) = Ok y1 -> length y1 = length y0 ->
  exists v, stds p gp (s_num (t_sol s)) = Ok v.
Proof.
  intros H0 H1 L. unfold stds. change (x_mean (s_num (t_sol s))) with (mean_of s). rewrite H0; cbn [bind].
  match goal with |- exists v, bind (pheno gp ?x) _ = _ => change (pheno gp x) with (pheno gp (tab (k_dim (p_k p)) (fun i => mean_of s i + raw_stds p (s_num (t_sol s)) i))) end.
  rewrite H1; cbn [bind]. apply mapM2_all; eauto.
Qed.

Lemma stds_plain s : has_variances p s -> exists v, stds p gp_default_nb (s_num (t_sol s)) = Ok v /\ coords (k_dim (p_k p)) (is_std p s) v.
Proof.
  intros HV. destruct (stds_ok gp_default_nb s _ _ eq_refl eq_refl) as [v E]; [cbn; rewrite !tab_length; reflexivity|].
  exists v. split; [exact E|]. destruct (stds_coords _ _ _ E) as (y0 & y1 & E0 & E1 & L0 & L1 & Hv).
  cbn in E0, E1. injection E0 as <-. injection E1 as <-. rewrite tab_length in L0.
  split; [exact L0|]. intros i a Ha. pose proof (nth_some _ _ _ Ha) as Li. rewrite L0 in Li.
  destruct (Hv i a Ha) as (b0 & b1 & F0 & F1 & ->). rewrite nth_tab in F0, F1 by exact Li. injection F0 as <-. injection F1 as <-.
  rewrite plus_minus_l. apply raw_is_std; auto.
Qed.

Lemma scaled_coord (l : linscale) x y : scale_to_f l x = Ok y ->
  forall i c h a b, nth_error (l_pairs l) i = Some (c, h) -> nth_error x i = Some a -> nth_error y i = Some b -> c <> 0 /\ b = (a - h) / c.
Proof.
  unfold scale_to_f. intros H i c h a b Hc Ha Hb. destruct (mapM2_nth _ _ _ _ H i _ a Hc Ha) as [b' [Hb' E]].
  rewrite Hb in Hb'; injection Hb' as <-. cbn [fst snd] in E. unfold rdiv in E. destruct (Req_EM_T c 0); [discriminate|].
  injection E as <-. auto.
Qed.
Lemma scale_len (l : linscale) x y : scale_to_f l x = Ok y -> length y = length (l_pairs l).
Proof. unfold scale_to_f. intros H. apply mapM2_ok_length in H. tauto. Qed.

Lemma stds_lin (l : linscale) s : has_variances p s -> lin_ok l -> length (l_pairs l) = k_dim (p_k p) ->
  exists v, stds p (mkGP NoBound None (LinScaling l)) (s_num (t_sol s)) = Ok v /\
    coords (k_dim (p_k p)) (fun i a => forall c h, nth_error (l_pairs l) i = Some (c, h) -> is_std p s i (Rabs c * a)) v.
Proof.
  intros HV HO HL.
  destruct (scale_f_total l (tab (k_dim (p_k p)) (mean_of s)) HO) as [z0 Z0]; [rewrite tab_length; auto|].
  destruct (scale_f_total l (tab (k_dim (p_k p)) (fun i => mean_of s i + raw_stds p (s_num (t_sol s)) i)) HO) as [z1 Z1]; [rewrite tab_length; auto|].
  destruct (stds_ok (mkGP NoBound None (LinScaling l)) s z0 z1 Z0 Z1) as [v E]; [rewrite (scale_len _ _ _ Z0), (scale_len _ _ _ Z1); reflexivity|].
  exists v. split; [exact E|]. destruct (stds_coords _ _ _ E) as (y0 & y1 & E0 & E1 & L0 & L1 & Hv).
  assert (y0 = z0) by (cbn in E0; congruence). assert (y1 = z1) by (cbn in E1; congruence). subst y0 y1.
  rewrite (scale_len _ _ _ Z0), HL in L0. split; [exact L0|].
  intros i a Ha c h Hc. pose proof (nth_some _ _ _ Ha) as Li. rewrite L0 in Li.
  destruct (Hv i a Ha) as (b0 & b1 & F0 & F1 & ->).
  destruct (scaled_coord _ _ _ Z0 i c h (mean_of s i) b0 Hc (nth_tab _ _ _ Li) F0) as [Nc ->].
  destruct (scaled_coord _ _ _ Z1 i c h (mean_of s i + raw_stds p (s_num (t_sol s)) i) b1 Hc (nth_tab _ (fun i => mean_of s i + raw_stds p (s_num (t_sol s)) i) _ Li) F1) as [_ ->].
  rewrite <- Rabs_mult. replace (c * _) with (raw_stds p (s_num (t_sol s)) i) by (field; exact Nc). apply raw_is_std; auto.
Qed.
Lemma stds_user_scaling sc sh gp s : has_variances p s -> gp_scaling_nb sc sh = Ok gp -> length sc = k_dim (p_k p) ->
  (forall c, In c sc -> c <> 0) ->
  exists v, stds p gp (s_num (t_sol s)) = Ok v /\
    coords (k_dim (p_k p)) (fun i a => forall c, nth_error sc i = Some c -> is_std p s i (Rabs c * a)) v.
Proof.
  intros HV Hg HL HN. unfold gp_scaling_nb in Hg. apply bind_ok in Hg as (l & Hl & E). injection E as <-.
  destruct (lin_user_nth _ _ _ Hl) as (_ & L1 & L2 & Hn).
  destruct (stds_lin l s HV) as (v & E & Lv & Hv).
  - eapply lin_user_ok; [exact Hl|]. intros i c Hc. apply HN. eapply nth_error_In; eauto.
  - congruence.
  - exists v. split; [exact E|]. split; [exact Lv|]. intros i a Ha c Hc.
    destruct (nth_ex sh i) as [h Hh]; [rewrite <- L2; eapply nth_some; eauto|]. apply (Hv i a Ha c h). auto.
Qed.
Lemma stds_lin_bounds lb ub gp s : has_variances p s -> ordered lb ub -> gp_nb_lin None lb ub = Ok gp -> length lb = k_dim (p_k p) ->
  exists v, stds p gp (s_num (t_sol s)) = Ok v /\
    coords (k_dim (p_k p)) (fun i a => forall l u, nth_error lb i = Some l -> nth_error ub i = Some u -> is_std p s i (10 / (u - l) * a)) v.
Proof.
  intros HV HO Hg HL. unfold gp_nb_lin in Hg. apply bind_ok in Hg as (l & Hl & E). injection E as <-.
  destruct (lin_make_nth _ _ _ HO Hl) as (_ & L1 & Hn).
  destruct (stds_lin l s HV) as (v & E & Lv & Hv).
  - eapply lin_make_lin_ok; eauto.
  - congruence.
  - exists v. split; [exact E|]. split; [exact Lv|]. intros i a Ha lo u Hlo Hu.
    pose proof (ordered_nth lb ub i lo u HO Hlo Hu) as Hlt.
    rewrite <- (Rabs_pos_eq (10 / (u - lo))) by (apply Rlt_le, Rdiv_lt_0_compat; lra).
    eapply (Hv i a Ha). apply Hn; eauto.
Qed.

(** bounds *)
Lemma raw_nonneg (s : st R num) i : (k_vd (p_k p) = true -> 0 <= variances_of s i) -> 0 <= raw_stds p (s_num (t_sol s)) i.
Proof.
  unfold raw_stds, variances_of. intros H. destruct (k_sep (p_k p)), (k_vd (p_k p)); cbn [negb andb]; try apply sqrt_pos.
  apply Rmult_le_pos; [apply sqrt_pos|auto].
Qed.
Lemma tof_in_core l u v w : l < u -> in_core l u v -> tof (pwq_coord l u l u) v = Ok w -> w = v.
Proof.
  intros Hlt [C1 C2] H. pose proof (good_of_bounds l u Hlt) as Gq.
  rewrite (tof_core _ Gq v) in H; [congruence|]. cbn [q_lb q_ub]. rewrite strip_al, strip_au. cbn [pwq_coord q_lb q_ub]. lra.
Qed.
Lemma stds_bounds lb ub gp s v : has_variances p s -> ordered lb ub -> gp_bounds None lb ub = Ok gp -> length lb = k_dim (p_k p) ->
  stds p gp (s_num (t_sol s)) = Ok v ->
  coords (k_dim (p_k p)) (fun i a => forall l u sd, nth_error lb i = Some l -> nth_error ub i = Some u -> is_std p s i sd ->
    0 <= a <= sd /\ a <= u - l /\ ((k_vd (p_k p) = true -> 0 <= variances_of s i) -> in_core l u (mean_of s i) -> in_core l u (mean_of s i + sd) -> a = sd)) v.
Proof.
  intros HV HO Hg HL E. destruct (stds_coords _ _ _ E) as (y0 & y1 & E0 & E1 & L0 & L1 & Hv).
  set (x0 := tab (k_dim (p_k p)) (mean_of s)) in *.
  set (x1 := tab (k_dim (p_k p)) (fun i => mean_of s i + raw_stds p (s_num (t_sol s)) i)) in *.
  assert (T0 : length x0 = length lb) by (unfold x0; rewrite tab_length; auto).
  assert (T1 : length x1 = length lb) by (unfold x1; rewrite tab_length; auto).
  destruct (pheno_contracts lb ub gp HO Hg x1 x0 y1 y0 T1 T0 E1 E0) as (M1 & M0 & HC).
  split; [congruence|].
  intros i a Ha l u sd Hl Hu Hsd. pose proof (nth_some _ _ _ Ha) as Li. rewrite L0, M0, HL in Li.
  assert (sd = Rabs (raw_stds p (s_num (t_sol s)) i)) as -> by (eapply is_std_unique; eauto; apply raw_is_std; auto).
  destruct (Hv i a Ha) as (b0 & b1 & F0 & F1 & ->).
  assert (N0 : nth_error x0 i = Some (mean_of s i)) by (apply nth_tab, Li).
  assert (N1 : nth_error x1 i = Some (mean_of s i + raw_stds p (s_num (t_sol s)) i)) by (apply (nth_tab _ (fun i => mean_of s i + raw_stds p (s_num (t_sol s)) i)), Li).
  pose proof (HC i _ _ _ _ N1 N0 F1 F0) as Q. rewrite plus_minus_l in Q.
  destruct (pheno_coord lb ub gp x0 y0 HO Hg T0 E0 i l u _ Hl Hu N0) as [w0 [W0 V0]].
  destruct (pheno_coord lb ub gp x1 y1 HO Hg T1 E1 i l u _ Hl Hu N1) as [w1 [W1 V1]].
  rewrite F0 in W0; injection W0 as <-. rewrite F1 in W1; injection W1 as <-.
  pose proof (ordered_nth lb ub i l u HO Hl Hu) as Hlt.
  pose proof (tof_range _ (good_of_bounds l u Hlt) _ _ V0) as R0. pose proof (tof_range _ (good_of_bounds l u Hlt) _ _ V1) as R1.
  cbn [pwq_coord q_lb q_ub] in R0, R1.
  split; [split; [apply Rabs_pos|exact Q]|]. split; [unfold Rabs; destruct (Rcase_abs _); lra|].
  intros Hd C0 C1. pose proof (raw_nonneg s i Hd) as Hp. rewrite (Rabs_pos_eq _ Hp) in C1 |- *.
  rewrite (tof_in_core l u _ b0 Hlt C0 V0), (tof_in_core l u _ b1 Hlt C1 V1), plus_minus_l. apply Rabs_pos_eq, Hp.
Qed.
Lemma stds_bounds_total lb ub gp (s : st R num) : ordered lb ub -> gp_bounds None lb ub = Ok gp -> length lb = k_dim (p_k p) ->
  (exists v, stds p gp (s_num (t_sol s)) = Ok v) \/ stds p gp (s_num (t_sol s)) = Fault IntCast.
Proof.
  intros HO Hg HL.
  destruct (feasible None lb ub gp (tab (k_dim (p_k p)) (mean_of s)) HO I Hg) as [(y0 & E0 & B0 & _)|E0]; [rewrite tab_length; auto| |].
  - destruct (feasible None lb ub gp (tab (k_dim (p_k p)) (fun i => mean_of s i + raw_stds p (s_num (t_sol s)) i)) HO I Hg) as [(y1 & E1 & B1 & _)|E1]; [rewrite tab_length; auto| |].
    + left. eapply stds_ok; eauto. congruence.
    + right. unfold stds. change (x_mean (s_num (t_sol s))) with (mean_of s). rewrite E0; cbn [bind].
      match goal with |- bind (pheno gp ?x) _ = _ => change (pheno gp x) with (pheno gp (tab (k_dim (p_k p)) (fun i => mean_of s i + raw_stds p (s_num (t_sol s)) i))) end.
      rewrite E1. reflexivity.
  - right. unfold stds. change (x_mean (s_num (t_sol s))) with (mean_of s). rewrite E0. reflexivity.
Qed.

(** bounds and linear scaling *)
Lemma pheno_lin_coord lb ub gp x y : ordered lb ub -> gp_bounds_lin None lb ub = Ok gp -> length x = length lb -> pheno gp x = Ok y ->
  forall i l u v b, nth_error lb i = Some l -> nth_error ub i = Some u -> nth_error x i = Some v -> nth_error y i = Some b ->
  exists w, tof (pwq_coord 0 10 l u) v = Ok w /\ b = l + w * ((u - l) / 10).
Proof.
  intros HO Hg Hx Hy i l u v b Hl Hu Hv Hb.
  destruct (gp_bounds_lin_inv None lb ub gp HO Hg) as (ls & q & -> & Hls & Gq & Lq & Hn).
  destruct (lin_make_nth _ _ _ HO Hls) as (Hid & Ll & Hp).
  unfold pheno in Hy; cbn [gp_bound gp_scale custom_pheno gp_custom] in Hy.
  apply bind_ok in Hy; destruct Hy as [z [Hz Hy]]. rewrite pwq_to_f_tof in Hz by (assumption || lia).
  cbn [scale_f_step] in Hy. rewrite Hid in Hy.
  destruct (mapM2_nth _ _ _ _ Hz i _ v (Hn i l u Hl Hu) Hv) as [w [Hw Ew]].
  exists w. split; [exact Ew|]. pose proof (ordered_nth lb ub i l u HO Hl Hu).
  destruct (scaled_coord _ _ _ Hy i _ _ _ _ (Hp i l u Hl Hu) Hw Hb) as [_ ->]. field; lra.
Qed.
Lemma stds_bounds_lin lb ub gp s v : has_variances p s -> ordered lb ub -> gp_bounds_lin None lb ub = Ok gp -> length lb = k_dim (p_k p) ->
  stds p gp (s_num (t_sol s)) = Ok v ->
  coords (k_dim (p_k p)) (fun i a => forall l u sd, nth_error lb i = Some l -> nth_error ub i = Some u -> is_std p s i sd ->
    0 <= a <= sd * ((u - l) / 10) /\ a <= u - l) v.
Proof.
  intros HV HO Hg HL E. destruct (stds_coords _ _ _ E) as (y0 & y1 & E0 & E1 & L0 & L1 & Hv).
  set (x0 := tab (k_dim (p_k p)) (mean_of s)) in *.
  set (x1 := tab (k_dim (p_k p)) (fun i => mean_of s i + raw_stds p (s_num (t_sol s)) i)) in *.
  assert (T0 : length x0 = length lb) by (unfold x0; rewrite tab_length; auto).
  assert (T1 : length x1 = length lb) by (unfold x1; rewrite tab_length; auto).
  assert (M0 : length y0 = length lb).
  { destruct (feasible_lin None lb ub gp x0 HO I Hg T0) as [(z & Z & B & _)|Z]; rewrite E0 in Z; [injection Z as <-; exact B|discriminate]. }
  split; [congruence|].
  intros i a Ha l u sd Hl Hu Hsd. pose proof (nth_some _ _ _ Ha) as Li. rewrite L0, M0, HL in Li.
  assert (sd = Rabs (raw_stds p (s_num (t_sol s)) i)) as -> by (eapply is_std_unique; eauto; apply raw_is_std; auto).
  destruct (Hv i a Ha) as (b0 & b1 & F0 & F1 & ->).
  assert (N0 : nth_error x0 i = Some (mean_of s i)) by (apply nth_tab, Li).
  assert (N1 : nth_error x1 i = Some (mean_of s i + raw_stds p (s_num (t_sol s)) i)) by (apply (nth_tab _ (fun i => mean_of s i + raw_stds p (s_num (t_sol s)) i)), Li).
  destruct (pheno_lin_coord lb ub gp x0 y0 HO Hg T0 E0 i l u _ _ Hl Hu N0 F0) as [w0 [V0 ->]].
  destruct (pheno_lin_coord lb ub gp x1 y1 HO Hg T1 E1 i l u _ _ Hl Hu N1 F1) as [w1 [V1 ->]].
  assert (Gq : good (pwq_coord 0 10 l u)) by (apply pwq_coord_good; lra).
  pose proof (tof_lip _ Gq _ _ _ _ V1 V0) as Q. rewrite plus_minus_l in Q.
  pose proof (tof_range _ Gq _ _ V0) as R0. pose proof (tof_range _ Gq _ _ V1) as R1. cbn [pwq_coord q_lb q_ub] in R0, R1.
  pose proof (ordered_nth lb ub i l u HO Hl Hu) as Hlt.
  replace (l + w1 * ((u - l) / 10) - (l + w0 * ((u - l) / 10))) with ((w1 - w0) * ((u - l) / 10)) by ring.
  rewrite Rabs_mult, (Rabs_pos_eq ((u - l) / 10)) by lra.
  split; [split|].
  - apply Rmult_le_pos; [apply Rabs_pos|lra].
  - apply Rmult_le_compat_r; lra.
  - apply Rle_trans with (10 * ((u - l) / 10)); [|lra]. apply Rmult_le_compat_r; [lra|]. unfold Rabs; destruct (Rcase_abs _); lra.
Qed.

(** errors *)
Lemma errors_coords gp s v : stds p gp (s_num (t_sol s)) = Ok v -> errors p gp (s_num (t_sol s)) = Ok (map (fun a => sqrt (sigma_of s) * a) v).
Proof. intros H. unfold errors, sigma_of. rewrite H. reflexivity. Qed.
Lemma errors_plain s : has_variances p s -> 0 < sigma_of s -> exists v, errors p gp_default_nb (s_num (t_sol s)) = Ok v /\
  coords (k_dim (p_k p)) (fun i a => (is_sampling_std p s i a <-> (sigma_of s = 1 \/ full_cov p (s_num (t_sol s)) i i = 0)) /\
    forall sd, is_sampling_std p s i sd -> sd = sqrt (sigma_of s) * a) v.
Proof.
  intros HV Hs. destruct (stds_plain s HV) as (v & E & Lv & Hv). eexists. split; [apply errors_coords, E|].
  split; [rewrite map_length; exact Lv|]. intros i a Ha. rewrite nth_error_map in Ha.
  destruct (nth_error v i) as [b|] eqn:Hb; [|discriminate]. injection Ha as <-. destruct (Hv i b Hb) as [B1 B2].
  pose proof (sqrt_lt_R0 _ Hs) as Hr. pose proof (sqrt_sqrt _ (Rlt_le _ _ Hs)) as Hq.
  unfold is_sampling_std. rewrite <- B2. split; [split|].
  - intros [_ Q]. replace (sqrt (sigma_of s) * b * (sqrt (sigma_of s) * b)) with (sqrt (sigma_of s) * sqrt (sigma_of s) * (b * b)) in Q by ring. rewrite Hq in Q.
    destruct (Req_dec (b * b) 0) as [Z|Z]; [right; exact Z|left].
    apply Rmult_eq_reg_r in Q; [|exact Z]. apply Rmult_eq_reg_l with (sigma_of s); lra.
  - intros Q. split; [apply Rmult_le_pos; lra|].
    replace (sqrt (sigma_of s) * b * (sqrt (sigma_of s) * b)) with (sqrt (sigma_of s) * sqrt (sigma_of s) * (b * b)) by ring. rewrite Hq.
    destruct Q as [Q|Q]; rewrite Q; ring.
  - intros sd [S1 S2]. replace (sqrt (sigma_of s) * (sqrt (sigma_of s) * b)) with (sigma_of s * b) by (rewrite <- Hq at 1; ring).
    apply Rsqr_inj; [exact S1|apply Rmult_le_pos; lra|]. unfold Rsqr. rewrite S2. ring.
Qed.
End Report.
