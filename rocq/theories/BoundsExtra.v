From Coq Require Import Reals Lra Lia Psatz.
From Verif Require Import Base EoMatrix Pwq PwqProofs Scaling GenoPheno SpecBounds SpecGeno GenoPhenoProofs ScalingProofs.
Open Scope R_scope.

(** * Custom functions compose with the bound (and scaling) transform *)
Lemma custom_bounds ge ph lb ub g g0 x :
  gp_bounds (Some (ge, ph)) lb ub = Ok g -> gp_bounds None lb ub = Ok g0 ->
  pheno g x = pheno g0 (ph x) /\ geno g x = (do z <- geno g0 x; Ok (ge z)).
Proof.
  unfold gp_bounds; intros H H0.
  apply bind_ok in H; destruct H as [p [Hp E]]; injection E as <-.
  rewrite Hp in H0; cbn [bind] in H0; injection H0 as <-.
  unfold pheno, geno; cbn [gp_bound gp_scale gp_custom custom_pheno custom_geno scale_i_step bind].
  split; [reflexivity|]. destruct (pwq_to_internal p x); reflexivity.
Qed.
Lemma custom_bounds_lin ge ph lb ub g g0 x :
  gp_bounds_lin (Some (ge, ph)) lb ub = Ok g -> gp_bounds_lin None lb ub = Ok g0 ->
  pheno g x = pheno g0 (ph x) /\ geno g x = (do z <- geno g0 x; Ok (ge z)).
Proof.
  unfold gp_bounds_lin; intros H H0.
  apply bind_ok in H; destruct H as [l [Hl H]]. apply bind_ok in H; destruct H as [p [Hp E]]; injection E as <-.
  rewrite Hl in H0; cbn [bind] in H0. rewrite Hp in H0; cbn [bind] in H0. injection H0 as <-.
  unfold pheno, geno; cbn [gp_bound gp_scale gp_custom custom_pheno custom_geno].
  split; [reflexivity|]. destruct (scale_i_step (LinScaling l) x) as [z|e]; cbn [bind]; [|reflexivity].
  destruct (pwq_to_internal p z); reflexivity.
Qed.
Lemma round_trip_lin_custom ge ph lb ub g y :
  ordered lb ub -> (forall v, ph (ge v) = v) ->
  gp_bounds_lin (Some (ge, ph)) lb ub = Ok g -> inside lb ub y ->
  exists x, geno g y = Ok x /\ pheno g x = Ok y.
Proof.
  intros Ho Hi Hg Hin. destruct (gp_bounds_lin_total None lb ub Ho) as [g0 H0].
  destruct (round_trip_lin lb ub g0 y Ho H0 Hin) as (x & Hx & Hf).
  destruct (custom_bounds_lin ge ph lb ub g g0 y Hg H0) as [_ E]. rewrite Hx in E; cbn [bind] in E.
  exists (ge x); split; [exact E|].
  destruct (custom_bounds_lin ge ph lb ub g g0 (ge x) Hg H0) as [E' _]. rewrite E', Hi; exact Hf.
Qed.

(** * Feasible points are reached from far away *)
Lemma strip_pos_le l u b : l < u -> 0 < strip l u b <= (u - l) / 2.
Proof.
  intros H; unfold strip. pose proof (Rabs_pos b). split.
  - apply Rmin_glb_lt; lra.
  - apply Rmin_l.
Qed.
Lemma period_bound l u : l < u -> 0 < period l u <= 4 * (u - l).
Proof.
  intros H; unfold period.
  pose proof (strip_pos_le l u l H); pose proof (strip_pos_le l u u H); lra.
Qed.

Fixpoint shift_all (k : Z) (lb ub x : list R) : list R :=
  match lb, ub, x with
  | l :: lb', u :: ub', v :: x' => (v + IZR k * period l u) :: shift_all k lb' ub' x'
  | _, _, _ => []
  end.
Lemma shift_all_len k lb : forall ub x, length ub = length lb -> length x = length lb ->
  length (shift_all k lb ub x) = length lb.
Proof.
  induction lb as [|l lb IH]; intros [|u ub] [|v x] H1 H2; cbn in *; try lia. rewrite IH; lia.
Qed.
Lemma shift_all_nth k lb : forall ub x i l u v v', nth_error lb i = Some l -> nth_error ub i = Some u ->
  nth_error x i = Some v -> nth_error (shift_all k lb ub x) i = Some v' -> v' = v + IZR k * period l u.
Proof.
  induction lb as [|l0 lb IH]; intros [|u0 ub] [|v0 x] [|i] l u v v' H1 H2 H3 H4; cbn in *; try discriminate.
  - congruence.
  - eapply IH; eassumption.
Qed.

Lemma geno_widths lb ub g y x :
  ordered lb ub -> gp_bounds None lb ub = Ok g -> inside lb ub y -> geno g y = Ok x ->
  length x = length lb /\ within_widths 1 lb ub x.
Proof.
  intros Ho Hg (L1 & L2 & Hin) Hx.
  unfold gp_bounds in Hg; apply bind_ok in Hg; destruct Hg as [p [Hp E]]; injection E as <-.
  destruct (pwq_make_nth _ _ _ Hp) as (Lp & Lb & Hn).
  unfold geno in Hx; cbn [gp_bound gp_scale scale_i_step bind] in Hx.
  apply bind_ok in Hx; destruct Hx as (z & Hz & E). injection E as <-.
  unfold custom_geno; cbn [gp_custom].
  unfold pwq_to_internal in Hz. pose proof (mapM2_ok_length _ _ _ _ Hz) as [La Lz].
  split; [lia|].
  intros i l u v Hl Hu Hv.
  assert (Hq := Hn i l u Hl Hu).
  destruct (nth_error_same_len lb y i l ltac:(lia) Hl) as [w Hw].
  destruct (mapM2_nth _ _ _ _ Hz i _ _ Hq Hw) as (c & Hc & Ec). injection Ec as Ec.
  rewrite Hc in Hv; injection Hv as <-. subst c.
  pose proof (ordered_nth _ _ _ _ _ Ho Hl Hu) as Hlu.
  pose proof (Hin i l u w Hl Hu Hw) as Hw'.
  unfold intern_coord; cbn [pwq_coord q_lb q_ub q_al q_au].
  assert (A1 : 0 < Rmin (0.5 * (u - l)) (1 / 20 * (1 + Rabs l)) <= 0.5 * (u - l)).
  { split; [apply Rmin_glb_lt; [lra|pose proof (Rabs_pos l); lra]|apply Rmin_l]. }
  assert (A2 : 0 < Rmin (0.5 * (u - l)) (1 / 20 * (1 + Rabs u)) <= 0.5 * (u - l)).
  { split; [apply Rmin_glb_lt; [lra|pose proof (Rabs_pos u); lra]|apply Rmin_l]. }
  remember (Rmin (0.5 * (u - l)) (1 / 20 * (1 + Rabs l))) as al eqn:E1.
  remember (Rmin (0.5 * (u - l)) (1 / 20 * (1 + Rabs u))) as au eqn:E2.
  clear E1 E2 Hn Hq Hz.
  destruct (Rlt_dec w (l + al)) as [H|H]; [|destruct (Rlt_dec (u - au) w) as [H'|H']].
  - rewrite Rabs_left1 by lra.
    assert (S : 0 <= sqrt (al * - (l - w)) <= al).
    { split; [apply sqrt_pos|]. rewrite <- (sqrt_square al) at 2 by lra. apply sqrt_le_1_alt. nra. }
    lra.
  - rewrite Rabs_left1 by lra.
    assert (S : 0 <= sqrt (au * - (w - u)) <= au).
    { split; [apply sqrt_pos|]. rewrite <- (sqrt_square au) at 2 by lra. apply sqrt_le_1_alt. nra. }
    lra.
  - lra.
Qed.

Lemma reach_far lb ub g y k :
  ordered lb ub -> gp_bounds None lb ub = Ok g -> inside lb ub y -> (-1000000000 <= k <= 1000000000)%Z ->
  exists x0 x, geno g y = Ok x0 /\ pheno g x = Ok y /\ length x = length lb /\
    forall i l u v0 v, nth_error lb i = Some l -> nth_error ub i = Some u ->
      nth_error x0 i = Some v0 -> nth_error x i = Some v -> v = v0 + IZR k * period l u.
Proof.
  intros Ho Hg Hin Hk.
  destruct (round_trip lb ub g y Ho Hg Hin) as (x0 & Hx0 & Hf).
  destruct (geno_widths lb ub g y x0 Ho Hg Hin Hx0) as [L0 W0].
  pose proof (Forall2_length_R _ _ _ Ho) as Lb.
  pose proof (shift_all_len k lb ub x0 ltac:(lia) L0) as Ls.
  exists x0, (shift_all k lb ub x0).
  assert (HIk : -1000000000 <= IZR k <= 1000000000) by (split; apply IZR_le; lia).
  assert (W : within_widths 4294967296 lb ub (shift_all k lb ub x0)).
  { intros i l u v Hl Hu Hv.
    destruct (nth_error_same_len lb x0 i l ltac:(lia) Hl) as [v0 Hv0].
    rewrite (shift_all_nth k lb ub x0 i l u v0 v Hl Hu Hv0 Hv).
    pose proof (W0 i l u v0 Hl Hu Hv0) as Hv0'.
    pose proof (period_bound l u (ordered_nth _ _ _ _ _ Ho Hl Hu)) as Hp.
    assert (- (4000000000 * (u - l)) <= IZR k * period l u <= 4000000000 * (u - l)) by nra.
    nra. }
  destruct (feasible_total lb ub g _ Ho Hg Ls W) as (y' & Hy' & _).
  split; [exact Hx0|]. split; [|split; [exact Ls|]].
  - destruct (periodic lb ub g x0 (shift_all k lb ub x0) y Ho Hg L0 Ls) as [E|E].
    + intros i l u v v' Hl Hu Hv Hv'. exists k. eapply shift_all_nth; eassumption.
    + exact Hf.
    + exact E.
    + rewrite Hy' in E; discriminate.
  - intros i l u v0 v Hl Hu Hv0 Hv. eapply shift_all_nth; eassumption.
Qed.

(** * Refutations *)
Ltac decide_all :=
  repeat match goal with
  | |- context [Rlt_dec ?a ?b] => destruct (Rlt_dec a b); try lra
  | |- context [Rle_dec ?a ?b] => destruct (Rle_dec a b); try lra
  | |- context [Req_EM_T ?a ?b] => destruct (Req_EM_T a b); try lra
  end.

Lemma Int_part_zero v : 0 <= v < 1 -> Int_part v = 0%Z.
Proof.
  intros H. destruct (base_Int_part v) as [H1 H2].
  assert (A : (Int_part v < 1)%Z) by (apply lt_IZR; lra).
  assert (B : (-1 < Int_part v)%Z) by (apply lt_IZR; lra).
  lia.
Qed.
Lemma Rtrunc_zero v : -1 < v < 1 -> Rtrunc v = 0%Z.
Proof.
  intros H; unfold Rtrunc. destruct (Rle_dec 0 v) as [H0|H0].
  - apply Int_part_zero; lra.
  - rewrite Int_part_zero by lra. reflexivity.
Qed.

Lemma user_scaling_reports_wrong :
  exists g, gp_scaling_pwq [2] [0] (Some ([0], [1])) = Ok g /\ pheno_bounds g = Some [(0, 2)].
Proof.
  eexists; split; [cbn; reflexivity|]. cbn. repeat f_equal; ring.
Qed.

Lemma user_scaling_negative :
  exists g y, gp_scaling_pwq [-1] [0] (Some ([0], [1])) = Ok g /\ pheno g [1] = Ok [y] /\ 1 < y.
Proof.
  eexists; exists (225 / 8); split; [cbn; reflexivity|]. split; [|lra].
  unfold pheno; cbn [gp_bound gp_scale custom_pheno gp_custom].
  replace (0 * -1 + 0) with 0 by ring. replace (1 * -1 + 0) with (-1) by ring.
  assert (E : pwq_coord 0 (-1) 0 (-1) = mkPwqc 0 (-1) (-1/2) (-1/2) (3/2) (-5/2) (-4) 0 (-1)).
  { unfold pwq_coord. rewrite Rabs_R0, (Rabs_left (-1)) by lra.
    rewrite !Rmin_left by lra. f_equal; lra. }
  rewrite E. unfold pwq_to_f, shift_into_feasible; cbn [mapM2].
  unfold shift_coord, shift_up, shift_down, reflect_up, reflect_low;
    cbn [q_lb q_ub q_al q_au q_xlow q_xup q_r].
  destruct (Rlt_dec 1 (3/2)); [|lra].
  unfold rdiv at 1. destruct (Req_EM_T (-4) 0); [lra|]. cbn [bind].
  unfold cast_int at 1. rewrite Rtrunc_zero by lra. cbn [bind int_min int_max Z.leb andb Z.compare].
  replace (1 + -4 * (1 + 0)) with (-3) by ring.
  destruct (Rlt_dec (-5/2) (-3)); [lra|]. cbn [bind].
  destruct (Rlt_dec (-3) (0 - -1/2)); [|lra].
  replace (-3 + 2 * (0 - -1/2 - -3)) with 4 by field.
  destruct (Rlt_dec (-1 + -1/2) 4); [|lra].
  cbn [bind].
  replace (4 - 2 * (4 - -1 - -1/2)) with (-7) by field.
  unfold quad_coord; cbn [q_lb q_ub q_al q_au].
  destruct (Rlt_dec (-7) (0 + -1/2)); [|lra].
  unfold rdiv at 1. destruct (Req_EM_T (-1/2) 0); [lra|]. cbn [bind].
  cbn [scale_f_step l_id scale_to_f l_pairs mapM2 bind fst snd].
  unfold scale_to_f; cbn [l_pairs mapM2 fst snd]. unfold rdiv. destruct (Req_EM_T (-1) 0); [lra|]. cbn [bind].
  do 2 f_equal. field.
Qed.

Lemma no_bounds_scaling_faults sc sh g v x :
  gp_scaling_pwq sc sh None = Ok g -> pheno g (v :: x) = Fault SizeMismatch.
Proof.
  unfold gp_scaling_pwq; intros H. apply bind_ok in H; destruct H as (l & _ & E). injection E as <-.
  reflexivity.
Qed.

Lemma custom_lin_uninit ge ph l y x :
  scale_to_internal l y = Ok x -> geno (mkGP NoBound (Some (ge, ph)) (LinScaling l)) y = Fault Uninit.
Proof. intros H; unfold geno; cbn [gp_bound gp_scale gp_custom]; rewrite H; reflexivity. Qed.
