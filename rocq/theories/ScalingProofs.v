From Coq Require Import Reals Lra Lia Psatz.
From Verif Require Import Base EoMatrix Pwq PwqProofs Scaling GenoPheno SpecBounds SpecGeno GenoPhenoProofs.
Open Scope R_scope.

Definition lin_ok (l : linscale) : Prop :=
  forall i p, nth_error (l_pairs l) i = Some p -> fst p <> 0.

Lemma mapM2_id_round {A} (f g : A -> R -> res R) (la : list A) x y :
  mapM2 f la x = Ok y ->
  (forall i a v w, nth_error la i = Some a -> f a v = Ok w -> g a w = Ok v) ->
  mapM2 g la y = Ok x.
Proof.
  revert x y; induction la as [|a la IH]; intros [|v x] y H Hr; simpl in H; try discriminate.
  - injection H as <-; reflexivity.
  - apply bind_ok in H; destruct H as [w [Hw H]].
    apply bind_ok in H; destruct H as [ws [Hws H]]; injection H as <-.
    cbn [mapM2]. rewrite (Hr 0%nat a v w eq_refl Hw); cbn [bind].
    rewrite (IH _ _ Hws); [reflexivity|]. intros i a' v' w' Ha; apply (Hr (S i)); exact Ha.
Qed.

Lemma scale_f_i l x y : lin_ok l -> scale_to_internal l y = Ok x -> scale_to_f l x = Ok y.
Proof.
  intros Hl H; eapply mapM2_id_round; [exact H|].
  intros i [s h] v w Ha E; injection E as <-; simpl in *.
  pose proof (Hl i _ Ha) as Hs; simpl in Hs.
  rewrite rdiv_nz by exact Hs; f_equal; field; exact Hs.
Qed.

Lemma scale_i_f l x y : lin_ok l -> scale_to_f l x = Ok y -> scale_to_internal l y = Ok x.
Proof.
  intros Hl H; eapply mapM2_id_round; [exact H|].
  intros i [s h] v w Ha E; simpl in *.
  pose proof (Hl i _ Ha) as Hs; simpl in Hs.
  rewrite rdiv_nz in E by exact Hs; injection E as <-; f_equal; field; exact Hs.
Qed.

Lemma scale_i_total l y : length y = length (l_pairs l) -> exists x, scale_to_internal l y = Ok x.
Proof. intros H; apply mapM2_all; [congruence|eauto]. Qed.

Lemma scale_f_total l x : lin_ok l -> length x = length (l_pairs l) -> exists y, scale_to_f l x = Ok y.
Proof.
  intros Hl H; apply mapM2_all; [congruence|].
  intros i p v Hp _. rewrite rdiv_nz by (eapply Hl; eauto); eauto.
Qed.

Lemma lin_make_ok lb ub :
  ordered lb ub -> exists l, lin_make lb ub = Ok l.
Proof.
  intros H; unfold lin_make.
  destruct (mapM2_all lin_coord lb ub) as [ps ->].
  - eapply Forall2_length_R; eauto.
  - intros i a b Ha Hb. unfold lin_coord.
    rewrite rdiv_nz by (pose proof (ordered_nth lb ub i a b H Ha Hb); lra). simpl; eauto.
  - simpl; eauto.
Qed.

Lemma lin_make_nth lb ub l :
  ordered lb ub -> lin_make lb ub = Ok l ->
  l_id l = false /\ length (l_pairs l) = length lb /\
  forall i a b, nth_error lb i = Some a -> nth_error ub i = Some b ->
    nth_error (l_pairs l) i = Some (10 / (b - a), 10 - 10 / (b - a) * b).
Proof.
  intros Ho H; unfold lin_make in H.
  apply bind_ok in H; destruct H as [ps [Hps E]]; injection E as <-; simpl.
  destruct (mapM2_ok_length _ _ _ _ Hps) as [_ L].
  split; [reflexivity|split; [exact L|]].
  intros i a b Ha Hb.
  destruct (mapM2_nth _ _ _ _ Hps i a b Ha Hb) as [c [Hc E]].
  unfold lin_coord in E.
  rewrite rdiv_nz in E by (pose proof (ordered_nth lb ub i a b Ho Ha Hb); lra).
  cbn [bind] in E; injection E as <-. unfold intmax, intmin in Hc.
  replace (10 - 0) with 10 in Hc by lra. exact Hc.
Qed.

Lemma lin_make_lin_ok lb ub l : ordered lb ub -> lin_make lb ub = Ok l -> lin_ok l.
Proof.
  intros Ho H i p Hp.
  destruct (lin_make_nth _ _ _ Ho H) as (_ & L & Hn).
  destruct (nth_error_same_len (l_pairs l) lb i p L Hp) as [a Ha].
  destruct (nth_error_same_len (l_pairs l) ub i p ltac:(pose proof (Forall2_length_R _ _ _ Ho); lia) Hp) as [b Hb].
  pose proof (Hn i a b Ha Hb) as E; rewrite Hp in E; injection E as ->; simpl.
  pose proof (ordered_nth lb ub i a b Ho Ha Hb).
  assert (0 < 10 / (b - a)) by (apply Rdiv_lt_0_compat; lra). lra.
Qed.

(** internal image of the bounds *)
Lemma scale_bounds lb ub l x :
  ordered lb ub -> lin_make lb ub = Ok l -> inside lb ub x ->
  exists z, scale_to_internal l x = Ok z /\ inside (repeat 0 (length lb)) (repeat 10 (length lb)) z.
Proof.
  intros Ho H (L1 & L2 & Hin).
  destruct (lin_make_nth _ _ _ Ho H) as (_ & L & Hn).
  destruct (scale_i_total l x ltac:(lia)) as [z Hz]; exists z; split; [exact Hz|].
  unfold scale_to_internal in Hz.
  destruct (mapM2_ok_length _ _ _ _ Hz) as [A B].
  split; [rewrite repeat_length; lia|split; [rewrite repeat_length; lia|]].
  intros i c0 c10 v Hc0 Hc10 Hv.
  assert (c0 = 0) by (apply nth_error_In, repeat_spec in Hc0; exact Hc0).
  assert (c10 = 10) by (apply nth_error_In, repeat_spec in Hc10; exact Hc10). subst c0 c10.
  destruct (nth_error_same_len z lb i v ltac:(lia) Hv) as [a Ha].
  destruct (nth_error_same_len z ub i v ltac:(lia) Hv) as [b Hb].
  destruct (nth_error_same_len z x i v ltac:(lia) Hv) as [t Ht].
  destruct (mapM2_nth _ _ _ _ Hz i _ t (Hn i a b Ha Hb) Ht) as [w [Hw E]].
  injection E as <-; rewrite Hv in Hw; injection Hw as ->; simpl.
  pose proof (ordered_nth lb ub i a b Ho Ha Hb) as Hab.
  pose proof (Hin i a b t Ha Hb Ht) as Ht'.
  assert (Hk : 0 < 10 / (b - a)) by (apply Rdiv_lt_0_compat; lra).
  assert (Hk2 : 10 / (b - a) * (b - a) = 10) by (field; lra).
  set (k := 10 / (b - a)) in *.
  split; nra.
Qed.

Lemma scale_back_bounds lb ub l z x :
  ordered lb ub -> lin_make lb ub = Ok l ->
  inside (repeat 0 (length lb)) (repeat 10 (length lb)) z ->
  scale_to_f l z = Ok x -> inside lb ub x.
Proof.
  intros Ho H (L1 & L2 & Hin) Hx.
  rewrite repeat_length in *.
  pose proof (Forall2_length_R _ _ _ Ho) as Lbu.
  destruct (lin_make_nth _ _ _ Ho H) as (_ & L & Hn).
  unfold scale_to_f in Hx.
  destruct (mapM2_ok_length _ _ _ _ Hx) as [A B].
  split; [lia|split; [lia|]].
  intros i a b v Ha Hb Hv.
  destruct (nth_error_same_len x z i v ltac:(lia) Hv) as [t Ht].
  destruct (mapM2_nth _ _ _ _ Hx i _ t (Hn i a b Ha Hb) Ht) as [w [Hw E]].
  rewrite Hv in Hw; injection Hw as <-. simpl in E.
  pose proof (ordered_nth lb ub i a b Ho Ha Hb) as Hab.
  assert (Hk : 0 < 10 / (b - a)) by (apply Rdiv_lt_0_compat; lra).
  assert (Hk2 : 10 / (b - a) * (b - a) = 10) by (field; lra).
  rewrite rdiv_nz in E by lra; injection E as <-.
  assert (Hlt : (i < length lb)%nat) by (apply nth_error_Some; congruence).
  assert (Ht' : 0 <= t <= 10).
  { apply (Hin i 0 10 t); [apply nth_error_repeat; exact Hlt|apply nth_error_repeat; exact Hlt|exact Ht]. }
  set (k := 10 / (b - a)) in *.
  replace ((t - (10 - k * b)) / k) with (b - (10 - t) / k) by (field; lra).
  assert (Hq : 0 <= (10 - t) / k <= b - a).
  { split; [apply Rmult_le_pos; [lra|apply Rlt_le, Rinv_0_lt_compat; lra]|].
    apply Rmult_le_reg_r with k; [lra|].
    replace ((10 - t) / k * k) with (10 - t) by (field; lra). nra. }
  lra.
Qed.

(** lb goes to 0 and ub to 10 *)
Lemma scale_lb lb ub l :
  ordered lb ub -> lin_make lb ub = Ok l -> scale_to_internal l lb = Ok (repeat 0 (length lb)).
Proof.
  intros Ho H.
  destruct (lin_make_nth _ _ _ Ho H) as (_ & L & Hn).
  destruct (scale_i_total l lb ltac:(lia)) as [z Hz]; rewrite Hz; f_equal.
  unfold scale_to_internal in Hz; destruct (mapM2_ok_length _ _ _ _ Hz) as [A B].
  assert (Hall : forall v, In v z -> v = 0).
  { intros v Hv; apply In_nth_error in Hv; destruct Hv as [i Hv].
    destruct (nth_error_same_len z lb i v ltac:(lia) Hv) as [a Ha].
    destruct (nth_error_same_len z ub i v ltac:(pose proof (Forall2_length_R _ _ _ Ho); lia) Hv) as [b Hb].
    destruct (mapM2_nth _ _ _ _ Hz i _ a (Hn i a b Ha Hb) Ha) as [w [Hw E]].
    rewrite Hv in Hw; injection Hw as <-; injection E as <-; simpl.
    pose proof (ordered_nth lb ub i a b Ho Ha Hb). field; lra. }
  rewrite L in B. rewrite <- B. clear -Hall.
  induction z as [|v z IH]; simpl; [reflexivity|].
  rewrite (Hall v (or_introl eq_refl)) at 1; f_equal. apply IH; intros w Hw; apply Hall; right; exact Hw.
Qed.

Lemma scale_ub lb ub l :
  ordered lb ub -> lin_make lb ub = Ok l -> scale_to_internal l ub = Ok (repeat 10 (length lb)).
Proof.
  intros Ho H.
  pose proof (Forall2_length_R _ _ _ Ho) as Lbu.
  destruct (lin_make_nth _ _ _ Ho H) as (_ & L & Hn).
  destruct (scale_i_total l ub ltac:(lia)) as [z Hz]; rewrite Hz; f_equal.
  unfold scale_to_internal in Hz; destruct (mapM2_ok_length _ _ _ _ Hz) as [A B].
  assert (Hall : forall v, In v z -> v = 10).
  { intros v Hv; apply In_nth_error in Hv; destruct Hv as [i Hv].
    destruct (nth_error_same_len z lb i v ltac:(lia) Hv) as [a Ha].
    destruct (nth_error_same_len z ub i v ltac:(lia) Hv) as [b Hb].
    destruct (mapM2_nth _ _ _ _ Hz i _ b (Hn i a b Ha Hb) Hb) as [w [Hw E]].
    rewrite Hv in Hw; injection Hw as <-; injection E as <-; simpl. lra. }
  rewrite L in B. rewrite <- B. clear -Hall.
  induction z as [|v z IH]; simpl; [reflexivity|].
  rewrite (Hall v (or_introl eq_refl)) at 1; f_equal. apply IH; intros w Hw; apply Hall; right; exact Hw.
Qed.

(** strictly increasing *)
Lemma scale_mono lb ub l x x' z z' :
  ordered lb ub -> lin_make lb ub = Ok l ->
  pointwise (fun _ a b => a < b) x x' ->
  scale_to_internal l x = Ok z -> scale_to_internal l x' = Ok z' ->
  pointwise (fun _ a b => a < b) z z'.
Proof.
  intros Ho H (Lx & Hx) Hz Hz'.
  destruct (lin_make_nth _ _ _ Ho H) as (_ & L & Hn).
  unfold scale_to_internal in *.
  destruct (mapM2_ok_length _ _ _ _ Hz) as [A B]; destruct (mapM2_ok_length _ _ _ _ Hz') as [A' B'].
  split; [lia|].
  intros i v v' Hv Hv'.
  destruct (nth_error_same_len z lb i v ltac:(lia) Hv) as [a Ha].
  destruct (nth_error_same_len z ub i v ltac:(pose proof (Forall2_length_R _ _ _ Ho); lia) Hv) as [b Hb].
  destruct (nth_error_same_len z x i v ltac:(lia) Hv) as [t Ht].
  destruct (nth_error_same_len z x' i v ltac:(lia) Hv) as [t' Ht'].
  destruct (mapM2_nth _ _ _ _ Hz i _ t (Hn i a b Ha Hb) Ht) as [w [Hw E]].
  destruct (mapM2_nth _ _ _ _ Hz' i _ t' (Hn i a b Ha Hb) Ht') as [w' [Hw' E']].
  rewrite Hv in Hw; injection Hw as <-; rewrite Hv' in Hw'; injection Hw' as <-.
  injection E as <-; injection E' as <-; simpl.
  pose proof (ordered_nth lb ub i a b Ho Ha Hb).
  assert (0 < 10 / (b - a)) by (apply Rdiv_lt_0_compat; lra).
  pose proof (Hx i t t' Ht Ht'). nra.
Qed.

(** * Bounds together with scaling *)

Lemma repeat_ordered n : ordered (repeat 0 n) (repeat 10 n).
Proof. induction n; simpl; constructor; [lra|assumption]. Qed.

Lemma gp_bounds_lin_inv cust lb ub g :
  ordered lb ub -> gp_bounds_lin cust lb ub = Ok g ->
  exists l p, g = mkGP (PwqBound p) cust (LinScaling l) /\ lin_make lb ub = Ok l /\
    goodp p /\ length p = length lb /\
    (forall i a b, nth_error lb i = Some a -> nth_error ub i = Some b ->
        nth_error p i = Some (pwq_coord 0 10 a b)).
Proof.
  intros Ho H; unfold gp_bounds_lin in H.
  apply bind_ok in H; destruct H as [l [Hl H]].
  apply bind_ok in H; destruct H as [p [Hp E]]; injection E as <-.
  exists l, p; split; [reflexivity|split; [exact Hl|]].
  destruct (pwq_make5_nth _ _ _ _ _ Hp) as [(L1 & L2 & L3 & L4) Hn].
  rewrite repeat_length in *.
  assert (Hn' : forall i a b, nth_error lb i = Some a -> nth_error ub i = Some b ->
        nth_error p i = Some (pwq_coord 0 10 a b)).
  { intros i a b Ha Hb.
    assert (Hi : (i < length lb)%nat) by (apply nth_error_Some; congruence).
    apply Hn; [apply nth_error_repeat; exact Hi|apply nth_error_repeat; exact Hi|exact Ha|exact Hb]. }
  split; [|split; [exact L1|exact Hn']].
  intros i q Hq.
  destruct (nth_error_same_len p lb i q ltac:(lia) Hq) as [a Ha].
  destruct (nth_error_same_len p ub i q ltac:(lia) Hq) as [b Hb].
  rewrite (Hn' i a b Ha Hb) in Hq; injection Hq as <-.
  apply pwq_coord_good; lra.
Qed.

Lemma gp_bounds_lin_total cust lb ub : ordered lb ub -> exists g, gp_bounds_lin cust lb ub = Ok g.
Proof.
  intros Ho; unfold gp_bounds_lin.
  destruct (lin_make_ok lb ub Ho) as [l ->]; cbn [bind].
  pose proof (Forall2_length_R _ _ _ Ho).
  destruct (pwq_make5_total (repeat intmin (length lb)) (repeat intmax (length lb)) lb ub) as [p ->];
    rewrite ?repeat_length; auto.
  cbn [bind]; eauto.
Qed.

Lemma feasible_lin cust lb ub g x :
  ordered lb ub -> len_pres cust -> gp_bounds_lin cust lb ub = Ok g -> length x = length lb ->
  (exists y, pheno g x = Ok y /\ inside lb ub y) \/ pheno g x = Fault IntCast.
Proof.
  intros Ho Hc Hg Hx.
  destruct (gp_bounds_lin_inv _ _ _ _ Ho Hg) as (l & p & -> & Hl & Gp & Lp & Hn).
  destruct (lin_make_nth _ _ _ Ho Hl) as (Hid & Ll & _).
  unfold pheno; cbn [gp_bound gp_scale].
  set (g := {| gp_bound := PwqBound p; gp_custom := cust; gp_scale := LinScaling l |}).
  assert (Hlx : length (custom_pheno g x) = length p)
    by (rewrite custom_pheno_len by exact Hc; lia).
  destruct (pwq_to_f p (custom_pheno g x)) as [z|e] eqn:Hz; cbn [bind scale_f_step].
  - left. rewrite Hid.
    destruct (pwq_to_f_range _ _ _ Gp Hlx Hz) as [Lz Hr].
    destruct (scale_f_total l z (lin_make_lin_ok _ _ _ Ho Hl) ltac:(lia)) as [y Hy].
    exists y; split; [exact Hy|].
    eapply scale_back_bounds; eauto.
    split; [rewrite repeat_length; lia|split; [rewrite repeat_length; lia|]].
    intros i c0 c10 v Hc0 Hc10 Hv.
    assert (c0 = 0) by (apply nth_error_In, repeat_spec in Hc0; exact Hc0).
    assert (c10 = 10) by (apply nth_error_In, repeat_spec in Hc10; exact Hc10). subst c0 c10.
    destruct (nth_error_same_len z lb i v ltac:(lia) Hv) as [a Ha].
    destruct (nth_error_same_len z ub i v ltac:(pose proof (Forall2_length_R _ _ _ Ho); lia) Hv) as [b Hb].
    exact (Hr i _ v (Hn i a b Ha Hb) Hv).
  - right; f_equal; eapply pwq_to_f_fault; eauto.
Qed.

Lemma round_trip_lin lb ub g y :
  ordered lb ub -> gp_bounds_lin None lb ub = Ok g -> inside lb ub y ->
  exists x, geno g y = Ok x /\ pheno g x = Ok y.
Proof.
  intros Ho Hg Hin.
  destruct (gp_bounds_lin_inv _ _ _ _ Ho Hg) as (l & p & -> & Hl & Gp & Lp & Hn).
  destruct (lin_make_nth _ _ _ Ho Hl) as (Hid & Ll & _).
  destruct (scale_bounds lb ub l y Ho Hl Hin) as (z & Hz & (Z1 & Z2 & Zin)).
  rewrite repeat_length in *.
  destruct (pwq_round p z Gp ltac:(lia)) as (x & Hx & Hf).
  - intros i q v Hq Hv.
    destruct (nth_error_same_len p lb i q ltac:(lia) Hq) as [a Ha].
    destruct (nth_error_same_len p ub i q ltac:(pose proof (Forall2_length_R _ _ _ Ho); lia) Hq) as [b Hb].
    rewrite (Hn i a b Ha Hb) in Hq; injection Hq as <-.
    assert (Hi : (i < length lb)%nat) by (apply nth_error_Some; congruence).
    cbn [pwq_coord q_lb q_ub].
    eapply Zin; [apply nth_error_repeat; exact Hi|apply nth_error_repeat; exact Hi|exact Hv].
  - exists x; unfold geno, pheno; cbn [gp_bound gp_scale scale_i_step scale_f_step bind].
    rewrite Hid, Hz; cbn [bind]; rewrite Hx; cbn [bind custom_geno gp_custom].
    split; [reflexivity|].
    cbn [custom_pheno gp_custom]; rewrite Hf; cbn [bind].
    eapply scale_f_i; [eapply lin_make_lin_ok; eauto|exact Hz].
Qed.

Lemma reported_bounds_lin cust lb ub g :
  ordered lb ub -> gp_bounds_lin cust lb ub = Ok g -> pheno_bounds g = Some (combine lb ub).
Proof.
  intros Ho Hg.
  destruct (gp_bounds_lin_inv _ _ _ _ Ho Hg) as (l & p & -> & Hl & Gp & Lp & Hn).
  cbn [pheno_bounds gp_bound]; f_equal.
  pose proof (Forall2_length_R _ _ _ Ho) as Lb.
  clear -Lp Hn Lb. revert lb ub Lp Lb Hn; induction p as [|q p IH]; intros [|a lb] [|b ub] Lp Lb Hn; simpl in *; try discriminate; [reflexivity|].
  pose proof (Hn 0%nat a b eq_refl eq_refl) as E; injection E as ->; simpl; f_equal.
  apply IH; try lia. intros i a' b' Ha Hb; exact (Hn (S i) a' b' Ha Hb).
Qed.

Lemma reported_bounds cust lb ub g :
  ordered lb ub -> gp_bounds cust lb ub = Ok g -> pheno_bounds g = Some (combine lb ub).
Proof.
  intros Ho Hg; unfold gp_bounds in Hg.
  apply bind_ok in Hg; destruct Hg as [p [Hp E]]; injection E as <-.
  destruct (pwq_make_nth _ _ _ Hp) as (Lp & Lb & Hn).
  cbn [pheno_bounds gp_bound]; f_equal.
  clear -Lp Hn Lb. revert lb ub Lp Lb Hn; induction p as [|q p IH]; intros [|a lb] [|b ub] Lp Lb Hn; simpl in *; try discriminate; [reflexivity|].
  pose proof (Hn 0%nat a b eq_refl eq_refl) as E; injection E as ->; simpl; f_equal.
  apply IH; try lia. intros i a' b' Ha Hb; exact (Hn (S i) a' b' Ha Hb).
Qed.

(** * User supplied scaling *)

Lemma lin_user_nth sc sh l :
  lin_user sc sh = Ok l ->
  l_id l = false /\ length (l_pairs l) = length sc /\ length sc = length sh /\
  forall i s h, nth_error sc i = Some s -> nth_error sh i = Some h ->
    nth_error (l_pairs l) i = Some (s, h).
Proof.
  intros H; unfold lin_user in H; apply bind_ok in H; destruct H as [ps [Hps E]]; injection E as <-.
  destruct (mapM2_ok_length _ _ _ _ Hps) as [A B]; simpl.
  split; [reflexivity|split; [exact B|split; [exact A|]]].
  intros i s h Hs Hh; destruct (mapM2_nth _ _ _ _ Hps i s h Hs Hh) as [c [Hc E]].
  injection E as <-; exact Hc.
Qed.

Lemma lin_user_total sc sh : length sc = length sh -> exists l, lin_user sc sh = Ok l.
Proof.
  intros H; unfold lin_user.
  destruct (mapM2_all (fun s h => Ok (s, h)) sc sh H) as [ps ->]; [eauto|]. simpl; eauto.
Qed.

Lemma lin_user_ok sc sh l :
  lin_user sc sh = Ok l -> (forall i s, nth_error sc i = Some s -> s <> 0) -> lin_ok l.
Proof.
  intros H Hs i p Hp.
  destruct (lin_user_nth _ _ _ H) as (_ & L1 & L2 & Hn).
  destruct (nth_error_same_len (l_pairs l) sc i p ltac:(lia) Hp) as [s E1].
  destruct (nth_error_same_len (l_pairs l) sh i p ltac:(lia) Hp) as [h E2].
  rewrite (Hn i s h E1 E2) in Hp; injection Hp as <-; simpl; eauto.
Qed.

(** scaling with positive factors keeps the order of the bounds *)
Lemma scaled_ordered sc sh l lb ub nlb nub :
  lin_user sc sh = Ok l -> (forall i s, nth_error sc i = Some s -> 0 < s) ->
  ordered lb ub -> scale_to_internal l lb = Ok nlb -> scale_to_internal l ub = Ok nub ->
  ordered nlb nub.
Proof.
  intros H Hs Ho Hl Hu.
  destruct (lin_user_nth _ _ _ H) as (_ & L1 & L2 & Hn).
  unfold scale_to_internal in *.
  destruct (mapM2_ok_length _ _ _ _ Hl) as [A B]; destruct (mapM2_ok_length _ _ _ _ Hu) as [A' B'].
  assert (Hp : forall i p, nth_error (l_pairs l) i = Some p -> 0 < fst p).
  { intros i p Hp.
    destruct (nth_error_same_len (l_pairs l) sc i p ltac:(lia) Hp) as [s E1].
    destruct (nth_error_same_len (l_pairs l) sh i p ltac:(lia) Hp) as [h E2].
    rewrite (Hn i s h E1 E2) in Hp; injection Hp as <-; simpl; eauto. }
  clear -Hl Hu Hp Ho. revert lb ub nlb nub Ho Hl Hu.
  induction (l_pairs l) as [|p ps IH]; intros lb ub nlb nub Ho Hl Hu;
    destruct Ho as [|a b lb ub Hab Ho]; simpl in *; try discriminate.
  - injection Hl as <-; injection Hu as <-; constructor.
  - apply bind_ok in Hl; destruct Hl as [xs [Hxs E]]; injection E as <-.
    apply bind_ok in Hu; destruct Hu as [ys [Hys E]]; injection E as <-.
    constructor.
    + pose proof (Hp 0%nat p eq_refl); nra.
    + eapply (IH (fun i p' Hp' => Hp (S i) p' Hp')); eauto.
Qed.

Lemma feasible_user_scaling sc sh lb ub g x :
  (forall i s, nth_error sc i = Some s -> 0 < s) -> length sc = length sh ->
  ordered lb ub -> length lb = length sc ->
  gp_scaling_pwq sc sh (Some (lb, ub)) = Ok g -> length x = length lb ->
  (exists y, pheno g x = Ok y /\ inside lb ub y) \/ pheno g x = Fault IntCast.
Proof.
  intros Hs Lss Ho Lb Hg Hx.
  unfold gp_scaling_pwq in Hg.
  apply bind_ok in Hg; destruct Hg as [l [Hl Hg]].
  apply bind_ok in Hg; destruct Hg as [nlb [Hnl Hg]].
  apply bind_ok in Hg; destruct Hg as [nub [Hnu Hg]].
  apply bind_ok in Hg; destruct Hg as [p [Hp E]]; injection E as <-.
  pose proof (scaled_ordered _ _ _ _ _ _ _ Hl Hs Ho Hnl Hnu) as Hno.
  pose proof (pwq_make_good _ _ _ Hno Hp) as Gp.
  destruct (pwq_make_nth _ _ _ Hp) as (Lp & Lnn & Hn).
  destruct (lin_user_nth _ _ _ Hl) as (Hid & L1 & L2 & Hln).
  pose proof (Forall2_length_R _ _ _ Ho) as Lbu.
  assert (Lnl : length nlb = length lb).
  { unfold scale_to_internal in Hnl; destruct (mapM2_ok_length _ _ _ _ Hnl); lia. }
  unfold pheno; cbn [gp_bound gp_scale custom_pheno gp_custom].
  destruct (pwq_to_f p x) as [z|e] eqn:Hz; cbn [bind scale_f_step].
  2:{ right; f_equal; apply (pwq_to_f_fault p x e Gp); [lia|exact Hz]. }
  left; rewrite Hid.
  destruct (pwq_to_f_range p x z Gp ltac:(lia) Hz) as [Lz Hr].
  assert (Hok : lin_ok l) by (eapply lin_user_ok; [exact Hl|]; intros i s E; pose proof (Hs i s E); lra).
  destruct (scale_f_total l z Hok ltac:(lia)) as [y Hy].
  exists y; split; [exact Hy|].
  unfold scale_to_f in Hy; destruct (mapM2_ok_length _ _ _ _ Hy) as [A B].
  split; [lia|split; [lia|]].
  intros i a b v Ha Hb Hv.
  destruct (nth_error_same_len y z i v ltac:(lia) Hv) as [t Ht].
  destruct (nth_error_same_len y sc i v ltac:(lia) Hv) as [s Es].
  destruct (nth_error_same_len y sh i v ltac:(lia) Hv) as [h Eh].
  pose proof (Hln i s h Es Eh) as Hpair.
  destruct (mapM2_nth _ _ _ _ Hy i _ t Hpair Ht) as [w [Hw E]].
  rewrite Hv in Hw; injection Hw as <-; simpl in E.
  pose proof (Hs i s Es) as Hsp.
  rewrite rdiv_nz in E by lra; injection E as <-.
  unfold scale_to_internal in Hnl, Hnu.
  destruct (mapM2_nth _ _ _ _ Hnl i _ a Hpair Ha) as [na [Hna E1]]; injection E1 as <-.
  destruct (mapM2_nth _ _ _ _ Hnu i _ b Hpair Hb) as [nb [Hnb E2]]; injection E2 as <-.
  simpl in *.
  pose proof (Hr i _ t (Hn i _ _ Hna Hnb) Ht) as Hrange; cbn [pwq_coord q_lb q_ub] in Hrange.
  assert (E3 : (t - h) / s * s = t - h) by (field; lra).
  split; apply Rmult_le_reg_r with s; try lra; rewrite E3; lra.
Qed.

Lemma gp_scaling_pwq_total sc sh lb ub :
  length sc = length sh -> length lb = length sc -> length ub = length sc ->
  exists g, gp_scaling_pwq sc sh (Some (lb, ub)) = Ok g.
Proof.
  intros H1 H2 H3; unfold gp_scaling_pwq.
  destruct (lin_user_total sc sh H1) as [l Hl]; rewrite Hl; cbn [bind].
  destruct (lin_user_nth _ _ _ Hl) as (Hid & L1 & L2 & Hln).
  destruct (scale_i_total l lb ltac:(lia)) as [nl Hnl]; rewrite Hnl; cbn [bind].
  destruct (scale_i_total l ub ltac:(lia)) as [nu Hnu]; rewrite Hnu; cbn [bind].
  unfold scale_to_internal in *.
  destruct (mapM2_ok_length _ _ _ _ Hnl); destruct (mapM2_ok_length _ _ _ _ Hnu).
  destruct (pwq_make_total nl nu ltac:(lia)) as [p ->]; cbn [bind]; eauto.
Qed.

(** * Populations *)

Lemma mapM_nth {A C} (f : A -> res C) la lc :
  mapM f la = Ok lc -> length lc = length la /\
  forall i a, nth_error la i = Some a -> exists c, nth_error lc i = Some c /\ f a = Ok c.
Proof.
  revert lc; induction la as [|a la IH]; intros lc H; simpl in H.
  - injection H as <-; split; [reflexivity|]; intros [|i]; discriminate.
  - apply bind_ok in H; destruct H as [c [Hc H]].
    apply bind_ok in H; destruct H as [cs [Hcs E]]; injection E as <-.
    destruct (IH _ Hcs) as [L Hn]; split; [simpl; lia|].
    intros [|i] a' Ha; simpl in *; [injection Ha as <-; eauto|eauto].
Qed.

Lemma mapM_compose {A B C} (f : A -> res B) (g : B -> res C) la :
  (do ys <- mapM f la; mapM g ys) = mapM (fun a => do b <- f a; g b) la
  \/ exists e e', (do ys <- mapM f la; mapM g ys) = Fault e /\ mapM (fun a => do b <- f a; g b) la = Fault e'.
Proof.
  induction la as [|a la IH]; simpl; [left; reflexivity|].
  destruct (f a) as [b|e]; simpl; [|left; reflexivity].
  destruct (mapM f la) as [bs|e] eqn:Hm; simpl in *.
  - destruct (g b) as [c|e]; simpl; [|left; reflexivity].
    destruct IH as [<-|(e1 & e2 & H1 & H2)]; [left; reflexivity|].
    rewrite H1, H2; simpl; right; eauto.
  - destruct IH as [E|(e1 & e2 & H1 & H2)].
    + rewrite <- E; simpl. destruct (g b); simpl; [left; reflexivity|right; eauto].
    + rewrite H2; destruct (g b); simpl; right; eauto.
Qed.

Lemma mapM_map {A B C} (f : A -> B) (g : B -> res C) la : mapM g (map f la) = mapM (fun a => g (f a)) la.
Proof. induction la as [|a la IH]; simpl; [reflexivity|]. rewrite IH; reflexivity. Qed.

Lemma mapM_ok_map {A B} (f : A -> B) la : mapM (fun a => Ok (f a)) la = Ok (map f la).
Proof. induction la as [|a la IH]; simpl; [reflexivity|]. rewrite IH; reflexivity. Qed.

(** Whole-population decoding succeeds exactly when every column decodes, and
    then gives the decoded columns. *)
Lemma pheno_mat_columns g xs ys :
  pheno_mat g xs = Ok ys <-> mapM (pheno g) xs = Ok ys.
Proof.
  unfold pheno_mat, pheno.
  destruct (gp_bound g) as [|p]; destruct (gp_scale g) as [|l].
  - rewrite mapM_ok_map; tauto.
  - rewrite mapM_map; tauto.
  - rewrite mapM_map.
    pose proof (mapM_compose (fun a => pwq_to_f p (custom_pheno g a)) (scale_f_step NoScaling) xs) as H.
    destruct H as [->|(e & e' & -> & ->)]; [tauto|split; discriminate].
  - rewrite mapM_map.
    pose proof (mapM_compose (fun a => pwq_to_f p (custom_pheno g a)) (scale_f_step (LinScaling l)) xs) as H.
    destruct H as [->|(e & e' & -> & ->)]; [tauto|split; discriminate].
Qed.

Lemma mapM_ext {A B} (f h : A -> res B) la : (forall a, f a = h a) -> mapM f la = mapM h la.
Proof. intros H; induction la as [|a la IH]; simpl; [reflexivity|]. rewrite H, IH; reflexivity. Qed.

(** Whole-population encoding with bounds succeeds exactly when every column
    encodes. *)
Lemma geno_mat_columns g p ys xs : gp_bound g = PwqBound p ->
  geno_mat g ys = Ok xs <-> mapM (geno g) ys = Ok xs.
Proof.
  intros E. unfold geno_mat, geno. rewrite E.
  pose proof (mapM_compose (scale_i_step (gp_scale g)) (pwq_to_internal p) ys) as H1.
  set (h := fun y => do c <- scale_i_step (gp_scale g) y; pwq_to_internal p c) in *.
  pose proof (mapM_compose h (fun x => Ok (custom_geno g x)) ys) as H2.
  assert (Q : mapM (geno g) ys = mapM (fun y => do x <- h y; Ok (custom_geno g x)) ys).
  { apply mapM_ext. intros y. unfold geno, h. rewrite E.
    destruct (scale_i_step (gp_scale g) y); reflexivity. }
  unfold geno in Q. rewrite E in Q. rewrite Q. clear Q.
  assert (Z : (do ss <- mapM (scale_i_step (gp_scale g)) ys; do xs <- mapM (pwq_to_internal p) ss; Ok (map (custom_geno g) xs))
            = do zs <- (do ss <- mapM (scale_i_step (gp_scale g)) ys; mapM (pwq_to_internal p) ss); Ok (map (custom_geno g) zs)).
  { destruct (mapM (scale_i_step (gp_scale g)) ys); reflexivity. }
  rewrite Z; clear Z.
  assert (W : (do b <- mapM h ys; mapM (fun x => Ok (custom_geno g x)) b) = do zs <- mapM h ys; Ok (map (custom_geno g) zs)).
  { destruct (mapM h ys); [|reflexivity]. apply mapM_ok_map. }
  rewrite W in H2; clear W.
  destruct H1 as [->|(e & e' & -> & X)].
  - destruct H2 as [->|(a & b & -> & ->)]; [tauto|split; discriminate].
  - fold h in X. rewrite X in H2. destruct H2 as [H2|(a & b & _ & ->)]; [rewrite <- H2|]; split; discriminate.
Qed.

(** * Custom transforms *)

Lemma custom_nb ge ph x :
  let g := mkGP NoBound (Some (ge, ph)) NoScaling in
  geno g x = Ok (ge x) /\ pheno g x = Ok (ph x).
Proof. split; reflexivity. Qed.

Lemma custom_nb_lin_pheno ge ph l x :
  pheno (mkGP NoBound (Some (ge, ph)) (LinScaling l)) x = scale_to_f l (ph x).
Proof. reflexivity. Qed.
