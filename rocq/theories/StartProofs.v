From Coq Require Import Reals List ZArith Lia Lra Psatz.
From Verif Require Import Base Params Pwq PwqProofs Scaling GenoPheno SpecBounds SpecGeno GenoPhenoProofs ScalingProofs Update Start SpecStart.
Import ListNotations.
Open Scope R_scope.

Lemma mapM2_pure {A B C} (f : A -> B -> C) la : forall lb lc, mapM2 (fun a b => Ok (f a b)) la lb = Ok lc ->
  length la = length lb /\ length lc = length la /\
  forall i a b, nth_error la i = Some a -> nth_error lb i = Some b -> nth_error lc i = Some (f a b).
Proof.
  intros lb lc H. destruct (mapM2_ok_length _ _ _ _ H) as [L1 L2]. split; [exact L1|]. split; [exact L2|].
  intros i a b Ha Hb. destruct (mapM2_nth _ _ _ _ H i a b Ha Hb) as [c [Hc E]]. injection E as <-. exact Hc.
Qed.
Lemma Forall2_nth {A B} (P : A -> B -> Prop) l l' : Forall2 P l l' -> forall i a b, nth_error l i = Some a -> nth_error l' i = Some b -> P a b.
Proof. induction 1 as [|x y l l' H _ IH]; intros [|i] a b Ha Hb; cbn in *; try discriminate; [congruence|eauto]. Qed.
Lemma Forall_nth_error {A} (P : A -> Prop) l : Forall P l -> forall i a, nth_error l i = Some a -> P a.
Proof. induction 1 as [|x l H _ IH]; intros [|i] a Ha; cbn in *; try discriminate; [congruence|eauto]. Qed.

Lemma pure_total {A B C} (f : A -> B -> C) la lb : length la = length lb -> exists lc, mapM2 (fun a b => Ok (f a b)) la lb = Ok lc.
Proof. intros L. apply mapM2_all; [exact L|eauto]. Qed.
Lemma point_ok dim lo hi u : box dim lo hi -> draws dim u -> exists x, initial_point dim (lo, hi) u = Ok x /\ start_point lo hi [] x.
Proof.
  intros (L1 & L2 & B & G) (Lu & U). unfold initial_point.
  destruct (list_eq_dec Req_EM_T lo hi) as [E|E].
  - destruct (list_eq_dec Req_EM_T lo _) as [E'|E']; [destruct (G E')|]. exists lo. split; [reflexivity|]. split; [reflexivity|].
    subst hi. cbn [map_find]. intros i l h v Hl Hh Hv. assert (l = h) by congruence. assert (v = l) by congruence. lra.
  - destruct (pure_total (fun a b => b - a) lo hi ltac:(lia)) as [w Hw]. rewrite Hw. cbn [bind]. apply mapM2_pure in Hw as (A1 & A2 & A3).
    destruct (pure_total (fun v c => 0.5 * (v + 1) * c) u w ltac:(lia)) as [p Hp]. rewrite Hp. cbn [bind]. apply mapM2_pure in Hp as (B1 & B2 & B3).
    destruct (pure_total (fun c a => c + a) p lo ltac:(lia)) as [x Hx]. rewrite Hx. exists x. split; [reflexivity|]. apply mapM2_pure in Hx as (C1 & C2 & C3).
    split; [lia|]. cbn [map_find]. intros i l h v Hl Hh Hv.
    destruct (nth_error_same_len lo u i l ltac:(lia) Hl) as [t Ht].
    pose proof (A3 i l h Hl Hh) as W. pose proof (B3 i _ _ Ht W) as P. pose proof (C3 i _ _ P Hl) as V. rewrite V in Hv. injection Hv as <-.
    pose proof (Forall2_nth _ _ _ B i l h Hl Hh). pose proof (Forall_nth_error _ _ U i t Ht) as T. cbv beta in T. nra.
Qed.
Lemma auto_ok dim u : draws dim u -> exists x, initial_point dim (set_x0_value dim (- dbl_max_R)) u = Ok x /\
  length x = dim /\ Forall (fun v => -4 <= v <= 4) x.
Proof.
  intros (Lu & U). exists (map (fun v => v * 4) u). split; [|rewrite map_length; split; [exact Lu|]].
  - unfold initial_point, set_x0_value. destruct (list_eq_dec Req_EM_T (repeat (- dbl_max_R) dim) (repeat (- dbl_max_R) dim)) as [_|N]; [reflexivity|destruct (N eq_refl)].
  - apply Forall_map. revert U. apply Forall_impl. intros a Ha. lra.
Qed.

Lemma set_nth_length i v : forall x, length (set_nth i v x) = length x.
Proof. induction i; intros [|a x]; cbn; auto. Qed.
Lemma set_nth_at i v : forall x j, nth_error (set_nth i v x) j = if Nat.eqb j i then match nth_error x j with Some _ => Some v | None => None end else nth_error x j.
Proof.
  induction i as [|i IH]; intros [|a x] [|j]; cbn; auto.
  - destruct (Nat.eqb j i); reflexivity.
Qed.
Lemma find_absent (fx : list (Z * R)) k : ~ In k (map fst fx) -> map_find fx k = None.
Proof. induction fx as [|[a b] fx IH]; auto. cbn. intros N. destruct (a =? k)%Z eqn:Q; [apply Z.eqb_eq in Q; tauto|]. apply IH. tauto. Qed.
Lemma fixed_spec fx : forall x, fixed_in (length x) fx -> exists y, set_fixed fx x = Ok y /\ length y = length x /\
  forall i v, nth_error y i = Some v -> match map_find fx (Z.of_nat i) with Some w => v = w | None => nth_error x i = Some v end.
Proof.
  induction fx as [|[k w] fx IH]; intros x [N G]; cbn [set_fixed map_find] in *.
  - exists x. auto.
  - cbn [map fst] in N. inversion N as [|? ? N1 N2]; subst. inversion G as [|? ? G1 G2]; subst. cbn [fst] in G1.
    destruct (IH (set_nth (Z.to_nat k) w x)) as (y & Hy & L & F); [rewrite set_nth_length; split; assumption|].
    exists y. rewrite set_nth_length in L. split; [|split; [exact L|]].
    + replace ((0 <=? k)%Z && (k <? Z.of_nat (length x))%Z) with true; [exact Hy|]. symmetry. apply andb_true_intro.
      split; [apply Z.leb_le|apply Z.ltb_lt]; lia.
    + intros i v Hv. specialize (F i v Hv). destruct (k =? Z.of_nat i)%Z eqn:K.
      * apply Z.eqb_eq in K. rewrite (find_absent fx (Z.of_nat i)) in F by (rewrite <- K; exact N1). rewrite set_nth_at in F.
        replace (Z.to_nat k) with i in F by lia. rewrite Nat.eqb_refl in F. destruct (nth_error x i); congruence.
      * apply Z.eqb_neq in K. destruct (map_find fx (Z.of_nat i)); [exact F|]. rewrite set_nth_at in F.
        assert (Q : Nat.eqb i (Z.to_nat k) = false) by (apply Nat.eqb_neq; lia). rewrite Q in F. exact F.
Qed.
Lemma placed dim lo hi u fx : box dim lo hi -> draws dim u -> fixed_in dim fx ->
  exists x y, initial_point dim (lo, hi) u = Ok x /\ set_fixed fx x = Ok y /\ start_point lo hi fx y.
Proof.
  intros B D N. destruct (point_ok _ _ _ _ B D) as (x & Hx & L & P). destruct B as (B & _).
  destruct (fixed_spec fx x) as (y & Hy & L' & F); [rewrite L, B; exact N|]. exists x, y. split; [exact Hx|]. split; [exact Hy|].
  split; [lia|]. intros i l h v Hl Hh Hv. specialize (F i v Hv). destruct (map_find fx (Z.of_nat i)); [exact F|].
  exact (P i l h v Hl Hh F).
Qed.
Lemma mean_of_point g dim lo hi fx u : box dim lo hi -> draws dim u -> fixed_in dim fx ->
  exists y, start_point lo hi fx y /\ length y = dim /\ initial_mean g dim (lo, hi) fx u = scale_i_step (gp_scale g) y.
Proof.
  intros B D N. destruct (placed _ _ _ _ _ B D N) as (x & y & Hx & Hy & P). exists y. split; [exact P|]. destruct P as [L _]. destruct B as (L1 & _).
  split; [lia|]. unfold initial_mean. rewrite Hx. cbn [bind]. rewrite Hy. reflexivity.
Qed.

(** A scaling that can be undone. *)
Definition scale_ok (dim : nat) (s : sstrat) : Prop :=
  match s with NoScaling => True | LinScaling l => l_id l = false /\ lin_ok l /\ length (l_pairs l) = dim end.
Lemma scale_there dim s y : scale_ok dim s -> length y = dim -> exists m, scale_i_step s y = Ok m /\ length m = dim /\ scale_f_step s m = Ok y.
Proof.
  destruct s as [|l]; cbn [scale_ok scale_i_step scale_f_step]; intros H L; [exists y; auto|].
  destruct H as (-> & K & E). destruct (scale_i_total l y ltac:(lia)) as [m Hm]. exists m. split; [exact Hm|]. split.
  - unfold scale_to_internal in Hm. destruct (mapM2_ok_length _ _ _ _ Hm). lia.
  - eapply scale_f_i; eauto.
Qed.
Lemma scale_back dim s y m z : scale_ok dim s -> scale_i_step s y = Ok m -> scale_f_step s z = Ok y -> z = m.
Proof.
  destruct s as [|l]; cbn [scale_ok scale_i_step scale_f_step]; intros H H1 H2; [congruence|].
  destruct H as (E & K & _). rewrite E in *. pose proof (scale_i_f _ _ _ K H2) as Q. congruence.
Qed.

(** Without bounds. *)
Lemma start_no_bounds g dim lo hi fx u : gp_bound g = NoBound -> gp_custom g = None -> scale_ok dim (gp_scale g) ->
  box dim lo hi -> draws dim u -> fixed_in dim fx -> starts_between g dim lo hi fx u.
Proof.
  intros NB NC SO B D N. destruct (mean_of_point g _ _ _ _ _ B D N) as (y & P & L & E).
  destruct (scale_there _ _ _ SO L) as (m & Hm & _ & Hb). exists m, y. unfold set_x0_box. rewrite E. split; [exact Hm|]. split; [|exact P].
  unfold pheno. rewrite NB. unfold custom_pheno. rewrite NC. destruct (gp_scale g) as [|l]; [exact Hb|]. cbn [scale_f_step scale_ok] in *. destruct SO as (Q & _). rewrite Q in Hb. exact Hb.
Qed.
Lemma lin_scale_ok lb ub l : ordered lb ub -> lin_make lb ub = Ok l -> scale_ok (length lb) (LinScaling l).
Proof. intros O H. destruct (lin_make_nth _ _ _ O H) as (A & B & _). split; [exact A|]. split; [eapply lin_make_lin_ok; eauto|exact B]. Qed.
Lemma user_scale_ok sc sh l : (forall i s, nth_error sc i = Some s -> s <> 0) -> lin_user sc sh = Ok l -> scale_ok (length sc) (LinScaling l).
Proof. intros O H. destruct (lin_user_nth _ _ _ H) as (A & B & _). split; [exact A|]. split; [eapply lin_user_ok; eauto|exact B]. Qed.

(** One coordinate: the transform leaves a point of the interval where it is
    exactly between the strips. *)
Lemma tof_fixed q v : good q -> q_lb q <= v <= q_ub q -> tof q v = Ok v -> q_lb q + q_al q <= v <= q_ub q - q_au q.
Proof.
  intros Gd V H. pose proof Gd as [g1 g2 g3 g4 g5 g6 g7 g8].
  unfold tof in H. rewrite shift_coord_id in H; [|exact Gd|lra]. cbn [bind] in H.
  destruct (Rlt_dec v (q_lb q + q_al q)) as [A|A]; [|destruct (Rlt_dec (q_ub q - q_au q) v) as [A2|A2]; [|lra]].
  - exfalso. rewrite quad_low in H by assumption. injection H as H.
    assert (E : (v - (q_lb q - q_al q)) * (v - (q_lb q - q_al q)) / 4 / q_al q = v - q_lb q) by lra.
    apply (f_equal (fun t => t * (4 * q_al q))) in E.
    replace ((v - (q_lb q - q_al q)) * (v - (q_lb q - q_al q)) / 4 / q_al q * (4 * q_al q)) with ((v - (q_lb q - q_al q)) * (v - (q_lb q - q_al q))) in E by (field; lra).
    assert (0 < (q_lb q + q_al q - v) * (q_lb q + q_al q - v)) by (apply Rmult_lt_0_compat; lra). nra.
  - exfalso. rewrite quad_high in H by assumption. injection H as H.
    assert (E : (v - (q_ub q + q_au q)) * (v - (q_ub q + q_au q)) / 4 / q_au q = q_ub q - v) by lra.
    apply (f_equal (fun t => t * (4 * q_au q))) in E.
    replace ((v - (q_ub q + q_au q)) * (v - (q_ub q + q_au q)) / 4 / q_au q * (4 * q_au q)) with ((v - (q_ub q + q_au q)) * (v - (q_ub q + q_au q))) in E by (field; lra).
    assert (0 < (v - (q_ub q - q_au q)) * (v - (q_ub q - q_au q))) by (apply Rmult_lt_0_compat; lra). nra.
Qed.
Definition core (p : pwq) (m : list R) : Prop :=
  forall i q v, nth_error p i = Some q -> nth_error m i = Some v -> q_lb q + q_al q <= v <= q_ub q - q_au q.
Lemma fixed_all p : forall m, length m = length p -> (forall i q v, nth_error p i = Some q -> nth_error m i = Some v -> tof q v = Ok v) -> mapM2 tof p m = Ok m.
Proof.
  induction p as [|q p IH]; intros [|v m] L H; cbn in *; try discriminate; [reflexivity|].
  rewrite (H 0%nat q v eq_refl eq_refl). cbn [bind]. rewrite IH; [reflexivity|lia|]. intros i a b Ha Hb. apply (H (S i)); assumption.
Qed.
Lemma pheno_core g p dim y m : gp_bound g = PwqBound p -> gp_custom g = None -> scale_ok dim (gp_scale g) -> goodp p -> length p = dim -> length y = dim ->
  scale_i_step (gp_scale g) y = Ok m ->
  (core p m -> pheno g m = Ok y) /\
  ((forall i q v, nth_error p i = Some q -> nth_error m i = Some v -> q_lb q <= v <= q_ub q) -> pheno g m = Ok y -> core p m).
Proof.
  intros NB NC SO G Lp Ly Hm. destruct (scale_there _ _ _ SO Ly) as (m' & Hm' & Lm & Hb). rewrite Hm in Hm'. injection Hm' as <-.
  unfold pheno, custom_pheno. rewrite NB, NC. rewrite pwq_to_f_tof by (assumption || lia). split.
  - intros C. rewrite fixed_all; [exact Hb|lia|]. intros i q v Hq Hv. apply tof_core; [eapply G; eauto|eapply C; eauto].
  - intros I H. apply bind_ok in H. destruct H as [z [Hz H]]. pose proof (scale_back _ _ _ _ _ SO Hm H) as ->.
    intros i q v Hq Hv. destruct (mapM2_nth _ _ _ _ Hz i q v Hq Hv) as [w [Hw E]]. rewrite Hv in Hw. injection Hw as <-.
    apply tof_fixed; [eapply G; eauto|eapply I; eauto|exact E].
Qed.
(** The three ways to give bounds: where the strips are in terms of the point. *)
Lemma start_bounds g p dim lo hi fx u : gp_bound g = PwqBound p -> gp_custom g = None -> scale_ok dim (gp_scale g) -> goodp p -> length p = dim ->
  (forall y m, start_point lo hi fx y -> scale_i_step (gp_scale g) y = Ok m -> core p m) ->
  box dim lo hi -> draws dim u -> fixed_in dim fx -> starts_between g dim lo hi fx u.
Proof.
  intros NB NC SO G Lp H B D N. destruct (mean_of_point g _ _ _ _ _ B D N) as (y & P & L & E).
  destruct (scale_there _ _ _ SO L) as (m & Hm & _ & Hb). exists m, y. unfold set_x0_box. rewrite E. split; [exact Hm|]. split; [|exact P].
  destruct (pheno_core g p dim y m NB NC SO G Lp L Hm) as [A _]. apply A. eapply H; eauto.
Qed.
Lemma start_exact g p dim x0 u : gp_bound g = PwqBound p -> gp_custom g = None -> scale_ok dim (gp_scale g) -> goodp p -> length p = dim ->
  box dim x0 x0 -> draws dim u ->
  exists m, scale_i_step (gp_scale g) x0 = Ok m /\ 
  ((forall i q v, nth_error p i = Some q -> nth_error m i = Some v -> q_lb q <= v <= q_ub q) -> (starts_at g dim x0 u <-> core p m)).
Proof.
  intros NB NC SO G Lp B D. pose proof B as (L & _ & _ & NA). destruct (scale_there _ _ _ SO L) as (m & Hm & _ & Hb). exists m. split; [exact Hm|]. intros I.
  destruct (pheno_core g p dim x0 m NB NC SO G Lp L Hm) as [A1 A2].
  assert (E : initial_mean g dim (set_x0_vector x0) [] u = Ok m).
  { unfold initial_mean, initial_point, set_x0_vector. destruct (list_eq_dec Req_EM_T x0 x0) as [_|Q]; [|destruct (Q eq_refl)].
    destruct (list_eq_dec Req_EM_T x0 _) as [Q|_]; [destruct (NA Q)|]. exact Hm. }
  unfold starts_at. rewrite E. split.
  - intros (m' & Q & H). injection Q as <-. auto.
  - intros C. exists m. auto.
Qed.

Lemma bounds_core lb ub p m : ordered lb ub -> pwq_make lb ub = Ok p -> length m = length lb -> (core p m <-> off_strips lb ub m).
Proof.
  intros O Hp L. destruct (pwq_make_nth _ _ _ Hp) as (L1 & L2 & Hn). split.
  - intros C i l u v Hl Hu Hv. specialize (C i _ v (Hn i l u Hl Hu) Hv). rewrite strip_al, strip_au in C. exact C.
  - intros C i q v Hq Hv. destruct (nth_error_same_len p lb i q ltac:(lia) Hq) as [l Hl]. destruct (nth_error_same_len p ub i q ltac:(lia) Hq) as [u Hu].
    pose proof (Hn i l u Hl Hu) as E. rewrite Hq in E. injection E as ->. rewrite strip_al, strip_au. exact (C i l u v Hl Hu Hv).
Qed.
Lemma bounds_inside lb ub p m : pwq_make lb ub = Ok p -> inside lb ub m ->
  forall i q v, nth_error p i = Some q -> nth_error m i = Some v -> q_lb q <= v <= q_ub q.
Proof.
  intros Hp (_ & _ & I) i q v Hq Hv. destruct (pwq_make_nth _ _ _ Hp) as (L1 & L2 & Hn).
  destruct (nth_error_same_len p lb i q ltac:(lia) Hq) as [l Hl]. destruct (nth_error_same_len p ub i q ltac:(lia) Hq) as [u Hu].
  pose proof (Hn i l u Hl Hu) as E. rewrite Hq in E. injection E as ->. exact (I i l u v Hl Hu Hv).
Qed.
Lemma lin_core lb ub l p y m : ordered lb ub -> lin_make lb ub = Ok l -> length p = length lb ->
  (forall i a b, nth_error lb i = Some a -> nth_error ub i = Some b -> nth_error p i = Some (pwq_coord 0 10 a b)) ->
  length y = length lb -> scale_to_internal l y = Ok m -> (core p m <-> off_scaled_strips lb ub y).
Proof.
  intros O Hl Lp Hn Ly Hm. destruct (lin_make_nth _ _ _ O Hl) as (_ & L & Hp). pose proof (Forall2_length_R _ _ _ O) as Lbu.
  unfold scale_to_internal in Hm. destruct (mapM2_ok_length _ _ _ _ Hm) as [A B].
  assert (K : forall a b v, a < b -> (0 + strip 0 10 0 <= 10 / (b - a) * v + (10 - 10 / (b - a) * b) <= 10 - strip 0 10 10 <-> a + (b - a) / 200 <= v <= b - 11 * (b - a) / 200)).
  { intros a b v Hab. replace (strip 0 10 0) with (1 / 20) by (unfold strip; rewrite Rabs_R0; rewrite Rmin_right; lra).
    replace (strip 0 10 10) with (11 / 20) by (unfold strip; rewrite Rabs_pos_eq by lra; rewrite Rmin_right; lra).
    assert (Hk : 0 < 10 / (b - a)) by (apply Rdiv_lt_0_compat; lra). assert (Hk2 : 10 / (b - a) * (b - a) = 10) by (field; lra).
    set (k := 10 / (b - a)) in *. split; intros [H1 H2]; split; try nra; apply Rmult_le_reg_l with k; try nra. }
  split.
  - intros C i a b v Ha Hb Hv. destruct (mapM2_nth _ _ _ _ Hm i _ v (Hp i a b Ha Hb) Hv) as [w [Hw E]]. injection E as <-.
    specialize (C i _ _ (Hn i a b Ha Hb) Hw). rewrite strip_al, strip_au in C. cbn [pwq_coord q_lb q_ub fst snd] in C.
    apply K; [eapply ordered_nth; eauto|]. lra.
  - intros C i q w Hq Hw. destruct (nth_error_same_len p lb i q ltac:(lia) Hq) as [a Ha]. destruct (nth_error_same_len p ub i q ltac:(lia) Hq) as [b Hb].
    destruct (nth_error_same_len p y i q ltac:(lia) Hq) as [v Hv].
    pose proof (Hn i a b Ha Hb) as E. rewrite Hq in E. injection E as ->.
    destruct (mapM2_nth _ _ _ _ Hm i _ v (Hp i a b Ha Hb) Hv) as [w' [Hw' E]]. injection E as <-. rewrite Hw in Hw'. injection Hw' as ->.
    rewrite strip_al, strip_au. cbn [pwq_coord q_lb q_ub fst snd]. pose proof (proj2 (K a b v (ordered_nth _ _ _ _ _ O Ha Hb)) (C i a b v Ha Hb Hv)). lra.
Qed.
