(** Accesses and termination in the profile likelihood. *)
From Coq Require Import Reals Lra.
From Verif Require Import Base EoMatrix Pwq Scaling GenoPheno SpecBounds SpecGeno Errstats SpecErr
  EoMatrixProofs PwqProofs GenoPhenoProofs ScalingProofs GpParProofs ErrVec ErrVpk ErrPli.
Local Open Scope nat_scope.

Lemma get_Z {A} (l : list A) i a : get l (Z.of_nat i) = Ok a -> i < length l.
Proof. intros H. apply get_ok in H. apply nth_error_Some. congruence. Qed.
Lemma put_len {A} (l l' : list A) i a : put l i a = Ok l' -> length l' = length l.
Proof. intros H. apply put_Z in H. destruct H as (_ & H & ->). apply put_nat_length. exact H. Qed.

Section Safe.
Variable func : list R -> R.
Variable par : epar.
Variable cm : (list R -> R) -> ipar -> res iout.
Variable n : nat.
Hypothesis Hgp : built n (a_gp par).
Hypothesis Hn : (Z.of_nat n < 2147483648)%Z.
Hypothesis Hdim : a_dim par = n.
Variable eigv : list (list R).
Hypothesis He : length eigv = n.
Hypothesis Her : Forall (fun r => length r = n) eigv.
Variable k : nat.
Hypothesis Hk : k < n.

Lemma in_bounds_range y : length y = n -> in_range (in_bounds par y k).
Proof.
  intros Hy. unfold in_bounds. apply in_range_bind; [apply get_in_range; lia|]. intros v _.
  destruct (built_shape _ _ Hgp) as (_ & Hp & _). unfold pheno_bounds. destruct (gp_bound (a_gp par)) as [|p]; [apply in_range_ok|].
  apply in_range_bind; [apply get_in_range; rewrite map_length; lia|]. intros b _. apply in_range_ok.
Qed.
Lemma direction_ok d : exists r, direction par eigv k d = Ok r /\ length r = n.
Proof.
  unfold direction. rewrite He, Hdim, Nat.eqb_refl, get_nat.
  destruct (nth_error eigv k) as [r|] eqn:E.
  - cbn [bind]. eexists; split; [reflexivity|]. rewrite map_length.
    exact (proj1 (Forall_forall _ _) Her r (nth_error_In _ _ E)).
  - apply nth_error_None in E. lia.
Qed.
Lemma vadd_ok x y : length x = n -> length y = n -> exists z, vadd x y = Ok z /\ length z = n.
Proof.
  intros Hx Hy. unfold vadd. destruct (mapM2 (fun a b => Ok (a + b)%R) x y) as [z|e] eqn:E.
  - exists z. split; [reflexivity|]. apply mapM2_ok_length in E. lia.
  - apply mapM2_fault in E; [|lia]. destruct E as (i & a & b & _ & _ & E). discriminate.
Qed.
Lemma vsub_ok x y : length x = n -> length y = n -> exists z, vsub x y = Ok z /\ length z = n.
Proof.
  intros Hx Hy. unfold vsub. destruct (mapM2 (fun a b => Ok (a - b)%R) x y) as [z|e] eqn:E.
  - exists z. split; [reflexivity|]. apply mapM2_ok_length in E. lia.
  - apply mapM2_fault in E; [|lia]. destruct E as (i & a & b & _ & _ & E). discriminate.
Qed.
Lemma diverges_in_range {A} : in_range (Fault Diverges : res A).
Proof. repeat split; discriminate. Qed.

Lemma step_range above minf fup fd linit x : length x = n -> forall fuel i d xtmp y fdiff, length xtmp = n -> length y = n ->
  in_range (step_loop func par fuel above k minf fup fd linit eigv x i d xtmp y fdiff) /\
  forall q, step_loop func par fuel above k minf fup fd linit eigv x i d xtmp y fdiff = Ok q -> length (snd q) = n.
Proof.
  intros Hx. induction fuel as [|fuel IH]; intros i d xtmp y fdiff Hxt Hy; cbn [step_loop].
  - split; [apply diverges_in_range|discriminate].
  - destruct (far above fup fd fdiff && (0 <? i)%nat).
    2:{ split; [apply in_range_ok|]. intros q E. injection E as <-. exact Hxt. }
    pose proof (in_bounds_range y Hy) as Hb. destruct (in_bounds par y k) as [[]|e]; cbn [bind].
    + destruct (direction_ok (if above then d / 2 else d * 2)%R) as (r & -> & Lr). cbn [bind].
      destruct (vadd_ok x r Hx Lr) as (z & -> & Lz). cbn [bind].
      pose proof (pheno_in_range n _ z (built_shape _ _ Hgp) Lz) as Hpr.
      destruct (pheno (a_gp par) z) as [w|e] eqn:Ew; cbn [bind].
      * apply IH; [exact Lz|]. exact (pheno_length n _ _ _ (built_shape _ _ Hgp) Lz Ew).
      * split; [destruct Hpr as (?&?&?); repeat split; congruence|discriminate].
    + split; [apply in_range_ok|]. intros q E. injection E as <-. exact Hxt.
    + split; [destruct Hb as (?&?&?); repeat split; congruence|discriminate].
Qed.

Lemma linear_range fuel minf fup delta m linit d x : length x = n ->
  in_range (take_linear_step func par fuel k minf fup delta m linit eigv d x) /\
  forall q, take_linear_step func par fuel k minf fup delta m linit eigv d x = Ok q -> length (snd q) = n.
Proof.
  intros Hx. unfold take_linear_step. cbv zeta.
  pose proof (pheno_in_range n _ x (built_shape _ _ Hgp) Hx) as Hpr.
  destruct (pheno (a_gp par) x) as [y|e] eqn:Ey; cbn [bind].
  2:{ split; [destruct Hpr as (?&?&?); repeat split; congruence|discriminate]. }
  pose proof (pheno_length n _ _ _ (built_shape _ _ Hgp) Hx Ey) as Ly.
  assert (T : forall above i x1 fdiff, length x1 = n ->
    let r := (do q <- step_loop func par fuel above k minf fup (delta * fup) linit eigv x1 i d x y fdiff;
              do v <- get (snd q) (Z.of_nat k); do x2 <- put x1 (Z.of_nat k) v; Ok (fst q, x2)) in
    in_range r /\ forall q, r = Ok q -> length (snd q) = n).
  { intros above i x1 fdiff L1 r. subst r. destruct (step_range above minf fup (delta * fup)%R linit x1 L1 fuel i d x y fdiff Hx Ly) as [S1 S2].
    split.
    - apply in_range_bind; [exact S1|]. intros q Hq. specialize (S2 q Hq).
      apply in_range_bind; [apply get_in_range; lia|]. intros v _. apply in_range_bind; [apply put_in_range; lia|]. intros. apply in_range_ok.
    - intros q H. apply bind_ok in H; destruct H as (q0 & _ & H). apply bind_ok in H; destruct H as (v & _ & H).
      apply bind_ok in H; destruct H as (x2 & H2 & H). injection H as <-. cbn [snd]. rewrite (put_len _ _ _ _ H2). exact L1. }
  destruct (rlt _ _).
  - destruct (direction_ok d) as (r & -> & Lr). cbn [bind]. destruct (vsub_ok x r Hx Lr) as (x1 & -> & L1). cbn [bind].
    apply T; exact L1.
  - apply T; exact Hx.
Qed.


(** ** The whole computation stays in range *)
Hypothesis Hcm : keeps_dim cm.
Hypothesis Hcr : forall rf ip, in_range (cm rf ip).
Variable sol : esol.
Hypothesis Hev : s_eigv sol = eigv.
Variables (c0 : ecand) (cs : list ecand).
Hypothesis Hc0 : s_cands sol = c0 :: cs.
Hypothesis Lc0 : length (ec_x c0) = n.

Lemma pk_best v x s : length x = n -> optimize_pk func par cm sol k v x false false = Ok s ->
  exists c, best s = Ok c /\ length (ec_x c) = n.
Proof.
  intros Hx H. destruct (le_lt_dec n 1) as [H1|H1].
  - unfold optimize_pk, optimize_vpk in H.
    apply bind_ok in H; destruct H as (st & Hst & H). apply bind_ok in H; destruct H as (c & Hc & H).
    apply bind_ok in H; destruct H as (sg & _ & H). apply bind_ok in H; destruct H as (p0 & _ & H).
    apply bind_ok in H; destruct H as (p & _ & H).
    rewrite Hc0 in Hc. cbn in Hc. apply Ok_inj in Hc; subst c.
    pose proof (pheno_length n _ _ _ (built_shape _ _ Hgp) Hx Hst) as Ls.
    assert (k = 0) by lia. subst k. destruct st as [|a [|b st]]; cbn [length] in Ls; try lia.
    cbn in H. apply Ok_inj in H; subst s. exists c0. split; [reflexivity|exact Lc0].
  - destruct (vpk_geno func par cm n Hgp Hn Hcm sol [k] [v] x false s (one_low n k Hk) H1 eq_refl Hx H)
      as (c & Hb & L & _). eauto.
Qed.

Lemma pl_loop_range sign s minf fup delta maxiters curve : (sign = 1 \/ sign = -1)%Z -> 0 < s ->
  forall fuel lfuel i linit d x l, i < s \/ curve = false -> length x = n ->
  length (p_fvaluem l) = 2 * s + 1 -> length (p_xm l) = 2 * s + 1 -> length (p_err l) = 2 * s + 1 ->
  Forall (fun r => length r = n) (p_xm l) ->
  in_range (pl_loop func par cm fuel lfuel sol k sign s minf fup delta maxiters curve i linit d x l) /\
  forall l', pl_loop func par cm fuel lfuel sol k sign s minf fup delta maxiters curve i linit d x l = Ok l' ->
    Forall (fun r => length r = n) (p_xm l').
Proof.
  intros Hs Hs0. induction fuel as [|fuel IH]; intros lfuel i linit d x l Hi Hx L1 L2 L3 L4; cbn [pl_loop].
  { split; [apply diverges_in_range|discriminate]. }
  rewrite Hev.
  assert (F : forall A (r : res A) (f : A -> res pli), in_range r ->
    (forall a, r = Ok a -> in_range (f a) /\ forall l', f a = Ok l' -> Forall (fun r => length r = n) (p_xm l')) ->
    in_range (bind r f) /\ forall l', bind r f = Ok l' -> Forall (fun r => length r = n) (p_xm l')).
  { intros A r f Hr Hf. destruct r as [a|e]; cbn [bind]; [apply Hf; reflexivity|].
    split; [destruct Hr as (?&?&?); repeat split; congruence|discriminate]. }
  assert (St : forall i f y e l l', Forall (fun r => length r = n) (p_xm l) -> length y = n -> pli_store i f y e l = Ok l' ->
    Forall (fun r => length r = n) (p_xm l')).
  { clear - Hn. intros i f y e l l' Fl Ly H. destruct (pli_store_ok _ _ _ _ _ _ H) as ([Hi _] & _ & R1 & R2).
    apply Forall_forall. intros r Hr. apply In_nth_error in Hr. destruct Hr as (j & Hj).
    destruct (Nat.eq_dec j (Z.to_nat i)) as [->|Hne].
    - unfold row in R1. rewrite Hj in R1. injection R1 as _ ->. exact Ly.
    - specialize (R2 j Hne). unfold row in R2. rewrite Hj in R2. injection R2 as _ E.
      exact (proj1 (Forall_forall _ _) Fl r (nth_error_In _ _ (eq_sym E))). }
  assert (Pa : forall m j f y e l l', Forall (fun r => length r = n) (p_xm l) -> length y = n ->
    pad j m (Z.of_nat s) sign f y e l = Ok l' -> Forall (fun r => length r = n) (p_xm l')).
  { clear - St. induction m as [|m IHm]; intros j f y e l l' Fl Ly H; cbn [pad] in H; [apply Ok_inj in H; subst; exact Fl|].
    apply bind_ok in H; destruct H as (l1 & H1 & H). exact (IHm _ _ _ _ _ _ (St _ _ _ _ _ _ Fl Ly H1) Ly H). }
  assert (Pr : forall f y e, length y = n -> in_range (pad 0 s (Z.of_nat s) sign f y e l) /\
    forall l', pad 0 s (Z.of_nat s) sign f y e l = Ok l' -> Forall (fun r => length r = n) (p_xm l')).
  { intros f y e Ly. split; [|intros l'; apply Pa; assumption].
    destruct (pad_total s 0 s sign f y e l Hs ltac:(lia) L1 ltac:(lia) ltac:(lia)) as (l' & ->). apply in_range_ok. }
  assert (Ce : forall e, in_range (pad_centre s sign e l) /\
    forall l', pad_centre s sign e l = Ok l' -> Forall (fun r => length r = n) (p_xm l')).
  { intros e. unfold pad_centre. destruct s as [|s']; [lia|]. remember (S s') as s''.
    apply F; [apply get_in_range; lia|]. intros f _. apply F; [apply get_in_range; lia|]. intros y Hy. apply Pr.
    apply get_ok in Hy. exact (proj1 (Forall_forall _ _) L4 y (nth_error_In _ _ Hy)). }
  destruct (linear_range lfuel minf fup delta 10 linit d x Hx) as [T1 T2].
  apply F; [exact T1|]. intros [d' x'] Hq. specialize (T2 _ Hq). cbn [snd] in T2.
  apply F; [apply get_in_range; lia|]. intros v _.
  apply F; [apply (vpk_in_range func par cm n Hgp Hn sol [k] [v] x' c0 cs Hcr (one_low n k Hk) eq_refl T2 Hc0 Lc0)|].
  intros ns Hns. destruct (pk_best v x' ns T2 Hns) as (b & Hb & Lb).
  destruct (s_status ns <? 0)%Z; [apply Ce|]. rewrite Hb; cbn [bind].
  destruct (rlt (ec_f b) (0.1 * minf)); [apply Ce|].
  apply F; [exact (pheno_in_range n _ _ (built_shape _ _ Hgp) Lb)|]. intros y Hy.
  pose proof (pheno_length n _ _ _ (built_shape _ _ Hgp) Lb Hy) as Ly.
  destruct curve; cbn [negb andb].
  - destruct Hi as [Hi|]; [|discriminate].
    assert (R : in_range (pli_store (Z.of_nat s + sign * (1 + Z.of_nat i)) (ec_f b) y (s_status ns) l)).
    { destruct (pli_store_in (Z.of_nat s + sign * (1 + Z.of_nat i)) (ec_f b) y (s_status ns) l) as (l1 & ->);
        [destruct Hs as [-> | ->]; lia|destruct Hs as [-> | ->]; lia|lia|lia|apply in_range_ok]. }
    apply F; [exact R|]. intros l1 Hl1. pose proof (St _ _ _ _ _ _ L4 Ly Hl1) as F1.
    destruct (pli_store_ok _ _ _ _ _ _ Hl1) as (_ & (_ & _ & _ & A1 & A2 & A3) & _).
    destruct (Nat.eqb_spec (S i) s); [split; [apply in_range_ok|intros l' E; apply Ok_inj in E; subst; exact F1]|].
    destruct (Z.of_nat (S i) =? maxiters)%Z; [split; [apply in_range_ok|intros l' E; apply Ok_inj in E; subst; exact F1]|].
    apply IH; [left; lia|exact Lb|lia|lia|lia|exact F1].
  - cbn [bind]. destruct (rle _ _); [apply Pr; exact Ly|].
    destruct (Z.of_nat (S i) =? maxiters)%Z; [split; [apply in_range_ok|intros l' E; apply Ok_inj in E; subst; exact L4]|].
    apply IH; auto.
Qed.

Variables (h0 : list ecand) (b0 : ecand).
Hypothesis Hh : s_hist sol = h0 ++ [b0].
Hypothesis Lb0 : length (ec_x b0) = n.

Lemma pl_in_range fuel lfuel curve s fup delta maxiters : 0 < s ->
  in_range (profile_likelihood func par cm fuel lfuel sol k curve s fup delta maxiters).
Proof.
  intros Hs. unfold profile_likelihood. rewrite (best_last _ _ _ Hh). cbn [bind].
  apply in_range_bind; [exact (pheno_in_range n _ _ (built_shape _ _ Hgp) Lb0)|]. intros y Hy.
  pose proof (pheno_length n _ _ _ (built_shape _ _ Hgp) Lb0 Hy) as Ly.
  apply in_range_bind.
  { unfold pli_new. rewrite Hdim, Ly, Nat.eqb_refl.
    apply in_range_bind; [apply put_in_range; rewrite repeat_length; lia|]. intros xs _.
    apply in_range_bind; [apply put_in_range; rewrite repeat_length; lia|]. intros fs _.
    apply in_range_bind; [apply put_in_range; rewrite repeat_length; lia|]. intros es _. apply in_range_ok. }
  intros l0 Hl0. destruct (pli_new_ok _ _ _ _ _ _ _ _ Hl0) as (_ & K0 & S0 & F0 & A1 & A2 & A3 & A4 & A5).
  assert (F : Forall (fun r => length r = n) (p_xm l0)).
  { apply Forall_forall. intros r Hr. apply In_nth_error in Hr. destruct Hr as (j & Hj).
    assert (j < length (p_xm l0)) by (apply nth_error_Some; congruence).
    destruct (Nat.eq_dec j s) as [->|Hne].
    - unfold row in A4. rewrite Hj in A4. injection A4 as _ ->. exact Ly.
    - specialize (A5 j Hne ltac:(lia)). unfold row in A5. rewrite Hj in A5. injection A5 as _ ->. rewrite repeat_length. exact Hdim. }
  assert (S : forall neg l, length (p_fvaluem l) = 2 * s + 1 -> length (p_xm l) = 2 * s + 1 -> length (p_err l) = 2 * s + 1 ->
    Forall (fun r => length r = n) (p_xm l) ->
    in_range (profile_likelihood_search func par cm fuel lfuel l sol k neg s fup delta maxiters curve) /\
    forall l', profile_likelihood_search func par cm fuel lfuel l sol k neg s fup delta maxiters curve = Ok l' ->
      Forall (fun r => length r = n) (p_xm l') /\ same_meta l l').
  { intros neg l B1 B2 B3 B4.
    assert (P : forall d, in_range (pl_loop func par cm fuel lfuel sol k (if neg then (-1)%Z else 1%Z) s (ec_f b0) fup delta maxiters curve 0 true d (ec_x b0) l) /\
      forall l', pl_loop func par cm fuel lfuel sol k (if neg then (-1)%Z else 1%Z) s (ec_f b0) fup delta maxiters curve 0 true d (ec_x b0) l = Ok l' ->
        Forall (fun r => length r = n) (p_xm l')).
    { intros d. apply pl_loop_range; auto; destruct neg; auto. }
    split.
    - unfold profile_likelihood_search. rewrite (best_last _ _ _ Hh). cbn [bind].
      apply in_range_bind; [apply get_in_range; lia|]. intros xk _. apply P.
    - intros l' H. split; [|destruct (search_ok _ _ _ _ _ _ _ _ _ _ _ _ _ _ _ B1 H) as (b & _ & _ & M & _); exact M].
      unfold profile_likelihood_search in H. rewrite (best_last _ _ _ Hh) in H. cbn [bind] in H.
      apply bind_ok in H; destruct H as (xk & _ & H). exact (proj2 (P _) l' H). }
  destruct (S false l0 A1 A2 A3 F) as [S1 S2]. apply in_range_bind; [exact S1|]. intros l1 Hl1.
  destruct (S2 l1 Hl1) as [F1 (K1 & Z1 & _ & B1 & B2 & B3)].
  destruct (S true l1 ltac:(lia) ltac:(lia) ltac:(lia) F1) as [S3 S4]. apply in_range_bind; [exact S3|]. intros l2 Hl2.
  destruct (S4 l2 Hl2) as [F2 (K2 & Z2 & _ & C1 & C2 & C3)].
  apply in_range_bind; [|intros; apply in_range_ok].
  assert (Ks : p_size l2 = s) by congruence. assert (Kk : p_k l2 = k) by congruence.
  unfold setErrMinMax. rewrite Ks, Kk. apply in_range_bind; [apply get_in_range; lia|]. intros f0 _.
  apply in_range_bind.
  - unfold getMinMax. rewrite Ks, Kk.
    destruct (argmin_total (map (fun v => Rabs (v - (f0 + p_fup l2))) (firstn s (p_fvaluem l2)))) as (i & -> & Li).
    { intros E. apply (f_equal (@length R)) in E. rewrite map_length, firstn_length in E. cbn in E. lia. }
    rewrite map_length, firstn_length in Li. cbn [bind].
    destruct (argmin_total (map (fun v => Rabs (v - (f0 + p_fup l2))) (skipn (length (p_fvaluem l2) - s) (p_fvaluem l2)))) as (j & -> & Lj).
    { intros E. apply (f_equal (@length R)) in E. rewrite map_length, skipn_length in E. cbn [length] in E. lia. }
    rewrite map_length, skipn_length in Lj. cbn [bind].
    assert (G : forall i, i < length (p_xm l2) -> exists r, get (p_xm l2) (Z.of_nat i) = Ok r /\ length r = n).
    { intros i0 Hi0. rewrite get_nat. destruct (nth_error (p_xm l2) i0) as [r|] eqn:E; [|apply nth_error_None in E; lia].
      exists r. split; [reflexivity|]. exact (proj1 (Forall_forall _ _) F2 r (nth_error_In _ _ E)). }
    destruct (G i ltac:(lia)) as (ri & -> & Lri). cbn [bind]. apply in_range_bind; [apply get_in_range; lia|]. intros mi _.
    destruct (G (s + 1 + j) ltac:(lia)) as (rj & -> & Lrj). cbn [bind]. apply in_range_bind; [apply get_in_range; lia|]. intros ma _.
    apply in_range_ok.
  - intros [[[mi ma] qi] qj] _. apply in_range_bind; [apply get_in_range; lia|]. intros r Hr.
    apply in_range_bind; [|intros; apply in_range_ok]. apply get_in_range. apply get_ok in Hr.
    rewrite (proj1 (Forall_forall _ _) F2 r (nth_error_In _ _ Hr)). exact Hk.
Qed.
End Safe.
