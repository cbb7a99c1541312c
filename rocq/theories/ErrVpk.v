(** Searches with some coordinates held fixed. *)
From Coq Require Import Reals Lra.
From Verif Require Import Base EoMatrix Pwq Scaling GenoPheno SpecBounds SpecGeno Errstats SpecErr
  EoMatrixProofs PwqProofs GenoPhenoProofs ScalingProofs GpParProofs ErrVec.
Local Open Scope nat_scope.

Lemma pheno_length n g x y : shape n g -> length x = n -> pheno g x = Ok y -> length y = n.
Proof.
  intros (Hc & Hp & Hs) Hx H. unfold pheno, custom_pheno in H. rewrite Hc in H.
  destruct (gp_bound g) as [|p]; [destruct (gp_scale g) as [|l]|].
  - injection H as <-. exact Hx.
  - unfold scale_to_f in H. apply mapM2_ok_length in H. lia.
  - apply bind_ok in H; destruct H as (z & Hz & H).
    unfold pwq_to_f, shift_into_feasible in Hz. apply bind_ok in Hz; destruct Hz as (w & Hw & Hz).
    apply mapM2_ok_length in Hw, Hz. unfold scale_f_step in H. destruct (gp_scale g) as [|l].
    + injection H as <-. lia.
    + destruct Hs as [Hi Hl]. rewrite Hi in H. unfold scale_to_f in H. apply mapM2_ok_length in H. lia.
Qed.
Lemma geno_length n g x y : shape n g -> length x = n -> geno g x = Ok y -> length y = n.
Proof.
  intros (Hc & Hp & Hs) Hx H. unfold geno, custom_geno in H. rewrite Hc in H.
  destruct (gp_bound g) as [|p]; [destruct (gp_scale g) as [|l]|].
  - injection H as <-. exact Hx.
  - apply bind_ok in H; destruct H as (z & Hz & H). injection H as <-.
    unfold scale_to_internal in Hz. apply mapM2_ok_length in Hz. lia.
  - apply bind_ok in H; destruct H as (z & Hz & H). apply bind_ok in H; destruct H as (w & Hw & H). injection H as <-.
    unfold pwq_to_internal in Hw. apply mapM2_ok_length in Hw. lia.
Qed.

(** The value of one coordinate of a decoded point depends on that coordinate only. *)
Lemma mapM2_nth_same {A B C} (f : A -> B -> res C) la lb lb' lc lc' i v :
  mapM2 f la lb = Ok lc -> mapM2 f la lb' = Ok lc' ->
  nth_error lb i = Some v -> nth_error lb' i = Some v -> nth_error lc i = nth_error lc' i.
Proof.
  intros H H' Hv Hv'. destruct (mapM2_ok_length _ _ _ _ H) as [L _].
  destruct (nth_error la i) as [a|] eqn:Ea.
  - destruct (mapM2_nth _ _ _ _ H i a v Ea Hv) as (c & -> & E1).
    destruct (mapM2_nth _ _ _ _ H' i a v Ea Hv') as (c' & -> & E2). congruence.
  - apply nth_error_None in Ea. assert (i < length lb) by (apply nth_error_Some; congruence). lia.
Qed.
Lemma mapM2_nth_some {A B C} (f : A -> B -> res C) la lb lc i v :
  mapM2 f la lb = Ok lc -> nth_error lb i = Some v -> exists c, nth_error lc i = Some c.
Proof.
  intros H Hv. destruct (mapM2_ok_length _ _ _ _ H) as [L1 L2].
  assert (i < length lb) by (apply nth_error_Some; congruence).
  destruct (nth_error lc i) eqn:E; [eauto|]. apply nth_error_None in E. lia.
Qed.
Lemma pheno_nth_same n g x x' y y' i v : shape n g ->
  pheno g x = Ok y -> pheno g x' = Ok y' -> nth_error x i = Some v -> nth_error x' i = Some v ->
  nth_error y i = nth_error y' i.
Proof.
  intros (Hc & Hp & Hs) H H' Hv Hv'. unfold pheno, custom_pheno in *. rewrite Hc in *.
  destruct (gp_bound g) as [|p]; [destruct (gp_scale g) as [|l]|].
  - injection H as <-. injection H' as <-. congruence.
  - exact (mapM2_nth_same _ _ _ _ _ _ i v H H' Hv Hv').
  - apply bind_ok in H; destruct H as (z & Hz & H). apply bind_ok in H'; destruct H' as (z' & Hz' & H').
    unfold pwq_to_f, shift_into_feasible in Hz, Hz'.
    apply bind_ok in Hz; destruct Hz as (w & Hw & Hz). apply bind_ok in Hz'; destruct Hz' as (w' & Hw' & Hz').
    pose proof (mapM2_nth_same _ _ _ _ _ _ i v Hw Hw' Hv Hv') as E1.
    destruct (mapM2_nth_some _ _ _ _ i v Hw Hv) as (a & Ha).
    pose proof (mapM2_nth_same _ _ _ _ _ _ i a Hz Hz' Ha (eq_trans (eq_sym E1) Ha)) as E2.
    destruct (mapM2_nth_some _ _ _ _ i a Hz Ha) as (b & Hb).
    unfold scale_f_step in H, H'. destruct (gp_scale g) as [|l].
    + injection H as <-. injection H' as <-. congruence.
    + destruct Hs as [Hi _]. rewrite Hi in *.
      exact (mapM2_nth_same _ _ _ _ _ _ i b H H' Hb (eq_trans (eq_sym E2) Hb)).
Qed.

Lemma geno_nth_same n g x x' y y' i v : shape n g ->
  geno g x = Ok y -> geno g x' = Ok y' -> nth_error x i = Some v -> nth_error x' i = Some v ->
  nth_error y i = nth_error y' i.
Proof.
  intros (Hc & Hp & Hs) H H' Hv Hv'. unfold geno, custom_geno in *. rewrite Hc in *.
  destruct (gp_bound g) as [|p]; [destruct (gp_scale g) as [|l]|].
  - injection H as <-. injection H' as <-. congruence.
  - apply bind_ok in H; destruct H as (z & Hz & H). apply bind_ok in H'; destruct H' as (z' & Hz' & H').
    injection H as <-. injection H' as <-. exact (mapM2_nth_same _ _ _ _ _ _ i v Hz Hz' Hv Hv').
  - apply bind_ok in H; destruct H as (z & Hz & H). apply bind_ok in H'; destruct H' as (z' & Hz' & H').
    apply bind_ok in H; destruct H as (w & Hw & H). apply bind_ok in H'; destruct H' as (w' & Hw' & H').
    injection H as <-. injection H' as <-. unfold pwq_to_internal in *.
    assert (S : exists u, nth_error z i = Some u /\ nth_error z' i = Some u).
    { unfold scale_i_step in Hz, Hz'. destruct (gp_scale g) as [|l].
      - injection Hz as <-. injection Hz' as <-. eauto.
      - destruct Hs as [Hi _]. rewrite Hi in *. destruct (mapM2_nth_some _ _ _ _ i v Hz Hv) as (u & Hu).
        exists u. split; [exact Hu|]. rewrite <- Hu. symmetry. exact (mapM2_nth_same _ _ _ _ _ _ i v Hz Hz' Hv Hv'). }
    destruct S as (u & Hu & Hu'). exact (mapM2_nth_same _ _ _ _ _ _ i u Hw Hw' Hu Hu').
Qed.

(** Putting a coordinate back. *)
Lemma mapM2_insert {A B C} (f : A -> B -> res C) k : forall la lb lc a b c,
  mapM2 f (remove_at k la) lb = Ok lc -> nth_error la k = Some a -> f a b = Ok c ->
  mapM2 f la (insert_at k b lb) = Ok (insert_at k c lc).
Proof.
  induction k as [|k IH]; intros [|a0 la] lb lc a b c H Ha Hf; cbn [nth_error] in Ha; try discriminate.
  - injection Ha as ->. cbn [remove_at length Nat.leb firstn skipn app] in H.
    unfold insert_at; cbn [firstn skipn app mapM2]. rewrite Hf; cbn [bind].
    unfold remove_at in H; cbn [length Nat.leb firstn skipn app] in H. rewrite H. reflexivity.
  - assert (k < length la) by (apply nth_error_Some; congruence).
    assert (E : remove_at (S k) (a0 :: la) = a0 :: remove_at k la).
    { unfold remove_at. cbn [length]. destruct (Nat.leb_spec (S (length la)) (S k)); [lia|].
      destruct (Nat.leb_spec (length la) k); [lia|]. reflexivity. }
    rewrite E in H. destruct lb as [|b0 lb]; cbn [mapM2] in H; [discriminate|].
    apply bind_ok in H; destruct H as (c0 & Hc & H). apply bind_ok in H; destruct H as (cs & Hcs & H). injection H as <-.
    unfold insert_at; cbn [firstn skipn app mapM2]. rewrite Hc; cbn [bind].
    pose proof (IH la lb cs a b c Hcs Ha Hf) as G. unfold insert_at in G. rewrite G. reflexivity.
Qed.
Lemma mapM2_insert' {A B C} (f : A -> B -> res C) k la lb lc z w v c :
  mapM2 f (remove_at k la) lb = Ok lc -> mapM2 f la z = Ok w ->
  nth_error z k = Some v -> nth_error w k = Some c ->
  mapM2 f la (insert_at k v lb) = Ok (insert_at k c lc).
Proof.
  intros H Hz Hv Hc. destruct (mapM2_ok_length _ _ _ _ Hz) as [L _].
  destruct (nth_error la k) as [a|] eqn:Ea.
  - destruct (mapM2_nth _ _ _ _ Hz k a v Ea Hv) as (c' & E1 & E2). rewrite Hc in E1. injection E1 as <-.
    exact (mapM2_insert _ _ _ _ _ _ _ _ H Ea E2).
  - apply nth_error_None in Ea. assert (k < length z) by (apply nth_error_Some; congruence). lia.
Qed.

Lemma one_removed {A} k (v : list A) : k < length v -> (Z.of_nat (length v) < 2147483648)%Z ->
  fold_left removeElement [Z.of_nat k] v = remove_at k v.
Proof. intros H Hs. cbn [fold_left]. apply removeElement_nat. lia. Qed.

Lemma pheno_insert n g k x y z w v c : shape n g -> (Z.of_nat n < 2147483648)%Z -> k < n ->
  pheno (gp_remove g [Z.of_nat k]) x = Ok y -> pheno g z = Ok w ->
  nth_error z k = Some v -> nth_error w k = Some c ->
  pheno g (insert_at k v x) = Ok (insert_at k c y).
Proof.
  intros (Hc & Hp & Hs) Hn Hk H Hz Hv Hw. unfold pheno, custom_pheno in *.
  unfold gp_remove in H; cbn [gp_custom gp_bound gp_scale] in H. rewrite Hc in *.
  destruct (gp_bound g) as [|p]; [destruct (gp_scale g) as [|l]|].
  - injection H as <-. injection Hz as <-. congruence.
  - destruct Hs as [Hi Hl]. rewrite Hi in H. unfold lin_remove, scale_to_f in *; cbn [l_pairs] in *.
    rewrite one_removed in H by lia. exact (mapM2_insert' _ _ _ _ _ _ _ _ _ H Hz Hv Hw).
  - apply bind_ok in H; destruct H as (y1 & Hy1 & H). apply bind_ok in Hz; destruct Hz as (w1 & Hw1 & Hz).
    unfold pwq_remove in Hy1. rewrite one_removed in Hy1 by lia.
    unfold pwq_to_f, shift_into_feasible in *.
    apply bind_ok in Hy1; destruct Hy1 as (y2 & Hy2 & Hy1). apply bind_ok in Hw1; destruct Hw1 as (w2 & Hw2 & Hw1).
    destruct (mapM2_nth_some _ _ _ _ k v Hw2 Hv) as (a & Ha).
    destruct (mapM2_nth_some _ _ _ _ k a Hw1 Ha) as (b & Hb).
    rewrite (mapM2_insert' _ _ _ _ _ _ _ _ _ Hy2 Hw2 Hv Ha); cbn [bind].
    rewrite (mapM2_insert' _ _ _ _ _ _ _ _ _ Hy1 Hw1 Ha Hb); cbn [bind].
    unfold scale_f_step in *. destruct (gp_scale g) as [|l].
    + injection H as <-. injection Hz as <-. congruence.
    + destruct Hs as [Hi Hl]. rewrite Hi in *. unfold lin_remove in H; cbn [l_id] in H. rewrite Hi in H.
      unfold scale_to_f in *; cbn [l_pairs] in H. rewrite one_removed in H by lia.
      exact (mapM2_insert' _ _ _ _ _ _ _ _ _ H Hz Hb Hw).
Qed.

(** * Faults *)
Lemma in_range_ok {A} (a : A) : in_range (Ok a).
Proof. repeat split; discriminate. Qed.
Lemma in_range_bind {A B} (r : res A) (f : A -> res B) :
  in_range r -> (forall a, r = Ok a -> in_range (f a)) -> in_range (bind r f).
Proof. destruct r as [a|e]; cbn [bind]; intros H1 H2; [apply H2; reflexivity|]. destruct H1 as (A1 & A2 & A3). repeat split; congruence. Qed.
Lemma in_range_mapM2 {A B C} (f : A -> B -> res C) la lb : length la = length lb ->
  (forall a b, in_range (f a b)) -> in_range (mapM2 f la lb).
Proof.
  intros L H. repeat split; intros E; apply mapM2_fault in E; try exact L;
    destruct E as (i & a & b & _ & _ & E); destruct (H a b) as (? & ? & ?); congruence.
Qed.
Lemma rdiv_in_range a b : in_range (rdiv a b).
Proof. unfold rdiv. destruct (Req_EM_T b 0); repeat split; discriminate. Qed.
Lemma cast_in_range v : in_range (cast_int v).
Proof. unfold cast_int. repeat (match goal with |- context [if ?c then _ else _] => destruct c end; cbv beta iota zeta); repeat split; discriminate. Qed.
Lemma pheno_in_range n g x : shape n g -> length x = n -> in_range (pheno g x).
Proof.
  intros (Hc & Hp & Hs) Hx. unfold pheno, custom_pheno. rewrite Hc.
  assert (A : forall l y, l_id l = false /\ length (l_pairs l) = n -> length y = n -> in_range (scale_to_f l y)).
  { intros l y [_ Hl] Hy. apply in_range_mapM2; [lia|]. intros; apply rdiv_in_range. }
  destruct (gp_bound g) as [|p]; [destruct (gp_scale g) as [|l]|].
  - apply in_range_ok.
  - apply A; assumption.
  - apply in_range_bind.
    + unfold pwq_to_f. apply in_range_bind.
      * apply in_range_mapM2; [lia|]. intros q v. unfold shift_coord, shift_up, shift_down.
        apply in_range_bind; [|intros ? _; apply in_range_bind; [|intros; apply in_range_ok]];
          (match goal with |- context [if ?c then _ else _] => destruct c end; [|apply in_range_ok]);
          (apply in_range_bind; [apply rdiv_in_range|intros ? _]; apply in_range_bind; [apply cast_in_range|intros ? _; apply in_range_ok]).
      * intros y Hy. unfold shift_into_feasible in Hy. apply mapM2_ok_length in Hy.
        apply in_range_mapM2; [lia|]. intros q v. unfold quad_coord.
        destruct (Rlt_dec _ _); [|destruct (Rlt_dec _ _)]; try apply in_range_ok;
          (apply in_range_bind; [apply rdiv_in_range|intros ? _; apply in_range_ok]).
    + intros y Hy. unfold pwq_to_f, shift_into_feasible in Hy.
      apply bind_ok in Hy; destruct Hy as (w & Hw & Hy). apply mapM2_ok_length in Hw, Hy.
      unfold scale_f_step. destruct (gp_scale g) as [|l]; [apply in_range_ok|]. destruct (l_id l) eqn:E; [apply in_range_ok|].
      apply A; [tauto|lia].
Qed.

(** * optimize_vpk *)
Section Vpk.
Variable func : list R -> R.
Variable par : epar.
Variable cm : (list R -> R) -> ipar -> res iout.
Variable n : nat.
Hypothesis Hgp : built n (a_gp par).
Hypothesis Hn : (Z.of_nat n < 2147483648)%Z.
Hypothesis Hcm : keeps_dim cm.

(** The result of a call that leaves a coordinate free. *)
Lemma vpk_shape sol k vk x0 px pv s : low_to_high n k -> length k < n -> length vk = length k -> length x0 = n ->
  optimize_vpk func par cm sol k vk x0 px pv = Ok s ->
  exists start pvk0 pvk vals rf ip o nx,
    (if px then start = x0 else pheno (a_gp par) x0 = Ok start) /\ length start = n /\
    put_all (combine k vk) (repeat 0%R n) = Ok pvk0 /\
    (if pv then pvk = pvk0 else pheno (a_gp par) pvk0 = Ok pvk) /\ length pvk = n /\
    cm rf ip = Ok o /\ i_x0 ip = without k start /\ i_gp ip = gp_remove (a_gp par) (map Z.of_nat k) /\
    i_lambda ip = a_lambda par /\ i_seed ip = a_seed par /\ i_ftarget ip = a_ftarget par /\
    length (o_x o) + length k = n /\
    (forall x, exists z, add_all k pvk x = Ok z /\ rf x = func z) /\
    (if pv then exists gp, geno (a_gp par) pvk = Ok gp /\ mapM (fun i => get gp (Z.of_nat i)) k = Ok vals else vals = vk) /\
    length vals = length k /\
    nx = add_each (combine k vals) (o_x o) /\
    s_cands s = [mkEC nx (o_f o)] /\ s_hist s = [mkEC nx (o_f o)] /\ s_nevals s = o_nevals o /\ s_status s = o_status o.
Proof.
  intros Hk Hlt Hvk Hx0 H. destruct (low_to_high_incr _ _ Hk) as [Hi Hb].
  pose proof (built_shape _ _ Hgp) as Hsh.
  unfold optimize_vpk in H.
  apply bind_ok in H; destruct H as (start & Hst & H).
  apply bind_ok in H; destruct H as (c0 & Hc0 & H).
  apply bind_ok in H; destruct H as (sg & Hsg & H).
  apply bind_ok in H; destruct H as (pvk0 & Hp0 & H).
  apply bind_ok in H; destruct H as (pvk & Hp & H).
  rewrite Hx0 in Hp0.
  assert (Ls : length start = n).
  { destruct px; [injection Hst as <-; exact Hx0|]. exact (pheno_length n _ _ _ Hsh Hx0 Hst). }
  destruct (put_all_ok _ _ _ Hp0) as (L0 & _). rewrite repeat_length in L0.
  assert (Lp : length pvk = n).
  { destruct pv; [injection Hp as <-; exact L0|]. exact (pheno_length n _ _ _ Hsh L0 Hp). }
  rewrite (removed_low_to_high k 0) in H by (auto; rewrite Ls; auto).
  assert (Lw : length (without k start) + length k = length start).
  { apply (without_length k 0); auto. rewrite Ls; auto. }
  destruct (without k start) as [|r0 rx] eqn:Ew; [cbn [length] in Lw; lia|].
  rewrite <- Ew in H, Lw. clear r0 rx Ew. cbv zeta in H.
  apply bind_ok in H; destruct H as (o & Ho & H).
  apply bind_ok in H; destruct H as (nx & Hnx & H). injection H as <-.
  pose proof (Hcm _ _ _ Ho) as Ld. cbn [i_x0] in Ld.
  assert (V : exists vals, (if pv then exists gp, geno (a_gp par) pvk = Ok gp /\ mapM (fun i => get gp (Z.of_nat i)) k = Ok vals else vals = vk)
    /\ length vals = length k /\ nx = add_each (combine k vals) (o_x o)).
  { destruct pv.
    - apply bind_ok in Hnx; destruct Hnx as (gp & Hg & Ha). destruct (add_all_ok _ _ _ _ Ha) as (vs & Hvs & ->).
      exists vs. split; [eauto|]. split; [|reflexivity].
      clear - Hvs. revert vs Hvs; induction k as [|i k IH]; intros vs H; cbn [mapM] in H; [injection H as <-; reflexivity|].
      apply bind_ok in H; destruct H as (c & _ & H). apply bind_ok in H; destruct H as (cs & Hcs & H). injection H as <-.
      cbn. f_equal. apply IH; exact Hcs.
    - injection Hnx as <-. exists vk. auto. }
  destruct V as (vals & V1 & V2 & V3).
  exists start, pvk0, pvk, vals. do 4 eexists.
  split; [destruct px; [injection Hst as <-; reflexivity|exact Hst]|]. split; [exact Ls|].
  split; [exact Hp0|]. split; [destruct pv; [injection Hp as <-; reflexivity|exact Hp]|]. split; [exact Lp|].
  split; [exact Ho|]. cbn [i_x0 i_gp i_lambda i_seed i_ftarget]. do 5 (split; [reflexivity|]).
  split; [lia|]. split.
  { intros x. destruct (add_all_in k pvk x) as (z & Hz); [rewrite Lp; exact Hb|].
    exists z. rewrite Hz. split; reflexivity. }
  split; [exact V1|]. split; [exact V2|]. split; [exact V3|]. rewrite V3. cbn. auto.
Qed.

Lemma added_ok k vals x : low_to_high n k -> length vals = length k -> length x + length k = n ->
  length (add_each (combine k vals) x) = n /\ values_at k vals (add_each (combine k vals) x) /\
  without k (add_each (combine k vals) x) = x.
Proof.
  intros Hk Hv Hx. destruct (low_to_high_incr _ _ Hk) as [Hi Hb].
  assert (E : map fst (combine k vals) = k) by (apply fst_combine; lia).
  assert (L : length (combine k vals) = length k) by (rewrite combine_length; lia).
  destruct (add_each_ok (combine k vals) 0 x) as (A1 & _ & A3).
  - rewrite E; exact Hi.
  - rewrite E, L, Hx; exact Hb.
  - rewrite L, Hx; exact Hn.
  - rewrite L, Hx in A1. split; [exact A1|]. split.
    + intros i ki v Hki Hvi. apply A3. apply (in_combine_nth _ _ i); assumption.
    + rewrite (without_low_to_high k 0) by (auto; rewrite A1; exact Hb). rewrite <- E at 1.
      apply (remove_added _ 0); rewrite ?E, ?L, ?Hx; auto.
Qed.

(** Values given in genotype. *)
Lemma vpk_geno sol k vk x0 px s : low_to_high n k -> length k < n -> length vk = length k -> length x0 = n ->
  optimize_vpk func par cm sol k vk x0 px false = Ok s ->
  exists c, best s = Ok c /\ length (ec_x c) = n /\ values_at k vk (ec_x c) /\
    exists rf ip o, cm rf ip = Ok o /\ without k (ec_x c) = o_x o /\ ec_f c = o_f o /\
      s_nevals s = o_nevals o /\ s_status s = o_status o /\ i_ftarget ip = a_ftarget par.
Proof using Hgp Hn Hcm.
  intros Hk Hlt Hvk Hx0 H.
  destruct (vpk_shape _ _ _ _ _ _ _ Hk Hlt Hvk Hx0 H)
    as (st & p0 & p & vals & rf & ip & o & nx & _ & _ & _ & _ & _ & Ho & _ & _ & _ & _ & Hft & Lo & _ & -> & Lv & -> & _ & Hh & Hne & Hst).
  destruct (added_ok k vk (o_x o) Hk Lv Lo) as (A1 & A2 & A3).
  eexists. split; [unfold best; rewrite Hh; reflexivity|]. cbn [ec_x ec_f].
  split; [exact A1|]. split; [exact A2|]. exists rf, ip, o. auto 10.
Qed.

(** Values given in phenotype: the decoded point has them. *)
Lemma mapM_get (gp : list R) (k : list nat) (vals : list R) : mapM (fun i => get gp (Z.of_nat i)) k = Ok vals ->
  forall i ki, nth_error k i = Some ki -> exists v, nth_error vals i = Some v /\ nth_error gp ki = Some v.
Proof.
  intros H i ki Hki. destruct (mapM_nth _ _ _ H) as [L Hnth].
  destruct (nth_error vals i) as [v|] eqn:E.
  - exists v. split; [reflexivity|]. specialize (Hnth i ki Hki). destruct Hnth as (c & E2 & Hc). rewrite E in E2. injection E2 as <-.
    apply get_ok in Hc. exact Hc.
  - apply nth_error_None in E. assert (i < length k) by (apply nth_error_Some; congruence). lia.
Qed.

Lemma put_values k vk pvk0 : low_to_high n k -> length vk = length k ->
  put_all (combine k vk) (repeat 0%R n) = Ok pvk0 -> values_at k vk pvk0.
Proof.
  intros Hk Hv H. destruct (low_to_high_incr _ _ Hk) as [Hi Hb]. destruct (put_all_ok _ _ _ H) as (_ & _ & A).
  intros i ki v Hki Hvi. apply A; [rewrite fst_combine by lia; exact (incr_nodup _ _ Hi)|].
  apply (in_combine_nth _ _ i); assumption.
Qed.

Lemma vpk_pheno sol k vk x0 px s : low_to_high n k -> length k < n -> length vk = length k -> length x0 = n ->
  optimize_vpk func par cm sol k vk x0 px true = Ok s ->
  forall y x, values_at k vk y -> geno (a_gp par) y = Ok x -> pheno (a_gp par) x = Ok y ->
  exists c, best s = Ok c /\ length (ec_x c) = n /\
    (forall z, pheno (a_gp par) (ec_x c) = Ok z -> values_at k vk z) /\
    exists rf ip o, cm rf ip = Ok o /\ without k (ec_x c) = o_x o /\ ec_f c = o_f o /\
      s_nevals s = o_nevals o /\ s_status s = o_status o /\ i_ftarget ip = a_ftarget par.
Proof using Hgp Hn Hcm.
  intros Hk Hlt Hvk Hx0 H y x Hy Hg Hp. pose proof (built_shape _ _ Hgp) as Hsh.
  destruct (vpk_shape _ _ _ _ _ _ _ Hk Hlt Hvk Hx0 H)
    as (st & p0 & p & vals & rf & ip & o & nx & _ & _ & Hp0 & -> & _ & Ho & _ & _ & _ & _ & Hft & Lo & _ & (gp & Hgp0 & Hm) & Lv & -> & _ & Hh & Hne & Hst).
  destruct (added_ok k vals (o_x o) Hk Lv Lo) as (A1 & A2 & A3).
  pose proof (put_values _ _ _ Hk Hvk Hp0) as Hv0.
  eexists. split; [unfold best; rewrite Hh; reflexivity|]. cbn [ec_x ec_f].
  split; [exact A1|]. split; [|exists rf, ip, o; auto 10].
  intros z Hz i ki v Hki Hvi. destruct (mapM_get _ _ _ Hm i ki Hki) as (u & Hu & Hgu).
  pose proof (Hy i ki v Hki Hvi) as E1. pose proof (Hv0 i ki v Hki Hvi) as E2.
  pose proof (geno_nth_same n _ _ _ _ _ ki v Hsh Hg Hgp0 E1 E2) as E3. rewrite Hgu in E3.
  pose proof (A2 i ki u Hki Hu) as E4.
  rewrite (pheno_nth_same n _ _ _ _ _ ki u Hsh Hz Hp E4 E3). exact E1.
Qed.

(** One coordinate held fixed: the value returned is that of the point. *)
Lemma one_low k : k < n -> low_to_high n [k].
Proof.
  intros Hk. split.
  - intros [|[|i]] a b; cbn; discriminate.
  - intros j [<-|[]]; exact Hk.
Qed.
Lemma add_all_one k pvk x z : k < n -> length x + 1 = n -> add_all [k] pvk x = Ok z ->
  exists v, nth_error pvk k = Some v /\ z = insert_at k v x.
Proof using Hn.
  intros Hk Hx H. cbn [add_all] in H. apply bind_ok in H; destruct H as (v & Hv & H). injection H as <-.
  exists v. split; [apply get_ok; exact Hv|]. apply addElement_nat; lia.
Qed.
Lemma remove_shape k : k < n -> shape (n - 1) (gp_remove (a_gp par) [Z.of_nat k]).
Proof using Hgp Hn.
  intros Hk. destruct (built_shape _ _ Hgp) as (Hc & Hp & Hs). unfold gp_remove, shape; cbn [gp_custom gp_bound gp_scale].
  split; [exact Hc|]. split.
  - destruct (gp_bound (a_gp par)); [exact I|]. unfold pwq_remove. rewrite one_removed by lia. rewrite remove_at_length by lia. lia.
  - destruct (gp_scale (a_gp par)); [exact I|]. destruct Hs as [Hi Hl]. rewrite Hi. unfold lin_remove; cbn [l_id l_pairs].
    split; [exact Hi|]. rewrite one_removed by lia. rewrite remove_at_length by lia. lia.
Qed.

Lemma vpk_value_gen sol k v x0 px pv s : true_value cm -> k < n -> 1 < n -> length x0 = n ->
  optimize_pk func par cm sol k v x0 px pv = Ok s ->
  (pv = true -> exists y x, nth_error y k = Some v /\ geno (a_gp par) y = Ok x /\ pheno (a_gp par) x = Ok y) ->
  exists c y, best s = Ok c /\ pheno (a_gp par) (ec_x c) = Ok y /\ ec_f c = func y.
Proof using Hgp Hn Hcm.
  intros Ht Hk H1 Hx0 H Hr. pose proof (built_shape _ _ Hgp) as Hsh. unfold optimize_pk in H.
  destruct (vpk_shape sol [k] [v] x0 px pv s (one_low k Hk) H1 eq_refl Hx0 H)
    as (st & p0 & p & vals & rf & ip & o & nx & _ & _ & Hp0 & Hp & Lp & Ho & _ & Hig & _ & _ & _ & Lo & Hrf & Hvals & Lv & Hnx & _ & Hh & _ & _).
  cbn [length] in *.
  destruct (Ht _ _ _ Ho) as (y & Hy & Hf). rewrite Hig in Hy. cbn [map] in Hy.
  assert (Ly : length y + 1 = n).
  { assert (E : length (o_x o) = n - 1) by lia. pose proof (pheno_length _ _ _ _ (remove_shape k Hk) E Hy). lia. }
  destruct (Hrf y) as (z & Hz & Ez). destruct (add_all_one k p y z Hk Ly Hz) as (u & Hu & ->).
  pose proof (put_values [k] [v] p0 (one_low k Hk) eq_refl Hp0 0 k v eq_refl eq_refl) as Hv0.
  assert (L0 : length p0 = n) by (destruct (put_all_ok _ _ _ Hp0) as (L0 & _); rewrite L0; apply repeat_length).
  assert (G : exists a, vals = [a] /\ exists zz ww, pheno (a_gp par) zz = Ok ww /\ nth_error zz k = Some a /\ nth_error ww k = Some u).
  { destruct pv.
    - destruct (Hr eq_refl) as (yy & xx & Hyy & Hgg & Hpp). subst p. destruct Hvals as (gp & Hg & Hm).
      destruct (mapM_get _ _ _ Hm 0 k eq_refl) as (a & Ha & Hga).
      destruct vals as [|a0 [|b vals]]; try discriminate. injection Ha as ->. exists a. split; [reflexivity|].
      exists xx, yy. split; [exact Hpp|]. rewrite Hv0 in Hu. injection Hu as <-. split; [|exact Hyy].
      rewrite (geno_nth_same n _ _ _ _ _ k v Hsh Hgg Hg Hyy Hv0). exact Hga.
    - subst vals. exists v. split; [reflexivity|]. exists p0, p. auto. }
  destruct G as (a & -> & zz & ww & G1 & G2 & G3).
  eexists. exists (insert_at k u y). split; [unfold best; rewrite Hh; reflexivity|]. cbn [ec_x ec_f].
  subst nx. cbn [combine add_each]. rewrite addElement_nat by lia. split.
  - exact (pheno_insert n _ k _ _ _ _ _ _ Hsh Hn Hk Hy G1 G2 G3).
  - rewrite Hf, Ez. reflexivity.
Qed.

(** No index leaves its vector when the search itself does not. *)
Lemma sigma_total c0 k vk : length c0 = n -> (forall i, In i k -> i < n) -> length vk = length k ->
  exists sg, vpk_sigma c0 k vk = Ok sg.
Proof using.
  intros Hc Hk Hl. unfold vpk_sigma. rewrite Hl, Nat.eqb_refl.
  assert (A : forall kv, (forall p, In p kv -> fst p < n) -> forall s, exists r,
    (fix go (kv : list (nat * R)) (s : R) : res R :=
       match kv with [] => Ok s | (i, v) :: r => do c <- get c0 (Z.of_nat i); go r (Rmax s (Rabs (c - v))) end) kv s = Ok r).
  { induction kv as [|[i v] kv IH]; intros Hin s; [eauto|]. rewrite get_nat.
    destruct (nth_error c0 i) as [c|] eqn:E.
    - cbn [bind]. apply IH. intros p Hp. apply Hin. right; exact Hp.
    - apply nth_error_None in E. specialize (Hin (i, v) (or_introl eq_refl)). cbn in Hin. lia. }
  apply A. intros [i v] Hp. apply in_rev in Hp. apply in_combine_l in Hp. apply Hk. exact Hp.
Qed.
Lemma vpk_in_range sol k vk x0 c0 cs : (forall rf ip, in_range (cm rf ip)) ->
  low_to_high n k -> length vk = length k -> length x0 = n ->
  s_cands sol = c0 :: cs -> length (ec_x c0) = n ->
  in_range (optimize_vpk func par cm sol k vk x0 false false).
Proof using Hgp Hn.
  intros Hr Hk Hvk Hx0 Hc Lc. destruct (low_to_high_incr _ _ Hk) as [Hi Hb]. unfold optimize_vpk.
  pose proof (built_shape _ _ Hgp) as Hsh.
  apply in_range_bind; [exact (pheno_in_range n _ _ Hsh Hx0)|]. intros start _.
  apply in_range_bind; [rewrite Hc; apply in_range_ok|]. intros c Hget. rewrite Hc in Hget. injection Hget as <-.
  apply in_range_bind; [destruct (sigma_total (ec_x c0) k vk Lc Hb Hvk) as (sg & ->); apply in_range_ok|]. intros sg _.
  destruct (put_all_in (combine k vk) (repeat 0%R n)) as (p0 & Hp0).
  { intros i Hin. rewrite fst_combine in Hin by lia. rewrite repeat_length. apply Hb; exact Hin. }
  rewrite Hx0, Hp0. cbn [bind]. assert (L0 : length p0 = n) by (destruct (put_all_ok _ _ _ Hp0) as (L0 & _); rewrite L0; apply repeat_length).
  apply in_range_bind; [exact (pheno_in_range n _ _ Hsh L0)|]. intros p _.
  destruct (fold_left _ (rev k) start); [apply in_range_ok|].
  apply in_range_bind; [apply Hr|]. intros o _. apply in_range_ok.
Qed.

(** No bounds and no scaling: any set of coordinates. *)
Lemma vpk_value_plain sol k vk x0 px pv s : true_value cm -> a_gp par = gp_default_nb ->
  low_to_high n k -> length k < n -> length vk = length k -> length x0 = n ->
  optimize_vpk func par cm sol k vk x0 px pv = Ok s ->
  exists c, best s = Ok c /\ values_at k vk (ec_x c) /\ ec_f c = func (ec_x c).
Proof using Hgp Hn Hcm.
  intros Ht Eg Hk Hlt Hvk Hx0 H.
  destruct (vpk_shape _ _ _ _ _ _ _ Hk Hlt Hvk Hx0 H)
    as (st & p0 & p & vals & rf & ip & o & nx & _ & _ & Hp0 & Hp & Lp & Ho & _ & Hig & _ & _ & _ & Lo & Hrf & Hvals & Lv & Hnx & _ & Hh & _ & _).
  rewrite Eg in *. assert (p = p0) by (destruct pv; [exact Hp|cbn in Hp; congruence]). subst p. clear Hp.
  pose proof (put_values _ _ _ Hk Hvk Hp0) as Hv0.
  assert (Ev : vals = vk).
  { destruct pv; [|exact Hvals]. destruct Hvals as (gp & Hg & Hm). cbn in Hg. injection Hg as <-.
    apply nth_error_ext. intros i. destruct (nth_error k i) as [ki|] eqn:Ek.
    - destruct (mapM_get _ _ _ Hm i ki Ek) as (u & -> & Hu). destruct (nth_error vk i) as [w|] eqn:Ew.
      + rewrite (Hv0 i ki w Ek Ew) in Hu. exact (eq_sym Hu).
      + apply nth_error_None in Ew. assert (i < length k) by (apply nth_error_Some; congruence). lia.
    - apply nth_error_None in Ek. rewrite (proj2 (nth_error_None vals i)), (proj2 (nth_error_None vk i)) by lia. reflexivity. }
  subst vals. destruct (added_ok k vk (o_x o) Hk Lv Lo) as (A1 & A2 & A3).
  eexists. split; [unfold best; rewrite Hh; reflexivity|]. cbn [ec_x ec_f]. subst nx. split; [exact A2|].
  destruct (Ht _ _ _ Ho) as (y & Hy & ->). rewrite Hig in Hy. cbn in Hy. injection Hy as <-.
  destruct (Hrf (o_x o)) as (z & Hz & ->). f_equal. destruct (add_all_ok _ _ _ _ Hz) as (vs & Hvs & ->).
  f_equal. f_equal. apply nth_error_ext. intros i. destruct (mapM_nth _ _ _ Hvs) as [Lvs _].
  destruct (nth_error k i) as [ki|] eqn:Ek.
  - destruct (mapM_get _ _ _ Hvs i ki Ek) as (u & -> & Hu). destruct (nth_error vk i) as [w|] eqn:Ew.
    + rewrite (Hv0 i ki w Ek Ew) in Hu. exact (eq_sym Hu).
    + apply nth_error_None in Ew. assert (i < length k) by (apply nth_error_Some; congruence). lia.
  - apply nth_error_None in Ek. rewrite (proj2 (nth_error_None vs i)), (proj2 (nth_error_None vk i)) by lia. reflexivity.
Qed.
End Vpk.
