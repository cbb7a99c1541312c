From Coq Require Import Reals Lra Lia Psatz.
From Verif Require Import Base EoMatrix Pwq PwqProofs Scaling GenoPheno SpecBounds SpecGeno.
Open Scope R_scope.

(** * Vectors of bounds *)

Lemma Forall2_length_R {A B} (P : A -> B -> Prop) l l' : Forall2 P l l' -> length l = length l'.
Proof. induction 1; simpl; auto. Qed.

Lemma nth_error_same_len {A B} (l : list A) (l' : list B) i a :
  length l = length l' -> nth_error l i = Some a -> exists b, nth_error l' i = Some b.
Proof.
  intros Hl Ha. destruct (nth_error l' i) eqn:E; [eauto|].
  apply nth_error_None in E. assert (nth_error l i <> None) by congruence.
  apply nth_error_Some in H. lia.
Qed.

Lemma pwq_make_nth lb ub p :
  pwq_make lb ub = Ok p ->
  length p = length lb /\ length lb = length ub /\
  forall i l u, nth_error lb i = Some l -> nth_error ub i = Some u ->
    nth_error p i = Some (pwq_coord l u l u).
Proof.
  intros H; unfold pwq_make in H.
  destruct (mapM2_ok_length _ _ _ _ H) as [H1 H2].
  split; [exact H2|split; [exact H1|]].
  intros i l u Hl Hu; destruct (mapM2_nth _ _ _ _ H i l u Hl Hu) as [c [Hc E]].
  injection E as <-; exact Hc.
Qed.

Lemma pwq_make_total lb ub : length lb = length ub -> exists p, pwq_make lb ub = Ok p.
Proof. intros H; apply mapM2_all; [exact H|]; eauto. Qed.

Lemma pwq_make5_nth lb ub pl pu p :
  pwq_make5 lb ub pl pu = Ok p ->
  (length p = length lb /\ length p = length ub /\ length p = length pl /\ length p = length pu) /\
  forall i l u a b, nth_error lb i = Some l -> nth_error ub i = Some u ->
    nth_error pl i = Some a -> nth_error pu i = Some b ->
    nth_error p i = Some (pwq_coord l u a b).
Proof.
  revert ub pl pu p; induction lb as [|l lb IH]; intros [|u ub] [|a pl] [|b pu] p H;
    simpl in H; try discriminate.
  - injection H as <-; split; [auto|]. intros [|i]; discriminate.
  - apply bind_ok in H; destruct H as [p' [H1 H]]; injection H as <-.
    destruct (IH _ _ _ _ H1) as [(L1 & L2 & L3 & L4) Hn].
    split; [simpl; repeat split; congruence|].
    intros [|i] l' u' a' b'; simpl; intros E1 E2 E3 E4.
    + congruence.
    + apply Hn; assumption.
Qed.

Lemma pwq_make5_total lb ub pl pu :
  length ub = length lb -> length pl = length lb -> length pu = length lb ->
  exists p, pwq_make5 lb ub pl pu = Ok p.
Proof.
  revert ub pl pu; induction lb as [|l lb IH]; intros [|u ub] [|a pl] [|b pu] H1 H2 H3;
    simpl in *; try discriminate; [eauto|].
  destruct (IH ub pl pu) as [p ->]; try lia; simpl; eauto.
Qed.

Lemma ordered_nth lb ub i l u :
  ordered lb ub -> nth_error lb i = Some l -> nth_error ub i = Some u -> l < u.
Proof.
  intros H; revert i; induction H as [|a b la lb' Hab H IH]; intros [|i] Hl Hu; simpl in *;
    try discriminate; [congruence|eauto].
Qed.

Definition goodp (p : pwq) : Prop := forall i q, nth_error p i = Some q -> good q.

Lemma pwq_make_good lb ub p : ordered lb ub -> pwq_make lb ub = Ok p -> goodp p.
Proof.
  intros Ho H i q Hq.
  destruct (pwq_make_nth _ _ _ H) as (L1 & L2 & Hn).
  destruct (nth_error_same_len p lb i q ltac:(lia) Hq) as [l Hl].
  destruct (nth_error_same_len p ub i q ltac:(lia) Hq) as [u Hu].
  pose proof (Hn i l u Hl Hu) as E; rewrite Hq in E; injection E as ->.
  apply pwq_coord_good; eapply ordered_nth; eauto.
Qed.

(** The vector transform is the coordinate transform in every coordinate. *)
Lemma pwq_to_f_tof p x :
  goodp p -> length x = length p -> pwq_to_f p x = mapM2 tof p x.
Proof.
  intros Gp Hl; unfold pwq_to_f, shift_into_feasible.
  revert x Hl; induction p as [|q p IH]; intros [|v x] Hl; simpl in *; try discriminate; [reflexivity|].
  unfold tof at 1.
  destruct (shift_coord q v) as [s|e]; cbn [bind]; [|reflexivity].
  assert (Gq : good q) by (apply (Gp 0%nat); reflexivity).
  assert (IH' : forall y, length y = length p -> bind (mapM2 shift_coord p y) (fun y0 => mapM2 quad_coord p y0) = mapM2 tof p y).
  { intros y Hy; apply IH; [intros i q' Hq; apply (Gp (S i)); exact Hq|exact Hy]. }
  specialize (IH' x ltac:(lia)).
  destruct (quad_ok q Gq s) as [y Hy]; rewrite Hy; cbn [bind].
  rewrite <- IH'.
  destruct (mapM2 shift_coord p x) as [ys|e]; cbn [bind]; [|reflexivity].
  cbn [mapM2]; rewrite Hy; cbn [bind]; reflexivity.
Qed.

Lemma pwq_to_f_range p x y :
  goodp p -> length x = length p -> pwq_to_f p x = Ok y ->
  length y = length p /\
  forall i q v, nth_error p i = Some q -> nth_error y i = Some v -> q_lb q <= v <= q_ub q.
Proof.
  intros Gp Hl H; rewrite pwq_to_f_tof in H by assumption.
  destruct (mapM2_ok_length _ _ _ _ H) as [H1 H2].
  split; [exact H2|].
  intros i q v Hq Hv.
  destruct (nth_error_same_len p x i q ltac:(lia) Hq) as [a Ha].
  destruct (mapM2_nth _ _ _ _ H i q a Hq Ha) as [c [Hc E]].
  rewrite Hv in Hc; injection Hc as <-.
  eapply tof_range; [eapply Gp; eauto|exact E].
Qed.

Lemma pwq_to_f_fault p x e :
  goodp p -> length x = length p -> pwq_to_f p x = Fault e -> e = IntCast.
Proof.
  intros Gp Hl H; rewrite pwq_to_f_tof in H by assumption.
  apply mapM2_fault in H; [|congruence].
  destruct H as (i & q & a & Hq & Ha & E).
  eapply tof_fault; [eapply Gp; eauto|exact E].
Qed.

(** * The API level *)


Lemma custom_pheno_len g v : len_pres (gp_custom g) -> length (custom_pheno g v) = length v.
Proof. unfold len_pres, custom_pheno; destruct (gp_custom g) as [[ge ph]|]; [intros [_ H]; apply H|auto]. Qed.
Lemma custom_geno_len g v : len_pres (gp_custom g) -> length (custom_geno g v) = length v.
Proof. unfold len_pres, custom_geno; destruct (gp_custom g) as [[ge ph]|]; [intros [H _]; apply H|auto]. Qed.

Lemma gp_bounds_total cust lb ub : ordered lb ub -> exists g, gp_bounds cust lb ub = Ok g.
Proof.
  intros H; unfold gp_bounds.
  destruct (pwq_make_total lb ub (Forall2_length_R _ _ _ H)) as [p ->]; simpl; eauto.
Qed.

Lemma feasible cust lb ub g x :
  ordered lb ub -> len_pres cust -> gp_bounds cust lb ub = Ok g -> length x = length lb ->
  (exists y, pheno g x = Ok y /\ inside lb ub y) \/ pheno g x = Fault IntCast.
Proof.
  intros Ho Hc Hg Hx; unfold gp_bounds in Hg.
  apply bind_ok in Hg; destruct Hg as [p [Hp E]]; injection E as <-.
  pose proof (pwq_make_good _ _ _ Ho Hp) as Gp.
  destruct (pwq_make_nth _ _ _ Hp) as (L1 & L2 & Hn).
  unfold pheno; cbn [gp_bound gp_scale].
  set (g := {| gp_bound := PwqBound p; gp_custom := cust; gp_scale := NoScaling |}).
  assert (Hlx : length (custom_pheno g x) = length p)
    by (rewrite custom_pheno_len by exact Hc; lia).
  destruct (pwq_to_f p (custom_pheno g x)) as [y|e] eqn:Hy; cbn [bind scale_f_step].
  - left; exists y; split; [reflexivity|].
    destruct (pwq_to_f_range _ _ _ Gp Hlx Hy) as [Ly Hr].
    split; [lia|split; [lia|]].
    intros i l u v Hl Hu Hv.
    exact (Hr i _ v (Hn i l u Hl Hu) Hv).
  - right; f_equal; eapply pwq_to_f_fault; eauto.
Qed.

Lemma pwq_to_f_total p x :
  goodp p -> length x = length p ->
  (forall i q v, nth_error p i = Some q -> nth_error x i = Some v ->
    q_lb q - 4294967296 * (q_ub q - q_lb q) <= v <= q_ub q + 4294967296 * (q_ub q - q_lb q)) ->
  exists y, pwq_to_f p x = Ok y.
Proof.
  intros Gp Hl Hw; rewrite pwq_to_f_tof by assumption.
  apply mapM2_all; [congruence|].
  intros i q v Hq Hv; apply tof_total; [eapply Gp; eauto|]. eapply Hw; eauto.
Qed.

Lemma feasible_total lb ub g x :
  ordered lb ub -> gp_bounds None lb ub = Ok g -> length x = length lb ->
  within_widths 4294967296 lb ub x ->
  exists y, pheno g x = Ok y /\ inside lb ub y.
Proof.
  intros Ho Hg Hx Hw.
  destruct (feasible None lb ub g x Ho I Hg Hx) as [H|H]; [exact H|exfalso].
  unfold gp_bounds in Hg.
  apply bind_ok in Hg; destruct Hg as [p [Hp E]]; injection E as <-.
  pose proof (pwq_make_good _ _ _ Ho Hp) as Gp.
  destruct (pwq_make_nth _ _ _ Hp) as (L1 & L2 & Hn).
  destruct (pwq_to_f_total p x Gp ltac:(lia)) as [y Hy].
  - intros i q v Hq Hv.
    destruct (nth_error_same_len p lb i q ltac:(lia) Hq) as [l Hl].
    destruct (nth_error_same_len p ub i q ltac:(lia) Hq) as [u Hu].
    pose proof (Hn i l u Hl Hu) as E; rewrite Hq in E; injection E as ->; cbn [pwq_coord q_lb q_ub].
    eapply Hw; eauto.
  - unfold pheno in H; cbn [gp_bound gp_scale custom_pheno gp_custom] in H.
    rewrite Hy in H; discriminate.
Qed.

(** The point handed back by to_internal is inside the extended box. *)
Lemma pwq_round p y :
  goodp p -> length y = length p ->
  (forall i q v, nth_error p i = Some q -> nth_error y i = Some v -> q_lb q <= v <= q_ub q) ->
  exists x, pwq_to_internal p y = Ok x /\ pwq_to_f p x = Ok y.
Proof.
  intros Gp Hl Hin.
  unfold pwq_to_internal.
  destruct (mapM2_all (fun q v => Ok (intern_coord q v)) p y ltac:(congruence)) as [x Hx]; [eauto|].
  exists x; split; [exact Hx|].
  destruct (mapM2_ok_length _ _ _ _ Hx) as [_ Lx].
  rewrite pwq_to_f_tof by (assumption || congruence).
  clear Lx. revert y x Hl Hin Hx.
  induction p as [|q p IH]; intros [|v y] x Hl Hin Hx; simpl in *; try discriminate.
  - injection Hx as <-; reflexivity.
  - apply bind_ok in Hx; destruct Hx as [xs [Hxs E]]; injection E as <-.
    cbn [mapM2].
    rewrite tof_intern; [|apply (Gp 0%nat); reflexivity|apply (Hin 0%nat); reflexivity].
    cbn [bind].
    rewrite (IH (fun i q' Hq => Gp (S i) q' Hq) y xs); [reflexivity|lia| |exact Hxs].
    intros i q' v' Hq Hv; apply (Hin (S i)); assumption.
Qed.

Lemma round_trip lb ub g y :
  ordered lb ub -> gp_bounds None lb ub = Ok g -> inside lb ub y ->
  exists x, geno g y = Ok x /\ pheno g x = Ok y.
Proof.
  intros Ho Hg (Ly1 & Ly2 & Hin); unfold gp_bounds in Hg.
  apply bind_ok in Hg; destruct Hg as [p [Hp E]]; injection E as <-.
  pose proof (pwq_make_good _ _ _ Ho Hp) as Gp.
  destruct (pwq_make_nth _ _ _ Hp) as (L1 & L2 & Hn).
  destruct (pwq_round p y Gp ltac:(lia)) as (x & Hx & Hf).
  - intros i q v Hq Hv.
    destruct (nth_error_same_len p lb i q ltac:(lia) Hq) as [l Hl].
    destruct (nth_error_same_len p ub i q ltac:(lia) Hq) as [u Hu].
    pose proof (Hn i l u Hl Hu) as E; rewrite Hq in E; injection E as ->; cbn [pwq_coord q_lb q_ub].
    eapply Hin; eauto.
  - exists x; unfold geno, pheno; cbn [gp_bound gp_scale scale_i_step scale_f_step bind].
    rewrite Hx; cbn [bind custom_geno gp_custom].
    split; [reflexivity|].
    cbn [custom_pheno gp_custom]; rewrite Hf; reflexivity.
Qed.

(** With a custom transform whose decode inverts its encode. *)
Lemma round_trip_custom ge ph lb ub g y :
  ordered lb ub -> (forall v, ph (ge v) = v) ->
  gp_bounds (Some (ge, ph)) lb ub = Ok g -> inside lb ub y ->
  exists x, geno g y = Ok x /\ pheno g x = Ok y.
Proof.
  intros Ho Hinv Hg Hin.
  destruct (gp_bounds_total None lb ub Ho) as [g0 Hg0].
  destruct (round_trip lb ub g0 y Ho Hg0 Hin) as (x & Hx & Hf).
  unfold gp_bounds in Hg, Hg0.
  apply bind_ok in Hg; destruct Hg as [p [Hp E]]; injection E as <-.
  rewrite Hp in Hg0; cbn [bind] in Hg0; injection Hg0 as <-.
  unfold geno in *; cbn [gp_bound gp_scale scale_i_step bind] in *.
  apply bind_ok in Hx; destruct Hx as [x0 [Hx0 E]]; injection E as <-.
  rewrite Hx0; cbn [bind]; eexists; split; [reflexivity|].
  unfold pheno in *; cbn [gp_bound gp_scale] in *.
  cbn [custom_pheno custom_geno gp_custom] in *; rewrite Hinv; exact Hf.
Qed.

(** * One coordinate of the public transform: core, monotone, periodic *)

Lemma good_of_bounds l u : l < u -> good (pwq_coord l u l u).
Proof. apply pwq_coord_good. Qed.

Lemma strip_al l u a b : q_al (pwq_coord l u a b) = strip l u l.
Proof. unfold strip; cbn [pwq_coord q_al]; f_equal; lra. Qed.
Lemma strip_au l u a b : q_au (pwq_coord l u a b) = strip l u u.
Proof. unfold strip; cbn [pwq_coord q_au]; f_equal; lra. Qed.
Lemma strip_r l u a b : q_r (pwq_coord l u a b) = period l u.
Proof.
  unfold period; rewrite <- (strip_al l u a b), <- (strip_au l u a b); cbn [pwq_coord q_r q_al q_au]; lra.
Qed.

Lemma pheno_1d l u g x :
  l < u -> gp_bounds None [l] [u] = Ok g ->
  pheno g [x] = (do y <- tof (pwq_coord l u l u) x; Ok [y]).
Proof.
  intros Hlu Hg.
  unfold gp_bounds in Hg; cbn in Hg; injection Hg as <-.
  unfold pheno; cbn [gp_bound gp_scale custom_pheno gp_custom].
  rewrite pwq_to_f_tof; [|intros [|[|i]] q Hq; simpl in Hq; try discriminate; injection Hq as <-; apply good_of_bounds; exact Hlu|reflexivity].
  cbn [mapM2 bind scale_f_step].
  destruct (tof _ x); reflexivity.
Qed.

(** The general vector case: coordinate [i] of the result only depends on
    coordinate [i] of the input and of the bounds. *)
Lemma pheno_coord lb ub g x y :
  ordered lb ub -> gp_bounds None lb ub = Ok g -> length x = length lb ->
  pheno g x = Ok y ->
  forall i l u v, nth_error lb i = Some l -> nth_error ub i = Some u -> nth_error x i = Some v ->
  exists w, nth_error y i = Some w /\ tof (pwq_coord l u l u) v = Ok w.
Proof.
  intros Ho Hg Hx Hy i l u v Hl Hu Hv.
  unfold gp_bounds in Hg.
  apply bind_ok in Hg; destruct Hg as [p [Hp E]]; injection E as <-.
  pose proof (pwq_make_good _ _ _ Ho Hp) as Gp.
  destruct (pwq_make_nth _ _ _ Hp) as (L1 & L2 & Hn).
  unfold pheno in Hy; cbn [gp_bound gp_scale custom_pheno gp_custom scale_f_step] in Hy.
  rewrite pwq_to_f_tof in Hy by (assumption || lia).
  apply bind_ok in Hy; destruct Hy as [y' [Hy E]]; injection E as <-.
  exact (mapM2_nth _ _ _ _ Hy i _ v (Hn i l u Hl Hu) Hv).
Qed.

Lemma core_identity lb ub g x :
  ordered lb ub -> gp_bounds None lb ub = Ok g -> length x = length lb ->
  (forall i l u v, nth_error lb i = Some l -> nth_error ub i = Some u -> nth_error x i = Some v ->
     l + strip l u l <= v <= u - strip l u u) ->
  pheno g x = Ok x.
Proof.
  intros Ho Hg Hx Hcore.
  pose proof Hg as Hg'.
  unfold gp_bounds in Hg'.
  apply bind_ok in Hg'; destruct Hg' as [p [Hp E]]; injection E as Eg.
  pose proof (pwq_make_good _ _ _ Ho Hp) as Gp.
  destruct (pwq_make_nth _ _ _ Hp) as (L1 & L2 & Hn).
  rewrite <- Eg; unfold pheno; cbn [gp_bound gp_scale custom_pheno gp_custom scale_f_step].
  rewrite pwq_to_f_tof by (assumption || lia).
  assert (Hm : mapM2 tof p x = Ok x).
  { assert (Ht : forall i q v, nth_error p i = Some q -> nth_error x i = Some v -> tof q v = Ok v).
    { intros i q v Hq Hv.
      destruct (nth_error_same_len p lb i q ltac:(lia) Hq) as [l Hl].
      destruct (nth_error_same_len p ub i q ltac:(lia) Hq) as [u Hu].
      pose proof (Hn i l u Hl Hu) as E'; rewrite Hq in E'; injection E' as ->.
      apply tof_core; [apply good_of_bounds; eapply ordered_nth; eauto|].
      rewrite strip_al, strip_au; cbn [pwq_coord q_lb q_ub]; eapply Hcore; eauto. }
    assert (Hlen : length p = length x) by lia.
    clear -Ht Hlen. revert x Ht Hlen; induction p as [|q p IH]; intros [|v x] Ht Hlen; simpl in *; try discriminate; [reflexivity|].
    rewrite (Ht 0%nat q v eq_refl eq_refl); cbn [bind].
    rewrite IH; [reflexivity| |lia]. intros i q' v' Hq Hv; apply (Ht (S i)); assumption. }
  rewrite Hm; reflexivity.
Qed.

Lemma mono_ext lb ub g x x' y y' :
  ordered lb ub -> gp_bounds None lb ub = Ok g -> length x = length lb -> length x' = length lb ->
  (forall i l u v v', nth_error lb i = Some l -> nth_error ub i = Some u ->
     nth_error x i = Some v -> nth_error x' i = Some v' ->
     l - strip l u l <= v /\ v <= v' /\ v' <= u + strip l u u) ->
  pheno g x = Ok y -> pheno g x' = Ok y' ->
  pointwise (fun _ a b => a <= b) y y'.
Proof.
  intros Ho Hg Hx Hx' Hm Hy Hy'.
  pose proof (feasible None lb ub g x Ho I Hg Hx) as Hf.
  pose proof (feasible None lb ub g x' Ho I Hg Hx') as Hf'.
  destruct Hf as [[y0 [E (L1 & L2 & _)]]|E]; rewrite Hy in E; [|discriminate]; injection E as <-.
  destruct Hf' as [[y0 [E (L1' & L2' & _)]]|E]; rewrite Hy' in E; [|discriminate]; injection E as <-.
  split; [lia|].
  intros i a b Ha Hb.
  destruct (nth_error_same_len y lb i a ltac:(lia) Ha) as [l Hl].
  destruct (nth_error_same_len y ub i a ltac:(lia) Ha) as [u Hu].
  destruct (nth_error_same_len y x i a ltac:(lia) Ha) as [v Hv].
  destruct (nth_error_same_len y x' i a ltac:(lia) Ha) as [v' Hv'].
  destruct (pheno_coord lb ub g x y Ho Hg Hx Hy i l u v Hl Hu Hv) as [w [Hw Ew]].
  destruct (pheno_coord lb ub g x' y' Ho Hg Hx' Hy' i l u v' Hl Hu Hv') as [w' [Hw' Ew']].
  rewrite Ha in Hw; injection Hw as <-; rewrite Hb in Hw'; injection Hw' as <-.
  destruct (Hm i l u v v' Hl Hu Hv Hv') as (B1 & B2 & B3).
  eapply (tof_mono (pwq_coord l u l u)); [|rewrite strip_al; exact B1|exact B2|rewrite strip_au; exact B3|exact Ew|exact Ew'].
  apply good_of_bounds; eapply ordered_nth; eauto.
Qed.

Lemma periodic lb ub g x x' y :
  ordered lb ub -> gp_bounds None lb ub = Ok g -> length x = length lb -> length x' = length lb ->
  (forall i l u v v', nth_error lb i = Some l -> nth_error ub i = Some u ->
     nth_error x i = Some v -> nth_error x' i = Some v' ->
     exists k : Z, v' = v + IZR k * period l u) ->
  pheno g x = Ok y ->
  pheno g x' = Ok y \/ pheno g x' = Fault IntCast.
Proof.
  intros Ho Hg Hx Hx' Hp Hy.
  destruct (feasible None lb ub g x' Ho I Hg Hx') as [[y' [Hy' (L1' & L2' & _)]]|E]; [left|right; exact E].
  rewrite Hy'; f_equal.
  destruct (feasible None lb ub g x Ho I Hg Hx) as [[y0 [E (L1 & L2 & _)]]|E]; rewrite Hy in E; [|discriminate]; injection E as <-.
  assert (Hext : forall i, nth_error y' i = nth_error y i).
  { intros i. destruct (nth_error y i) as [a|] eqn:Ha.
    - destruct (nth_error_same_len y lb i a ltac:(lia) Ha) as [l Hl].
      destruct (nth_error_same_len y ub i a ltac:(lia) Ha) as [u Hu].
      destruct (nth_error_same_len y x i a ltac:(lia) Ha) as [v Hv].
      destruct (nth_error_same_len y x' i a ltac:(lia) Ha) as [v' Hv'].
      destruct (pheno_coord lb ub g x y Ho Hg Hx Hy i l u v Hl Hu Hv) as [w [Hw Ew]].
      destruct (pheno_coord lb ub g x' y' Ho Hg Hx' Hy' i l u v' Hl Hu Hv') as [w' [Hw' Ew']].
      rewrite Ha in Hw; injection Hw as <-.
      destruct (Hp i l u v v' Hl Hu Hv Hv') as [k ->].
      pose proof (tof_period_gen (pwq_coord l u l u) (good_of_bounds l u ltac:(eapply ordered_nth; eauto)) v a k Ew) as Hper.
      rewrite strip_r in Hper.
      destruct Hper as [Hper|Hper]; rewrite Hper in Ew'; [injection Ew' as <-; exact Hw'|discriminate].
    - apply nth_error_None in Ha. apply nth_error_None. lia. }
  clear -Hext. revert y Hext; induction y' as [|a y' IH]; intros [|b y] Hext.
  - reflexivity.
  - specialize (Hext 0%nat); discriminate.
  - specialize (Hext 0%nat); discriminate.
  - f_equal; [specialize (Hext 0%nat); simpl in Hext; congruence|].
    apply IH; intros i; exact (Hext (S i)).
Qed.
