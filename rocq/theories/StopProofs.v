From Coq Require Import Reals Lra Permutation.
From Verif Require Import Base Dbl DblProofs Config Search SpecSearch SpecStop SortProofs SearchInv CounterProofs HistProofs.
Local Open Scope Z_scope.

Lemma Ok_inj {A} (x y : A) : Ok x = Ok y -> x = y.
Proof. congruence. Qed.
Lemma recent_spec {A} k (l : list A) r : recent k l = Ok r -> (k <= length l)%nat /\ r = lastn k l.
Proof.
  revert r; induction k as [|k IH]; cbn; intros r H.
  - injection H as <-. split; [lia|]. unfold lastn. rewrite Nat.sub_0_r, skipn_all. auto.
  - inv_do H. inv_do H. injection H as <-. apply at_ok in H0 as [H0 H0']. apply IH in H1 as [H1 ->].
    assert (Hk : (S k <= length l)%nat) by lia. split; auto.
    unfold lastn. replace (length l - k)%nat with (S (length l - S k)) by lia.
    rewrite <- tl_skipn.
    assert (E : nth_error (skipn (length l - S k) l) 0 = Some a).
    { rewrite nth_error_skipn'. rewrite <- H0'. f_equal. lia. }
    destruct (skipn (length l - S k) l); cbn in *; [discriminate|]. injection E as ->. auto.
Qed.
Lemma recent_ok {A} k (l : list A) : (k <= length l)%nat -> recent k l = Ok (lastn k l).
Proof.
  induction k as [|k IH]; intros H; cbn.
  - unfold lastn. rewrite Nat.sub_0_r, skipn_all. auto.
  - destruct (at_in l (Z.of_nat (length l) - 1 - Z.of_nat k)) as (a & -> & E); [lia|].
    cbn. rewrite IH by lia. cbn. f_equal. unfold lastn.
    replace (length l - k)%nat with (S (length l - S k)) by lia. rewrite <- tl_skipn.
    assert (E2 : nth_error (skipn (length l - S k) l) 0 = Some a).
    { rewrite nth_error_skipn'. rewrite <- E. f_equal. lia. }
    destruct (skipn (length l - S k) l); cbn in *; [discriminate|]. injection E2 as ->. auto.
Qed.

(** Sorting of values *)
Lemma insert_dbl_perm x l : Permutation (insert_dbl x l) (x :: l).
Proof. induction l as [|y l IH]; cbn; auto. destruct (dlt y x); auto. rewrite IH. apply perm_swap. Qed.
Lemma sort_dbl_perm l : Permutation (sort_dbl l) l.
Proof. unfold sort_dbl. induction l as [|x l IH]; cbn; auto. rewrite insert_dbl_perm, IH. auto. Qed.
(** Values as candidates, to reuse the lemmas on candidates. *)
Definition as_cand (v : dbl) : cand unit := mkCand v [] 0 0.
Lemma insert_as x l : map as_cand (insert_dbl x l) = insert_cand (as_cand x) (map as_cand l).
Proof. induction l as [|y l IH]; cbn; auto. destruct (dlt y x); cbn; auto. now rewrite IH. Qed.
Lemma sort_as l : map as_cand (sort_dbl l) = sort_cands (map as_cand l).
Proof. unfold sort_dbl. induction l as [|x l IH]; cbn; auto. rewrite insert_as, IH. auto. Qed.
Lemma map_as l : map c_f (map as_cand l) = l.
Proof. rewrite map_map. apply map_id. Qed.
Lemma sort_dbl_stat l k v : (forall u, In u l -> u <> NaN) -> nth_error (sort_dbl l) k = Some v -> order_stat k l v.
Proof.
  intros Hn Hk. apply (order_stat_perm k (sort_dbl l)); [apply sort_dbl_perm|].
  assert (HN : nonan (map as_cand l)).
  { intros c Hc. apply in_map_iff in Hc as (u & <- & Hu). cbn. auto. }
  pose proof (asc_order_stat (sort_cands (map as_cand l)) k (as_cand v) (nonan_sort _ HN) (sort_asc _ HN)) as H.
  rewrite <- sort_as in H. rewrite map_as in H. apply H. now apply map_nth_error.
Qed.
Lemma order_stat_unique k l v w : (forall u, In u l -> u <> NaN) -> order_stat k l v -> order_stat k l w -> v = w.
Proof.
  intros Hn (I1 & A1 & B1) (I2 & A2 & B2).
  assert (M : forall a b, In a l -> In b l -> dlt a b = true ->
     (length (filter (fun u => dle u a) l) <= length (filter (fun u => dlt u b) l))%nat).
  { intros a b Ha Hb Hab. clear -Hab. induction l as [|x l IH]; cbn; auto.
    destruct (dle x a) eqn:E.
    - rewrite (dle_lt_trans _ _ _ E Hab). cbn. lia.
    - destruct (dlt x b); cbn; lia. }
  destruct (dlt v w) eqn:E1; [specialize (M v w I1 I2 E1); lia|].
  destruct (dlt w v) eqn:E2; [specialize (M w v I2 I1 E2); lia|].
  apply dle_antisym; apply dlt_false_le; auto.
Qed.
Lemma is_median_unique l v w : (forall u, In u l -> u <> NaN) -> is_median l v -> is_median l w -> v = w.
Proof.
  intros Hn. unfold is_median. destruct (Nat.even (length l)).
  - intros (a & b & A & B & ->) (a' & b' & A' & B' & ->).
    rewrite (order_stat_unique _ _ _ _ Hn A A'), (order_stat_unique _ _ _ _ Hn B B'). auto.
  - intros A B. eapply order_stat_unique; eauto.
Qed.
Lemma median_spec l v : (forall u, In u l -> u <> NaN) -> median l = Ok v -> is_median l v.
Proof.
  intros Hn. unfold median. destruct (existsb is_nan l && _); [discriminate|].
  assert (Hev : (Z.of_nat (length l) mod 2 =? 0) = Nat.even (length l)).
  { destruct (Nat.even (length l)) eqn:E.
    - apply Nat.even_spec in E as [q ->]. rewrite Nat2Z.inj_mul. rewrite Z.mul_comm, Z_mod_mult. reflexivity.
    - assert (O : Nat.odd (length l) = true) by (unfold Nat.odd; rewrite E; auto).
      apply Nat.odd_spec in O as [q ->]. rewrite Nat2Z.inj_add, Nat2Z.inj_mul.
      replace (Z.of_nat 2 * Z.of_nat q + Z.of_nat 1) with (1 + Z.of_nat q * 2) by lia.
      rewrite Z_mod_plus_full. reflexivity. }
  rewrite Hev.
  assert (Hd : Z.of_nat (length l) / 2 = Z.of_nat (length l / 2)) by now rewrite Nat2Z.inj_div.
  rewrite Hd. unfold is_median. destruct (Nat.even (length l)).
  - intros H. inv_do H. inv_do H. injection H as <-. apply at_ok in H0 as [P0 H0], H1 as [_ H1]. rewrite Nat2Z.id in H1.
    exists a, a0. split; [|split; auto; apply sort_dbl_stat; auto].
    apply sort_dbl_stat; auto. rewrite <- H0. f_equal. lia.
  - intros H. apply at_ok in H as [_ H]. rewrite Nat2Z.id in H. apply sort_dbl_stat; auto.
Qed.

Lemma dbl_max_nn : dbl_max <> NaN. Proof. unfold dbl_max. discriminate. Qed.
Lemma finite_nn v : finite_dbl v -> v <> NaN.
Proof. intros [H _]. apply dle_not_nan in H. tauto. Qed.
Lemma finite_Fin v : finite_dbl v -> exists z, v = Fin z.
Proof.
  intros [H1 H2]. destruct v; [apply dle_not_nan in H1; tauto| |eauto|].
  - cbv [dle dlt deq dneg dbl_max] in H2. discriminate.
  - cbv [dle dlt deq dneg dbl_max] in H1. discriminate.
Qed.

(** Range of a window of finite values *)
Lemma fold_min_spec {T} (l : list (cand T)) : forall m, m <> NaN -> (forall c, In c l -> c_f c <> NaN) ->
  let r := fold_left (fun m c => dmin (c_f c) m) l m in
  r <> NaN /\ dle r m = true /\ (forall c, In c l -> dle r (c_f c) = true) /\ (r = m \/ exists c, In c l /\ r = c_f c).
Proof.
  induction l as [|x l IH]; intros m Hm Hn; cbn [fold_left].
  - split; auto. split; [apply dle_refl; auto|]. split; [intros c []|auto].
  - assert (Hx : c_f x <> NaN) by (apply Hn; left; auto).
    assert (Hd : dmin (c_f x) m <> NaN) by (unfold dmin; destruct (dlt m (c_f x)); auto).
    destruct (IH (dmin (c_f x) m) Hd) as (A & B & C & D); [intros c Hc; apply Hn; right; auto|].
    assert (E : dle (dmin (c_f x) m) m = true /\ dle (dmin (c_f x) m) (c_f x) = true).
    { unfold dmin. destruct (dlt m (c_f x)) eqn:E; split; try apply dle_refl; auto.
      - apply dlt_dle; auto.
      - apply dlt_false_le; auto. }
    split; auto. split; [eapply dle_trans; [exact B|apply E]|].
    split.
    + intros c [<-|Hc]; [eapply dle_trans; [exact B|apply E]|apply C; auto].
    + destruct D as [D|(c & Hc & D)].
      * rewrite D. unfold dmin. destruct (dlt m (c_f x)); [auto|]. right; exists x; split; [left; auto|auto].
      * right; exists c; split; [right; auto|auto].
Qed.
Lemma fold_max_spec {T} (l : list (cand T)) : forall m, m <> NaN -> (forall c, In c l -> c_f c <> NaN) ->
  let r := fold_left (fun m c => dmax (c_f c) m) l m in
  r <> NaN /\ dle m r = true /\ (forall c, In c l -> dle (c_f c) r = true) /\ (r = m \/ exists c, In c l /\ r = c_f c).
Proof.
  induction l as [|x l IH]; intros m Hm Hn; cbn [fold_left].
  - split; auto. split; [apply dle_refl; auto|]. split; [intros c []|auto].
  - assert (Hx : c_f x <> NaN) by (apply Hn; left; auto).
    assert (Hd : dmax (c_f x) m <> NaN) by (unfold dmax; destruct (dlt (c_f x) m); auto).
    destruct (IH (dmax (c_f x) m) Hd) as (A & B & C & D); [intros c Hc; apply Hn; right; auto|].
    assert (E : dle m (dmax (c_f x) m) = true /\ dle (c_f x) (dmax (c_f x) m) = true).
    { unfold dmax. destruct (dlt (c_f x) m) eqn:E; split; try apply dle_refl; auto.
      - apply dlt_dle; auto.
      - apply dlt_false_le; auto. }
    split; auto. split; [eapply dle_trans; [apply E|exact B]|].
    split.
    + intros c [<-|Hc]; [eapply dle_trans; [apply E|exact B]|apply C; auto].
    + destruct D as [D|(c & Hc & D)].
      * rewrite D. unfold dmax. destruct (dlt (c_f x) m); [auto|]. right; exists x; split; [left; auto|auto].
      * right; exists c; split; [right; auto|auto].
Qed.
Lemma range_lt {T} (l : list (cand T)) thr : l <> [] -> (forall c, In c l -> finite_dbl (c_f c)) ->
  dlt (dabs (dsub (fold_left (fun m c => dmax (c_f c) m) l (dneg dbl_max)) (fold_left (fun m c => dmin (c_f c) m) l dbl_max))) thr = true <->
  (forall a b, In a l -> In b l -> dlt (dabs (dsub (c_f a) (c_f b))) thr = true).
Proof.
  intros Hl Hf.
  assert (Hn : forall c, In c l -> c_f c <> NaN) by (intros; apply finite_nn; auto).
  pose proof (fold_min_spec l dbl_max dbl_max_nn Hn) as (A1 & A2 & A3 & A4).
  assert (Hdn : dneg dbl_max <> NaN) by (unfold dbl_max; discriminate).
  pose proof (fold_max_spec l (dneg dbl_max) Hdn Hn) as (B1 & B2 & B3 & B4).
  set (lo := fold_left (fun m c => dmin (c_f c) m) l dbl_max) in *.
  set (hi := fold_left (fun m c => dmax (c_f c) m) l (dneg dbl_max)) in *.
  assert (L : exists c, In c l /\ lo = c_f c).
  { destruct A4 as [A4|A4]; auto. destruct l as [|x l']; [congruence|]. exists x. split; [left; auto|].
    apply dle_antisym; [apply A3; left; auto|]. rewrite A4. apply Hf. left; auto. }
  assert (Hh : exists c, In c l /\ hi = c_f c).
  { destruct B4 as [B4|B4]; auto. destruct l as [|x l']; [congruence|]. exists x. split; [left; auto|].
    apply dle_antisym; [|apply B3; left; auto]. rewrite B4. apply Hf. left; auto. }
  destruct L as (cl & Il & El), Hh as (ch & Ih & Eh).
  split; [|intros H; rewrite El, Eh; apply H; auto].
  intros H a b Ha Hb.
  destruct (finite_Fin _ (Hf a Ha)) as [za Ea], (finite_Fin _ (Hf b Hb)) as [zb Eb], (finite_Fin _ (Hf cl Il)) as [zl El'], (finite_Fin _ (Hf ch Ih)) as [zh Eh'].
  assert (Qa1 := A3 a Ha). assert (Qb1 := A3 b Hb). assert (Qa2 := B3 a Ha). assert (Qb2 := B3 b Hb).
  rewrite El, Eh in *. rewrite Ea, Eb, El', Eh' in *.
  assert (zl <= za /\ zl <= zb /\ za <= zh /\ zb <= zh).
  { rewrite dle_fin in Qa1, Qb1, Qa2, Qb2. lia. }
  unfold dsub, dneg, dadd, dabs in *. destruct thr; auto. rewrite dlt_fin in *. lia.
Qed.

Section Stop.
Context {T N : Type}.
Variable no : numops T N.
Variable e : env T N.
Variable g : cfg T.
Notation st := (st T N).

Lemma auto_max_iter_iff (s : sol T N) : (1 <= g_lambda g)%nat ->
  auto_max_iter_crit g s = true <-> auto_iters_spent g s.
Proof.
  intros Hl. unfold auto_max_iter_crit, auto_iters_spent.
  assert (Hk : (Z.of_nat (g_dim g) <? 10) = (g_dim g <? 10)%nat).
  { destruct (Z.ltb_spec (Z.of_nat (g_dim g)) 10), (Nat.ltb_spec (g_dim g) 10); auto; lia. }
  rewrite Hk. set (b := g_vd g && (g_dim g <? 10)%nat).
  assert (Hkk : (if b then 1000 else 1)%R = IZR (if b then 1000 else 1)) by (destruct b; reflexivity).
  rewrite Hkk. set (k := if b then 1000 else 1).
  assert (Hkp : 1 <= k) by (unfold k; destruct b; lia).
  set (d := Z.of_nat (g_dim g)). set (ex := s_niter s - 100 * k). set (w := 50 * k * (d + 3) * (d + 3)).
  assert (Hd0 : 0 <= d) by (unfold d; lia).
  assert (Hw : 0 <= w) by (unfold w; nia).
  rewrite andb_true_iff, Z.leb_le, Z.leb_le.
  rewrite !INR_IZR_INZ. fold d. set (L := Z.of_nat (g_lambda g)).
  assert (HL : 1 <= L) by (unfold L; lia).
  assert (HLr : (0 < IZR L)%R) by (apply IZR_lt; lia).
  assert (Hs : (0 < sqrt (IZR L))%R) by (apply sqrt_lt_R0; auto).
  assert (Hss : (sqrt (IZR L) * sqrt (IZR L) = IZR L)%R) by (apply sqrt_sqrt; lra).
  assert (E1 : ((100 + 50 * ((IZR d + 3) * (IZR d + 3)) / sqrt (IZR L)) * IZR k = 100 * IZR k + IZR w / sqrt (IZR L))%R).
  { unfold w. rewrite !mult_IZR, !plus_IZR. field. lra. }
  rewrite E1.
  assert (E2 : IZR (s_niter s) = (IZR ex + 100 * IZR k)%R) by (unfold ex; rewrite minus_IZR, mult_IZR; ring).
  rewrite E2.
  assert (Hwr : (0 <= IZR w)%R) by (apply IZR_le; lia).
  split.
  - intros [He Hsq].
    assert (Her : (0 <= IZR ex)%R) by (apply IZR_le; auto).
    assert (Hq : (IZR w * IZR w <= IZR ex * IZR ex * IZR L)%R) by (rewrite <- !mult_IZR; apply IZR_le; auto).
    assert (IZR w <= IZR ex * sqrt (IZR L))%R.
    { apply Rsqr_incr_0_var; [|apply Rmult_le_pos; lra]. unfold Rsqr.
      replace (IZR ex * sqrt (IZR L) * (IZR ex * sqrt (IZR L)))%R with (IZR ex * IZR ex * (sqrt (IZR L) * sqrt (IZR L)))%R by ring.
      rewrite Hss. auto. }
    assert (IZR w / sqrt (IZR L) <= IZR ex)%R; [|lra].
    apply Rmult_le_reg_r with (sqrt (IZR L)); auto. unfold Rdiv. rewrite Rmult_assoc, Rinv_l by lra. lra.
  - intros H.
    assert (H1 : (IZR w / sqrt (IZR L) <= IZR ex)%R) by lra.
    assert (H2 : (IZR w <= IZR ex * sqrt (IZR L))%R).
    { apply Rmult_le_compat_r with (r := sqrt (IZR L)) in H1; [|lra]. unfold Rdiv in H1. rewrite Rmult_assoc, Rinv_l in H1 by lra. lra. }
    assert (H3 : (0 <= IZR ex)%R).
    { apply Rle_trans with (IZR w / sqrt (IZR L))%R; auto. apply Rmult_le_pos; auto. apply Rlt_le, Rinv_0_lt_compat; auto. }
    split; [apply le_IZR; auto|].
    apply le_IZR. rewrite !mult_IZR.
    assert (E3 : (IZR ex * IZR ex * IZR L = (IZR ex * sqrt (IZR L)) * (IZR ex * sqrt (IZR L)))%R).
    { transitivity (IZR ex * IZR ex * (sqrt (IZR L) * sqrt (IZR L)))%R; [rewrite Hss; ring|ring]. }
    rewrite E3. apply Rmult_le_compat; lra.
Qed.

Lemma tol_hist_iff' (s : sol T N) b : (forall c, In c (s_hist s) -> finite_dbl (c_f c)) -> 1 <= window g s -> tol_hist_fun_crit g s = Ok b -> (b = true <-> converged g s).
Proof.
  intros Hf Hw. unfold tol_hist_fun_crit, converged. fold (window g s).
  destruct (Z.of_nat (g_lambda g) =? 0); [discriminate|].
  destruct (Z.ltb_spec (Z.min (window g s) (Z.of_nat (length (s_hist s)))) (window g s)).
  - intros Q; injection Q as <-. split; [discriminate|lia].
  - intros Q. inv_do Q. apply Ok_inj in Q. subst b. apply recent_spec in H0 as [H0 ->].
    rewrite Z.min_l in * by lia.
    set (l := lastn (Z.to_nat (window g s)) (s_hist s)).
    assert (Hl : l <> []).
    { intros E. apply (f_equal (@length _)) in E. unfold l in E. rewrite lastn_length in E. cbn in E. lia. }
    rewrite (range_lt (rev l)).
    + split; [intros Hr; split; [lia|intros a b Ha Hb; apply Hr; rewrite <- in_rev; auto]|intros (_ & Hr) a b Ha Hb; rewrite <- in_rev in Ha, Hb; auto].
    + intros E. apply Hl. rewrite <- (rev_involutive l), E. reflexivity.
    + intros c Hc. rewrite <- in_rev in Hc. apply Hf. unfold l, lastn in Hc. rewrite <- (firstn_skipn (length (s_hist s) - Z.to_nat (window g s)) (s_hist s)), in_app_iff. auto.
Qed.
Lemma tol_hist_iff (s : sol T N) b : hist_finite s -> 1 <= window g s -> tol_hist_fun_crit g s = Ok b -> (b = true <-> converged g s).
Proof. intros (Hf & _). apply tol_hist_iff', Hf. Qed.
Lemma flat_iff (s : sol T N) b : equal_fun_vals_crit g s = Ok b -> (b = true <-> flat g s).
Proof.
  unfold equal_fun_vals_crit, flat. cbv zeta. set (n := Z.min _ _). destruct (Z.ltb_spec n (s_maxhist s)).
  - intros Q; injection Q as <-. split; [discriminate|lia].
  - intros Q. inv_do Q. inv_do Q. injection Q as <-. apply recent_spec in H0 as [_ ->], H1 as [_ ->].
    fold (flat_count s (Z.to_nat n)). rewrite Z.ltb_lt. split; [intros Hr; split; [lia|exact Hr]|tauto].
Qed.
Lemma stagnation_iff' (s : sol T N) b : (forall v, In v (s_bf s) -> v <> NaN) -> (forall v, In v (s_med s) -> v <> NaN) -> stagnation_crit s = Ok b -> (b = true <-> stagnated s).
Proof.
  intros Hb Hm. unfold stagnation_crit, stagnated.
  destruct (Z.ltb_spec (Z.of_nat (length (s_bf s))) 20); cbn [orb].
  { intros Q; injection Q as <-. split; [discriminate|]. intros (H1 & _). lia. }
  destruct (Z.ltb_spec (Z.of_nat (length (s_med s))) 20).
  { intros Q; injection Q as <-. split; [discriminate|]. intros (_ & H1 & _). lia. }
  intros Q. inv_do Q. inv_do Q. injection Q as <-.
  assert (Hm' : forall u, In u (firstn 20 (s_med s)) -> u <> NaN).
  { intros u Hu. apply Hm. rewrite <- (firstn_skipn 20 (s_med s)), in_app_iff; auto. }
  apply median_spec in H1, H2; auto.
  split.
  - intros E. split; [lia|]. split; [lia|]. eauto.
  - intros (_ & _ & a1 & b1 & A & B & E). rewrite (is_median_unique _ _ _ Hb H1 A), (is_median_unique _ _ _ Hm' H2 B). auto.
Qed.

Lemma stagnation_iff (s : sol T N) b : hist_finite s -> stagnation_crit s = Ok b -> (b = true <-> stagnated s).
Proof. intros (_ & Hb & Hm). apply stagnation_iff'; auto. Qed.
Lemma criterion_iff c (s : sol T N) b : In c criteria_codes -> (1 <= g_lambda g)%nat -> hist_finite s -> 1 <= window g s ->
  criterion no g c s = Ok b -> (b = true <-> condition no g c s).
Proof.
  intros Hc Hl Hf Hw. unfold criterion.
  assert (Hi : forall x, c = x -> forall P : Prop, (b = true <-> P) ->
     (forall Q : Prop, Q <-> (c = x -> Q)) -> True) by auto. clear Hi.
  destruct Hc as [<-|[<-|[<-|[<-|[<-|[<-|[<-|[<-|[<-|[<-|[<-|[<-|[]]]]]]]]]]]]]; cbn [Z.eqb Pos.eqb]; intros Q; try (injection Q as <-).
  all: unfold condition.
  - split; [intros; repeat split; try lia; auto|intros H; apply H; auto].
  - split; [intros; repeat split; try lia; auto|intros H; apply H; auto].
  - apply tol_hist_iff in Q; auto. rewrite Q. split; [intros; repeat split; try lia; auto; apply H|intros H; apply H; auto].
  - split; [intros; repeat split; try lia; auto|intros H; apply H; auto].
  - split; [intros; repeat split; try lia; auto|intros H; apply H; auto].
  - split; [intros; repeat split; try lia; auto|intros H; apply H; auto].
  - apply flat_iff in Q; auto. rewrite Q. split; [intros; repeat split; try lia; auto; apply H|intros H; apply H; auto].
  - apply stagnation_iff in Q; auto. rewrite Q. split; [intros; repeat split; try lia; auto; apply H|intros H; apply H; auto].
  - rewrite auto_max_iter_iff by auto. split; [intros; repeat split; try lia; auto|intros H; apply H; auto].
  - unfold max_fevals_crit. rewrite andb_true_iff, negb_true_iff, Z.eqb_neq, Z.leb_le.
    split; [intros; repeat split; try lia; auto|intros H; apply H; auto].
  - unfold max_iter_crit. rewrite andb_true_iff, negb_true_iff, Z.eqb_neq, Z.leb_le.
    split; [intros; repeat split; try lia; auto|intros H; apply H; auto].
  - unfold ftarget_crit. rewrite andb_true_iff, negb_true_iff.
    assert (E : deq (g_ftarget g) PosInf = false <-> g_ftarget g <> PosInf).
    { split; [intros E Q; rewrite Q in E; discriminate|].
      intros Q. apply not_true_iff_false. intros E. apply deq_eq in E. auto. }
    rewrite E. split; [intros; repeat split; try lia; tauto|intros H; apply H; auto].
Qed.

(** Scanning *)
Lemma scan_sound fl (s : sol T N) r : stop_scan no g fl s = Ok r -> r <> 0 ->
  exists pre post, fl = pre ++ (r, true) :: post /\ criterion no g r s = Ok true /\
    forall c, In (c, true) pre -> criterion no g c s = Ok false.
Proof.
  induction fl as [|[c a] fl IH]; cbn [stop_scan]; intros H Hr; [injection H as <-; congruence|].
  destruct a.
  - inv_do H. destruct a.
    + injection H as <-. exists [], fl. split; auto. split; auto. intros c' [].
    + destruct (IH H Hr) as (pre & post & -> & H1 & H2). exists ((c, true) :: pre), post. split; auto. split; auto.
      intros c' [E|Hc']; [injection E as <-; auto|auto].
  - destruct (IH H Hr) as (pre & post & -> & H1 & H2). exists ((c, false) :: pre), post. split; auto. split; auto.
    intros c' [E|Hc']; [discriminate|auto].
Qed.
Lemma scan_none fl (s : sol T N) : (forall c, In c (map fst fl) -> c <> 0) -> stop_scan no g fl s = Ok 0 ->
  forall c, In (c, true) fl -> criterion no g c s = Ok false.
Proof.
  induction fl as [|[c a] fl IH]; cbn [stop_scan]; intros Hz H c' Hc; [destruct Hc|].
  destruct a.
  - inv_do H. destruct a.
    + injection H as ->. exfalso. apply (Hz 0); auto. left; auto.
    + destruct Hc as [E|Hc]; [injection E as <-; auto|]. apply IH; auto. intros q Hq; apply Hz; right; auto.
  - destruct Hc as [E|Hc]; [discriminate|]. apply IH; auto. intros q Hq; apply Hz; right; auto.
Qed.
Lemma codes_nonzero : forall c, In c criteria_codes -> c <> 0.
Proof. intros c H. cbn in H. lia. Qed.
(** Ascending lists of codes *)
Lemma codes_before : forall pre post r c, map fst (pre ++ (r, true) :: post : list (Z * bool)) = criteria_codes ->
  forall b, In (c, b) (pre ++ (r, true) :: post) -> c < r -> In (c, b) pre.
Proof.
  intros pre post r c Hm b Hin Hlt.
  apply in_app_iff in Hin as [Hin|[E|Hin]]; auto; exfalso.
  - injection E as -> _. lia.
  - assert (S : forall l : list Z, (forall i j a b, (i < j)%nat -> nth_error l i = Some a -> nth_error l j = Some b -> a < b) ->
       forall p q x y, l = p ++ x :: q -> In y q -> x < y).
    { intros l Hl p q x y -> Hy. apply In_nth_error in Hy as [k Hk].
      apply (Hl (length p) (length p + S k)%nat); [lia| |].
      - rewrite nth_error_app2, Nat.sub_diag by lia. auto.
      - rewrite nth_error_app2 by lia. replace (length p + S k - length p)%nat with (S k) by lia. auto. }
    assert (A : forall i j a b, (i < j)%nat -> nth_error criteria_codes i = Some a -> nth_error criteria_codes j = Some b -> a < b).
    { intros i j a b' Hij Ha Hb.
      assert (j < length criteria_codes)%nat by (apply nth_error_Some; congruence). cbn in H.
      do 12 (destruct j as [|j]; [do 12 (destruct i as [|i]; [cbn in Ha, Hb; injection Ha as <-; injection Hb as <-; lia|]); lia|]). lia. }
    rewrite map_app in Hm. cbn [map fst] in Hm. symmetry in Hm.
    specialize (S _ A _ _ _ c Hm). apply (in_map fst) in Hin. specialize (S Hin). lia.
Qed.

Theorem stop_first_active (s : st) s' : flags_wf g -> (1 <= g_lambda g)%nat -> hist_finite (t_sol s) -> 1 <= window g (t_sol s) ->
  0 <= s_status (t_sol s) -> e_progress e (t_sol s) = 0 -> t_niter s <> 0 ->
  stop no e g s = Ok (true, s') ->
  let r := s_status (t_sol s') in
  In r criteria_codes /\ active g r /\ condition no g r (t_sol s) /\
  (forall c, active g c -> c < r -> ~ condition no g c (t_sol s)) /\
  s' = set_t_sol (set_s_status r (t_sol s)) s.
Proof.
  intros Hf Hl Hh Hw Hs Hp Ht H. apply stop_spec in H as [(_ & _ & [H|H])|(_ & _ & [(H & _)|(_ & r & H & Hr & ->)])]; try lia.
  cbn [t_sol set_t_sol s_status set_s_status]. symmetry in Hr. apply negb_true_iff, Z.eqb_neq in Hr.
  destruct (scan_sound _ _ _ H Hr) as (pre & post & Efl & Hc & Hpre).
  assert (Hin : In (r, true) (g_flags g)) by (rewrite Efl; apply in_app_iff; right; left; auto).
  assert (Hcodes : forall c b, In (c, b) (g_flags g) -> In c criteria_codes).
  { intros c b Hb. rewrite <- Hf. apply (in_map fst) in Hb. auto. }
  split; [eauto|]. split; [auto|]. split; [eapply criterion_iff; eauto|]. split; auto.
  intros c Hac Hlt Hcond. unfold active in Hac.
  assert (In (c, true) pre).
  { apply (codes_before pre post r c); auto; [rewrite <- Efl; auto|rewrite <- Efl; auto]. }
  apply Hpre in H0. apply criterion_iff in H0; eauto. apply H0 in Hcond. discriminate.
Qed.
Theorem continue_none_active (s : st) s' : flags_wf g -> (1 <= g_lambda g)%nat -> hist_finite (t_sol s) -> 1 <= window g (t_sol s) ->
  stop no e g s = Ok (false, s') -> t_niter s <> 0 ->
  s_status (t_sol s') = 0 /\ forall c, active g c -> ~ condition no g c (t_sol s).
Proof.
  intros Hf Hl Hh Hw H Ht. apply stop_spec in H as [(H & _)|(_ & _ & [(H & _)|(_ & r & H & Hr & ->)])]; try congruence.
  symmetry in Hr. apply negb_false_iff, Z.eqb_eq in Hr. subst r.
  split; auto. intros c Hc Hcond.
  assert (Hin : In c criteria_codes) by (rewrite <- Hf; apply (in_map fst) in Hc; auto).
  apply scan_none with (c := c) in H; auto.
  - apply criterion_iff in H; eauto. apply H in Hcond. discriminate.
  - rewrite Hf. apply codes_nonzero.
Qed.

(** * Status in histories *)
Lemma tell_status (s s' : st) : tell no e g s = Ok s' -> s_status (t_sol s') = s_status (t_sol s).
Proof. intros H. apply tell_effect in H. decompose [and] H. auto. Qed.
Lemma keep_status (s s' : st) : keep s' = keep s -> s_status (t_sol s') = s_status (t_sol s).
Proof. unfold keep. intros H; injection H as K1 K2 K3 K4 K5 K6 K7 K8 K9 K10 K11 K12 K13 K14 K15. auto. Qed.
Definition status_ok (s : st) := s_status (t_sol s) = 0 \/ active g (s_status (t_sol s)).
Lemma stop_status s b s' : status_ok s -> stop no e g s = Ok (b, s') -> status_ok s'.
Proof.
  intros C H. apply stop_spec in H as [(_ & -> & _)|(_ & _ & [(_ & _ & ->)|(_ & r & H & _ & ->)])]; auto.
  unfold status_ok. cbn. destruct (Z.eq_dec r 0); auto. right.
  destruct (scan_sound _ _ _ H n) as (pre & post & E & _). unfold active. rewrite E. apply in_app_iff; right; left; auto.
Qed.
Lemma op_status o s s' : do_op no e g o s = Ok s' -> status_ok s -> status_ok s'.
Proof.
  intros H C. destruct o; cbn [do_op] in H.
  - inv_do H. destruct a. injection H as <-. apply ask_spec in H0 as ((K & _) & _). unfold status_ok. rewrite (keep_status _ _ K). auto.
  - apply eval_spec in H as (_ & _ & K & _). unfold status_ok. rewrite (keep_status _ _ K). auto.
  - unfold status_ok. rewrite (tell_status _ _ H). auto.
  - injection H as <-. auto.
  - inv_do H. destruct a. injection H as <-. eapply stop_status; eauto.
  - inv_do H. inv_do H. injection H as <-. apply eval_spec in H0 as (_ & _ & K & _). unfold status_ok. cbn. rewrite (tell_status _ _ H1), (keep_status _ _ K). auto.
  - inv_do H. destruct a as [r s1]. injection H as <-.
    refine (P_optimize no e g status_ok (fun _ => True) _ _ _ _ _ _ _ rfuel fuel s r s1 C H0); auto; clear; intros; unfold status_ok.
    + apply ask_spec in H0 as ((K & _) & _). rewrite (keep_status _ _ K). auto.
    + apply eval_spec in H1 as (_ & _ & K & _). cbn. rewrite (tell_status _ _ H2), (keep_status _ _ K). auto.
    + eapply stop_status; eauto.
    + apply eval_initial_spec in H0 as [(_ & ->)|(_ & y & _ & ->)]; auto.
    + apply edm_spec in H0 as ((K & _) & _). rewrite (keep_status _ _ K). auto.
    + apply reinit_spec in H1 as (so & E & ->). apply sol_new_spec in E as (_ & ->). left; auto.
Qed.
Theorem status_active h x0 n s0 s : st_new no g x0 n = Ok s0 -> run_ops no e g h s0 = Ok s ->
  s_status (t_sol s) = 0 \/ active g (s_status (t_sol s)).
Proof.
  intros H0. apply st_new_spec in H0 as (_ & so & H0 & ->). apply sol_new_spec in H0 as (_ & ->).
  set (s0 := mkSt _ _ _ _ _ _ _). assert (C : status_ok s0) by (left; auto).
  revert C. generalize s0. clear s0. induction h as [|o h IH]; cbn; intros s0 C H; [injection H as <-; auto|].
  inv_do H. eapply IH; [|exact H]. eapply op_status; eauto.
Qed.

(** * The loop *)
Section Loop.
Variable body : st -> res st.
(** Budget on iterations: any loop body that advances both counters by one. *)
Lemma loop_iters m : active g 9 -> g_max_iter g = m -> m <> -1 -> flags_wf g ->
  (forall s s', body s = Ok s' -> s_niter (t_sol s') = s_niter (t_sol s) + 1 /\ t_niter s' = t_niter s + 1) ->
  forall fuel s s', loop no e g body fuel s = Ok s' -> s_niter (t_sol s) = t_niter s -> 0 <= t_niter s ->
  t_niter s' = s_niter (t_sol s') /\ t_niter s <= t_niter s' <= Z.max (t_niter s) (Z.max 1 m).
Proof.
  intros Ha Hm Hm1 Hf Hb. induction fuel as [|fuel IH]; cbn; intros s s' H He H0; [discriminate|].
  inv_do H. destruct a as [b s1]. cbn [fst snd] in H.
  assert (N1 : s_niter (t_sol s1) = s_niter (t_sol s) /\ t_niter s1 = t_niter s).
  { apply stop_spec in H1 as [(_ & -> & _)|(_ & _ & [(_ & _ & ->)|(_ & r & _ & _ & ->)])]; auto. }
  destruct b; [injection H as <-; lia|].
  inv_do H. destruct (Hb _ _ H2) as [B1 B2].
  apply IH in H; [|lia|lia].
  split; [tauto|]. split; [lia|].
  assert (t_niter s < Z.max 1 m); [|lia].
  apply stop_spec in H1 as [(E & _)|(_ & _ & [(E & _)|(E & r & Hs & Hr & ->)])]; [discriminate|lia|].
  symmetry in Hr. apply negb_false_iff, Z.eqb_eq in Hr. subst r.
  apply scan_none with (c := 9) in Hs; auto; [|rewrite Hf; apply codes_nonzero].
  cbn in Hs. injection Hs as Hs. unfold max_iter_crit in Hs. rewrite Hm in Hs.
  apply andb_false_iff in Hs as [Hs|Hs]; [apply negb_false_iff, Z.eqb_eq in Hs; lia|apply Z.leb_gt in Hs; lia].
Qed.
Lemma loop_diverges_iters m : active g 9 -> g_max_iter g = m -> m <> -1 -> flags_wf g ->
  (forall s s', body s = Ok s' -> s_niter (t_sol s') = s_niter (t_sol s) + 1 /\ t_niter s' = t_niter s + 1) ->
  (forall s, body s <> Fault Diverges) -> (forall s, stop no e g s <> Fault Diverges) ->
  forall fuel s, s_niter (t_sol s) = t_niter s -> 0 <= t_niter s ->
  Z.max 1 m - t_niter s < Z.of_nat fuel -> (1 <= fuel)%nat -> loop no e g body fuel s <> Fault Diverges.
Proof.
  intros Ha Hm Hm1 Hf Hb Hd Hd2. induction fuel as [|fuel IH]; cbn [loop]; intros s He H0 Hfu H1; [lia|].
  destruct (stop no e g s) as [[b s1]|f] eqn:Es; cbn; [|intros Q; injection Q as ->; apply (Hd2 s Es)].
  destruct b; [discriminate|].
  destruct (body s1) as [s2|f] eqn:Eb; cbn; [|intros Q; injection Q as ->; apply (Hd s1 Eb)].
  destruct (Hb _ _ Eb) as [B1 B2].
  assert (N1 : s_niter (t_sol s1) = s_niter (t_sol s) /\ t_niter s1 = t_niter s).
  { apply stop_spec in Es as [(_ & -> & _)|(_ & _ & [(_ & _ & ->)|(_ & r & _ & _ & ->)])]; auto. }
  assert (t_niter s < Z.max 1 m).
  { apply stop_spec in Es as [(E & _)|(_ & _ & [(E & _)|(E & r & Hs & Hr & ->)])]; [discriminate|lia|].
    symmetry in Hr. apply negb_false_iff, Z.eqb_eq in Hr. subst r.
    apply scan_none with (c := 9) in Hs; auto; [|rewrite Hf; apply codes_nonzero].
    cbn in Hs. injection Hs as Hs. unfold max_iter_crit in Hs. rewrite Hm in Hs.
    apply andb_false_iff in Hs as [Hs|Hs]; [apply negb_false_iff, Z.eqb_eq in Hs; lia|apply Z.leb_gt in Hs; lia]. }
  apply IH; lia.
Qed.
End Loop.
End Stop.
