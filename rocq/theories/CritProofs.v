(** Proofs about the numeric stopping criteria. *)
From Coq Require Import Reals List Lia Lra Arith ZArith.
From Verif Require Import Base Dbl Vec VecProofs Params SpecParams Config Search SpecSearch SearchInv StopProofs NumInv PhaseInv Update SpecUpdate UpdateProofs ActiveProofs SpecCrit.
Import ListNotations.
Local Open Scope R_scope.

Lemma vmin_le m (u : vec) i : (i < m)%nat -> vmin m u <= u i.
Proof.
  induction m as [|m IH]; intros H; [lia|]. destruct m as [|m].
  - cbn. replace i with 0%nat by lia. lra.
  - change (vmin (S (S m)) u) with (Rmin (vmin (S m) u) (u (S m))). destruct (Nat.eq_dec i (S m)) as [->|]; [apply Rmin_r|].
    apply Rle_trans with (vmin (S m) u); [apply Rmin_l|apply IH; lia].
Qed.
Lemma vmin_in m (u : vec) : (1 <= m)%nat -> exists i, (i < m)%nat /\ vmin m u = u i.
Proof.
  induction m as [|m IH]; intros H; [lia|]. destruct m as [|m]; [exists 0%nat; auto|].
  change (vmin (S (S m)) u) with (Rmin (vmin (S m) u) (u (S m))). destruct IH as (i & Hi & E); [lia|].
  unfold Rmin. destruct (Rle_dec _ _); [exists i|exists (S m)]; split; auto; lia.
Qed.
Lemma vmax_in m (u : vec) : (1 <= m)%nat -> exists i, (i < m)%nat /\ vmax m u = u i.
Proof.
  induction m as [|m IH]; intros H; [lia|]. destruct m as [|m]; [exists 0%nat; auto|].
  change (vmax (S (S m)) u) with (Rmax (vmax (S m) u) (u (S m))). destruct IH as (i & Hi & E); [lia|].
  unfold Rmax. destruct (Rle_dec _ _); [exists (S m)|exists i]; split; auto; lia.
Qed.
Section Diag.
Variables (n : nat) (a : mat) (dec : vec * mat).
Hypothesis HD : diagonalises n a dec.
Let ev := fst dec.
Let v := snd dec.
Lemma diag_min x : vmin n ev * dot n x x <= quad n a x.
Proof using HD.
  rewrite (diag_quad n a dec HD), (parseval n a dec HD). unfold dot. rewrite <- rsum_scal. apply rsum_le. intros l Hl.
  apply Rmult_le_compat_r; [apply (Rle_0_sqr (tr n (snd dec) x l))|apply vmin_le, Hl].
Qed.
Lemma eigvec l : (l < n)%nat -> exists x, dot n x x = 1 /\ quad n a x = ev l.
Proof using HD.
  intros Hl. pose (x := fun i => rsum n (fun m => v i m * (if Nat.eqb m l then 1 else 0))).
  assert (T : forall m, (m < n)%nat -> tr n v x m = if Nat.eqb m l then 1 else 0) by (intros; apply (tr_synth n a dec HD (fun m => if Nat.eqb m l then 1 else 0)); auto).
  exists x. split.
  - rewrite (parseval n a dec HD). fold v. unfold dot. rewrite (rsum_single n _ l Hl); [rewrite (T l Hl), Nat.eqb_refl; ring|]. intros j Hj D. rewrite (T j Hj). apply Nat.eqb_neq in D. rewrite D. ring.
  - rewrite (diag_quad n a dec HD). fold v ev. rewrite (rsum_single n _ l Hl); [rewrite (T l Hl), Nat.eqb_refl; ring|]. intros j Hj D. rewrite (T j Hj). apply Nat.eqb_neq in D. rewrite D. ring.
Qed.
Lemma cond_ratio c : (1 <= n)%nat -> 0 < c -> cond_above n a c <-> c * vmin n ev < vmax n ev.
Proof using HD.
  intros Hn Hc. split.
  - intros (u & w & Hu & Hw & H). pose proof (diag_max n a dec HD u) as A. pose proof (diag_min w) as B. fold ev in A. rewrite Hu, Rmult_1_r in A. rewrite Hw, Rmult_1_r in B.
    assert (c * vmin n ev <= c * quad n a w) by (apply Rmult_le_compat_l; lra). lra.
  - intros H. destruct (vmax_in n ev Hn) as (i & Hi & Ei). destruct (vmin_in n ev Hn) as (j & Hj & Ej).
    destruct (eigvec i Hi) as (u & Hu & Qu). destruct (eigvec j Hj) as (w & Hw & Qw). exists u, w. rewrite Qu, Qw, <- Ei, <- Ej. auto.
Qed.
End Diag.

Section Cond.
Variables (p : npar) (e : env R num) (g : cfg R).
Let k := p_k p.
Let d := k_dim k.
Notation D0 s := (p_eig p (mtab d (cov_of s))).

(** The decomposition of the covariance held at ask is the one tested after the update. *)
Lemma ask_dec s pop s1 : k_sep k = false -> k_vd k = false -> p_lazy p = false -> ask (cma_num p) e g s = Ok (pop, s1) ->
  x_dec (s_num (t_sol s1)) = D0 s.
Proof.
  intros H1 H2 H3 H.
  apply (ask_phase (cma_num p) e g (fun n => x_cov n = cov_of s) (fun n => x_dec n = D0 s)) with (4 := eq_refl) (5 := H); cbn [cma_num n_eigen n_sample n_tpa_points].
  - intros i n E. unfold eigen_num. fold k. rewrite H1, H2, H3. cbn. rewrite orb_true_r. cbn. rewrite E. reflexivity.
  - intros m n E. exact E.
  - intros n E. exact E.
Qed.
Lemma eval_dec D cols phen s s' : x_dec (s_num (t_sol s)) = D -> eval (cma_num p) e g cols phen s = Ok s' -> x_dec (s_num (t_sol s')) = D.
Proof. apply (eval_num (cma_num p) e g (fun n => x_dec n = D)); intros; exact H. Qed.
Lemma tell_ev D s s' : k_sep k = false -> k_vd k = false -> x_dec (s_num (t_sol s)) = D -> tell (cma_num p) e g s = Ok s' ->
  x_maxev (s_num (t_sol s')) = vmax d (fst D) /\ x_minev (s_num (t_sol s')) = vmin d (fst D).
Proof.
  intros H1 H2 E H.
  apply (tell_phase (cma_num p) e g (fun n => x_maxev n = vmax d (fst D) /\ x_minev n = vmin d (fst D)) (fun n => x_dec n = D)) with (4 := E) (5 := H).
  - intros z n Q. exact Q.
  - intros i xs n Q. cbn [cma_num n_update update_num x_maxev x_minev]. fold k d. rewrite H1, H2. cbn [orb]. rewrite Q. auto.
  - intros n Q. exact Q.
Qed.
Lemma crit_cond so : criterion (cma_num p) g (-15) so = Ok (condition_cov (s_num so)).
Proof. reflexivity. Qed.
Lemma cond_iff n mn mx : x_minev n = mn -> x_maxev n = mx -> 0 <= mn -> (condition_cov n = true <-> 10 ^ 14 * mn < mx).
Proof.
  intros E1 E2 H. unfold condition_cov. rewrite E1, E2. destruct (Req_EM_T mn 0) as [Z|Z].
  { rewrite Z, Rmult_0_r. destruct (Rlt_dec 0 mx); split; intros B; auto; discriminate || contradiction. }
  assert (Q : 10 ^ 14 < mx / mn <-> 10 ^ 14 * mn < mx).
  { split; intros A.
    - apply Rmult_lt_compat_r with (r := mn) in A; [|lra]. unfold Rdiv in A. rewrite Rmult_assoc, Rinv_l, Rmult_1_r in A by lra. exact A.
    - apply Rmult_lt_reg_r with mn; [lra|]. unfold Rdiv. rewrite Rmult_assoc, Rinv_l, Rmult_1_r by lra. exact A. }
  destruct (Rlt_dec (10 ^ 14) (mx / mn)) as [A|A]; split; intros B; auto; try discriminate; [apply Q, A|exfalso; apply A, Q, B].
Qed.
Lemma pow_14 : 0 < 10 ^ 14. Proof. apply pow_lt. lra. Qed.
Lemma condition_thm s pop s1 cols phen s2 s3 : (1 <= d)%nat -> k_sep k = false -> k_vd k = false -> p_lazy p = false -> eigensolver_ok p ->
  symmetric d (cov_of s) -> psd d (cov_of s) ->
  ask (cma_num p) e g s = Ok (pop, s1) -> eval (cma_num p) e g cols phen s1 = Ok s2 -> tell (cma_num p) e g s2 = Ok s3 ->
  (criterion (cma_num p) g (-15) (t_sol s3) = Ok true <-> cond_above d (cov_of s) (10 ^ 14)).
Proof.
  intros Hd H1 H2 H3 HE HS HP A1 A2 A3.
  pose proof (ask_dec s pop s1 H1 H2 H3 A1) as E1. pose proof (eval_dec _ _ _ _ _ E1 A2) as E2. pose proof (tell_ev _ _ _ H1 H2 E2 A3) as [E3 E4].
  specialize (HE (cov_of s) HS). fold k d in HE. rewrite (cond_ratio d (cov_of s) (D0 s) HE _ Hd pow_14), crit_cond.
  assert (M : 0 <= vmin d (fst (D0 s))). { destruct (vmin_in d (fst (D0 s)) Hd) as (j & Hj & ->). destruct (eigvec d (cov_of s) (D0 s) HE j Hj) as (x & _ & <-). apply HP. }
  rewrite <- (cond_iff _ _ _ E4 E3 M). split; [intros Q; apply Ok_inj in Q; exact Q|intros ->; reflexivity].
Qed.
Lemma condition_sep_thm s s' : (1 <= d)%nat -> k_sep k = true -> tell (cma_num p) e g s = Ok s' ->
  (forall i, (i < d)%nat -> 0 <= variances_of s' i) ->
  (criterion (cma_num p) g (-15) (t_sol s') = Ok true <-> exists i j, (i < d)%nat /\ (j < d)%nat /\ 10 ^ 14 * variances_of s' j < variances_of s' i).
Proof.
  intros Hd H1 H HP.
  assert (Q : x_maxev (s_num (t_sol s')) = vmax d (variances_of s') /\ x_minev (s_num (t_sol s')) = vmin d (variances_of s')).
  { apply (tell_phase (cma_num p) e g (fun n => x_maxev n = vmax d (x_sep n) /\ x_minev n = vmin d (x_sep n)) (fun n => True)) with (4 := I) (5 := H); auto.
    intros i xs n _. cbn [cma_num n_update update_num x_maxev x_minev x_sep]. fold k d. rewrite H1. cbn [orb]. auto. }
  destruct Q as [E1 E2]. destruct (vmin_in d (variances_of s') Hd) as (j & Hj & Ej). destruct (vmax_in d (variances_of s') Hd) as (i & Hi & Ei).
  assert (M : 0 <= vmin d (variances_of s')) by (rewrite Ej; auto).
  rewrite crit_cond. transitivity (condition_cov (s_num (t_sol s')) = true); [split; [intros Q; apply Ok_inj in Q; exact Q|intros ->; reflexivity]|].
  rewrite (cond_iff _ _ _ E2 E1 M). split.
  - intros A. exists i, j. rewrite <- Ei, <- Ej. auto.
  - intros (i' & j' & Hi' & Hj' & A). pose proof (vmax_ge d (variances_of s') i' Hi') as B. pose proof (vmin_le d (variances_of s') j' Hj') as C. pose proof pow_14 as D.
    apply Rle_lt_trans with (10 ^ 14 * variances_of s' j'); [apply Rmult_le_compat_l; lra|lra].
Qed.

(** TOLUPSIGMA *)
Lemma upsigma_iff n mx r : x_maxev n = mx -> x_sigma n / init_sigma p = r ->
  (tol_up_sigma p n = true <-> 10 ^ 20 * sqrt mx < r).
Proof.
  intros E1 E2. unfold tol_up_sigma. rewrite E1, E2. destruct (Rlt_dec _ _); split; intros; auto; discriminate || contradiction.
Qed.
Lemma crit_up so : criterion (cma_num p) g (-13) so = Ok (tol_up_sigma p (s_num so)).
Proof. reflexivity. Qed.
Lemma upsigma_thm s pop s1 cols phen s2 s3 : (1 <= d)%nat -> k_sep k = false -> k_vd k = false -> p_lazy p = false -> eigensolver_ok p ->
  symmetric d (cov_of s) ->
  ask (cma_num p) e g s = Ok (pop, s1) -> eval (cma_num p) e g cols phen s1 = Ok s2 -> tell (cma_num p) e g s2 = Ok s3 ->
  (criterion (cma_num p) g (-13) (t_sol s3) = Ok true <->
   forall u, dot d u u = 1 -> 10 ^ 20 * sqrt (quad d (cov_of s) u) < sigma_of s3 / sigma_init p).
Proof.
  intros Hd H1 H2 H3 HE HS A1 A2 A3.
  pose proof (ask_dec s pop s1 H1 H2 H3 A1) as E1. pose proof (eval_dec _ _ _ _ _ E1 A2) as E2. pose proof (tell_ev _ _ _ H1 H2 E2 A3) as [E3 _].
  specialize (HE (cov_of s) HS). fold k d in HE. rewrite crit_up.
  transitivity (tol_up_sigma p (s_num (t_sol s3)) = true); [split; [intros Q; apply Ok_inj in Q; exact Q|intros ->; reflexivity]|].
  rewrite (upsigma_iff _ _ _ E3 eq_refl). change (x_sigma (s_num (t_sol s3)) / init_sigma p) with (sigma_of s3 / sigma_init p).
  assert (P : 0 <= 10 ^ 20) by (apply pow_le; lra). split.
  - intros A u Hu. apply Rle_lt_trans with (2 := A). apply Rmult_le_compat_l; [exact P|]. apply sqrt_le_1_alt.
    pose proof (diag_max d (cov_of s) (D0 s) HE u) as B. rewrite Hu, Rmult_1_r in B. exact B.
  - intros A. destruct (vmax_in d (fst (D0 s)) Hd) as (j & Hj & ->). destruct (eigvec d (cov_of s) (D0 s) HE j Hj) as (x & Hx & <-). apply A, Hx.
Qed.
Lemma upsigma_sep_thm s s' : (1 <= d)%nat -> k_sep k = true -> tell (cma_num p) e g s = Ok s' ->
  (criterion (cma_num p) g (-13) (t_sol s') = Ok true <->
   forall i, (i < d)%nat -> 10 ^ 20 * sqrt (variances_of s' i) < sigma_of s' / sigma_init p).
Proof.
  intros Hd H1 H.
  assert (Q : x_maxev (s_num (t_sol s')) = vmax d (variances_of s')).
  { apply (tell_phase (cma_num p) e g (fun n => x_maxev n = vmax d (x_sep n)) (fun n => True)) with (4 := I) (5 := H); auto.
    intros i xs n _. cbn [cma_num n_update update_num x_maxev x_minev x_sep]. fold k d. rewrite H1. cbn [orb]. auto. }
  rewrite crit_up.
  transitivity (tol_up_sigma p (s_num (t_sol s')) = true); [split; [intros E; apply Ok_inj in E; exact E|intros ->; reflexivity]|].
  rewrite (upsigma_iff _ _ _ Q eq_refl). change (x_sigma (s_num (t_sol s')) / init_sigma p) with (sigma_of s' / sigma_init p).
  assert (P : 0 <= 10 ^ 20) by (apply pow_le; lra). split.
  - intros A i Hi. apply Rle_lt_trans with (2 := A). apply Rmult_le_compat_l; [exact P|]. apply sqrt_le_1_alt. apply vmax_ge, Hi.
  - intros A. destruct (vmax_in d (variances_of s') Hd) as (j & Hj & ->). apply A, Hj.
Qed.

(** TOLX *)
Let tolx := Rmax (p_xtol p) (/ 1000000000000).
Lemma tolx_iff s : criterion (cma_num p) g 2 (t_sol s) = Ok true <->
  forall i, (i < d)%nat -> evo_path s i < tolx * (sigma_of s / sigma_init p) /\ spread_of p s i < tolx * (sigma_of s / sigma_init p).
Proof.
  transitivity (tol_x p (s_num (t_sol s)) = true); [split; [intros Q; apply Ok_inj in Q; exact Q|intros Q; cbn; rewrite Q; reflexivity]|].
  unfold tol_x. fold tolx. change (init_sigma p) with (sigma_init p). change (x_sigma (s_num (t_sol s))) with (sigma_of s). unfold all_below. fold k d.
  rewrite andb_true_iff, !forallb_forall.
  assert (V : forall i, sqrt (variance p (s_num (t_sol s)) i) = spread_of p s i) by reflexivity.
  split.
  - intros [A B] i Hi. assert (In i (seq 0 d)) as I by (apply in_seq; lia). specialize (A i I). specialize (B i I). rewrite V in B.
    destruct (Rle_dec _ (x_pc _ i)); [discriminate|]. destruct (Rle_dec _ (spread_of p s i)); [discriminate|]. unfold evo_path. lra.
  - intros A. split; intros i Hi; apply in_seq in Hi; destruct (A i) as [B C]; try lia.
    + destruct (Rle_dec _ _) as [Q|Q]; auto. unfold evo_path in B. exfalso. apply (Rlt_not_le _ _ B), Q.
    + rewrite V. destruct (Rle_dec _ _) as [Q|Q]; auto. exfalso. apply (Rlt_not_le _ _ C), Q.
Qed.
Lemma tolx_pos : 0 < tolx.
Proof. apply Rlt_le_trans with (/ 1000000000000); [lra|apply Rmax_r]. Qed.
Lemma spread_nonneg s i : 0 <= spread_of p s i. Proof. apply sqrt_pos. Qed.
(** When the step size has not grown, TOLX fires only if the spreads are small. *)
Lemma tolx_sound s : 0 < sigma_of s <= sigma_init p -> criterion (cma_num p) g 2 (t_sol s) = Ok true ->
  forall i, (i < d)%nat -> sigma_of s / sigma_init p * spread_of p s i < tolx.
Proof.
  intros [H0 H1] H i Hi. destruct (proj1 (tolx_iff s) H i Hi) as [_ H2]; clear H; rename H2 into H. pose proof tolx_pos. pose proof (spread_nonneg s i).
  assert (F : 0 < sigma_of s / sigma_init p <= 1).
  { split; [apply Rdiv_lt_0_compat; lra|]. apply Rmult_le_reg_r with (sigma_init p); [lra|]. unfold Rdiv. rewrite Rmult_assoc, Rinv_l by lra. lra. }
  set (f := sigma_of s / sigma_init p) in *. assert (f * spread_of p s i <= spread_of p s i) by nra. assert (tolx * f <= tolx) by nra. lra.
Qed.
(** When it has not shrunk, TOLX fires if the spreads are small. *)
Lemma tolx_complete s : 0 < sigma_init p <= sigma_of s -> spreads_below p s tolx -> criterion (cma_num p) g 2 (t_sol s) = Ok true.
Proof.
  intros [H0 H1] H. apply tolx_iff. intros i Hi. destruct (H i Hi) as [A B]. pose proof tolx_pos. pose proof (spread_nonneg s i). pose proof (Rabs_pos (evo_path s i)). pose proof (Rle_abs (evo_path s i)).
  assert (F : 1 <= sigma_of s / sigma_init p).
  { apply Rmult_le_reg_r with (sigma_init p); [lra|]. unfold Rdiv. rewrite Rmult_assoc, Rinv_l by lra. lra. }
  set (f := sigma_of s / sigma_init p) in *. split; nra.
Qed.
End Cond.

(** EQUALFUNVALS *)
Lemma equal_iff {T N} (no : numops T N) (g : cfg T) (so : sol T N) : length (s_hist so) = length (s_khist so) ->
  let h := Nat.min (g_dim g) (length (s_hist so)) in
  (criterion no g 5 so = Ok true <-> (s_maxhist so <= Z.of_nat h)%Z /\ (h < 3 * equal_iters h (s_hist so) (s_khist so))%nat).
Proof.
  intros L h. unfold criterion. cbn [Z.eqb Pos.eqb]. unfold equal_fun_vals_crit.
  replace (Z.min (Z.of_nat (g_dim g)) (Z.of_nat (length (s_hist so)))) with (Z.of_nat h) by (unfold h; lia).
  destruct (Z.ltb_spec (Z.of_nat h) (s_maxhist so)) as [A|A].
  - split; [discriminate|]. intros [B _]. lia.
  - rewrite Nat2Z.id, !recent_ok by (unfold h; lia). cbn [bind]. fold (equal_iters h (s_hist so) (s_khist so)).
    unfold lastn. fold (equal_iters h (s_hist so) (s_khist so)). split.
    + intros Q. apply Ok_inj in Q. apply Z.ltb_lt in Q. lia.
    + intros [_ Q]. f_equal. apply Z.ltb_lt. lia.
Qed.
