(** The point injected along the gradient. *)
From Coq Require Import Reals List Lia Lra Psatz ZArith.
From Verif Require Import Base Dbl Vec VecProofs Params Config Search SpecSearch SearchInv NumInv StopProofs Update SpecUpdate UpdateProofs ActiveProofs AlgoProofs SpecCrit CritProofs SpecEdm EdmProofs SpecGradPt.
Import ListNotations.
Local Open Scope R_scope.

Lemma mv_scal n a c x i : mv n a (fun j => c * x j) i = c * mv n a x i.
Proof. unfold mv. rewrite <- rsum_scal. apply rsum_ext. intros; ring. Qed.
Lemma mv_add n a x y i : mv n a (fun j => x j + y j) i = mv n a x i + mv n a y i.
Proof. unfold mv. rewrite <- rsum_plus. apply rsum_ext. intros; ring. Qed.
Lemma quad_scal_x n a c x : quad n a (fun j => c * x j) = c * c * quad n a x.
Proof.
  unfold quad. rewrite (dot_ext n (fun j => c * x j) (fun j => c * x j) _ (fun i => c * mv n a x i)); auto; [|intros; apply mv_scal].
  rewrite dot_scal_r, dot_comm, dot_scal_r, dot_comm. ring.
Qed.
Lemma quad_add_x n a x y : symmetric n a -> quad n a (fun j => x j + y j) = quad n a x + 2 * dot n x (mv n a y) + quad n a y.
Proof.
  intros HS. unfold quad. rewrite (dot_ext n (fun j => x j + y j) (fun j => x j + y j) _ (fun i => mv n a x i + mv n a y i)); auto; [|intros; apply mv_add].
  rewrite dot_plus_r, (dot_comm n _ (mv n a x)), (dot_comm n _ (mv n a y)), !dot_plus_r.
  rewrite (dot_comm n (mv n a x) x), (dot_comm n (mv n a x) y), (dot_comm n (mv n a y) x), (dot_comm n (mv n a y) y).
  rewrite (dot_mv_sym n a y x HS), (dot_comm n (mv n a y) x). ring.
Qed.
Lemma rsum_one_le n f i : (i < n)%nat -> (forall j, (j < n)%nat -> 0 <= f j) -> f i <= rsum n f.
Proof.
  induction n as [|n IH]; intros Hi F; [lia|]. cbn [rsum]. destruct (Nat.eq_dec i n) as [->|D].
  - assert (0 <= rsum n f) by (apply rsum_nonneg; intros; apply F; lia). lra.
  - assert (f i <= rsum n f) by (apply IH; [lia|intros; apply F; lia]). specialize (F n ltac:(lia)). lra.
Qed.
(** Least value of a linear form over the ellipsoid. *)
Lemma steepest n c sigma m gr x t : symmetric n c -> psd n c -> (1 <= n)%nat -> 0 < sigma -> 0 < quad n c gr ->
  0 < t -> t * t * quad n c gr = sigma * sigma * INR n ->
  (forall i, (i < n)%nat -> x i = m i - t * mv n c gr i) -> steepest_point n c sigma m gr x.
Proof.
  intros HS HP Hn Hs Ha Ht E HX. unfold steepest_point.
  assert (R1 : reaches n c (fun i => x i - m i) (fun i => - t * gr i)) by (intros i Hi; rewrite mv_scal, (HX i Hi); ring).
  assert (DU : dot n gr (fun i => x i - m i) = - t * quad n c gr).
  { rewrite (dot_ext n gr gr _ (fun i => - t * mv n c gr i)); auto; [|intros i Hi; rewrite (HX i Hi); ring]. apply dot_scal_r. }
  split; [|split].
  - eexists. split; [exact R1|]. rewrite quad_scal_x, <- E. ring.
  - rewrite DU. assert (0 < t * quad n c gr) by (apply Rmult_lt_0_compat; auto). lra.
  - intros w (z & RZ & QZ). rewrite DU. rewrite (dot_ext n gr gr w (mv n c z)); auto.
    pose proof (HP (fun j => t * gr j + z j)) as P. rewrite (quad_add_x n c _ z HS), quad_scal_x in P.
    rewrite (dot_comm n (fun j => t * gr j)), dot_scal_r, (dot_comm n (mv n c z)) in P.
    assert (0 <= t * (t * quad n c gr + dot n gr (mv n c z))) by nra. nra.
Qed.

Lemma upd_at_first {A} (l l' : list A) i a : (0 < i)%Z -> upd_at l i a = Ok l' -> nth_error l' 0 = nth_error l 0.
Proof.
  intros Hi H. unfold upd_at in H. destruct (_ || _)%bool eqn:B; [discriminate|]. apply Ok_inj in H. subst l'.
  apply Bool.orb_false_elim in B as [_ B]. apply Z.leb_gt in B.
  destruct (Z.to_nat i) as [|m] eqn:E; [lia|]. destruct l; [cbn in B; lia|reflexivity].
Qed.

Section Pt.
Variables (p : npar) (e : env R num) (g : cfg R).
Let k := p_k p.
Let d := k_dim k.
Hypothesis HG : g_dim g = k_dim (p_k p).
Hypothesis HT : same_transform p e.

Lemma slope_grad s s0 gr vals s1 n : slope_at_mean p e s gr ->
  gradf (cma_num p) e g (p_pheno p (tab d (mean_of s))) s0 = (vals, s1) -> x_mean n = mean_of s ->
  forall i, (i < d)%nat -> grad_mean p vals n i = gr i.
Proof using HG HT.
  intros (go & HO & HM) G HX i Hi. rewrite (HM i Hi). unfold grad_mean. fold k d. rewrite HX. fold k d in HO.
  set (x := p_pheno p (tab d (mean_of s))) in *.
  f_equal; [|unfold transform_slope, grad_gp; fold k d; rewrite (step_eq); f_equal; f_equal; f_equal; f_equal; apply tab_ext; intros; rewrite step_eq; reflexivity].
  unfold objective_slope in HO. apply gradf_spec in G as [(GF & -> & _)|(GF & -> & _)]; rewrite GF in HO.
  - cbn [grad_vec]. symmetry. apply HO, Hi.
  - destruct HO as (f & fx & fi & F & (z & Z1 & Z2) & HI). destruct (HI i Hi) as ((zi & Y1 & Y2) & ->). fold k d in Y1.
    change (forward d (p_ub p) (at0 x) i) with (forward (k_dim (p_k p)) (p_ub p) (at0 x) i) in Y1. rewrite (forward_eq p) in Y1.
    unfold grad_vec. rewrite step_eq. f_equal.
    assert (L : length (x :: map (fun j => n_gradpt (cma_num p) j x) (seq 0 (g_dim g))) = S d) by (cbn [length]; rewrite map_length, seq_length, HG; reflexivity).
    rewrite !(eval_from_nth e _ f) by (rewrite ?L; auto; lia). cbn [nth].
    rewrite (nth_indep _ [] (n_gradpt (cma_num p) 0 x)) by (rewrite map_length, seq_length, HG; exact Hi).
    rewrite (map_nth (fun j => n_gradpt (cma_num p) j x)), seq_nth by (rewrite HG; exact Hi). cbn [Nat.add].
    change (n_gradpt (cma_num p) i x) with (grad_point p i x). rewrite Y1, Z1, Y2, Z2. reflexivity.
Qed.
(** ask with gradient, no fixed parameters: what the first point is. *)
Lemma ask_first s pop s' : g_gradient g = true -> g_fixed g = [] -> ask (cma_num p) e g s = Ok (pop, s') ->
  exists s0 vals s1 n2, gradf (cma_num p) e g (p_pheno p (tab d (mean_of s))) s0 = (vals, s1) /\
    (x_mean n2 = mean_of s /\ x_cov n2 = cov_of s /\ x_sep n2 = variances_of s /\ x_sigma n2 = sigma_of s) /\
    (k_sep k = false -> k_vd k = false -> p_lazy p = false -> x_dec n2 = p_eig p (mtab d (cov_of s))) /\
    (forall nx, grad_col p vals n2 = Some nx -> nth_error pop 0 = Some nx) /\
    (grad_col p vals n2 = None -> nth_error pop 0 = nth_error (fst (n_sample (cma_num p) (g_lambda g) (n_eigen (cma_num p) (t_niter s) (s_num (t_sol s))))) 0) /\
    (g_tpa g <> 2%Z -> match grad_col p vals n2 with
       | None => pop = fst (n_sample (cma_num p) (g_lambda g) (n_eigen (cma_num p) (t_niter s) (s_num (t_sol s))))
       | Some nx => set_col 0 nx (fst (n_sample (cma_num p) (g_lambda g) (n_eigen (cma_num p) (t_niter s) (s_num (t_sol s))))) = Ok pop end).
Proof using HT.
  intros G1 GX H. unfold ask in H. rewrite G1, GX in H. destruct (n_sample _ _ _) as [pop0 n2] eqn:Es. cbn [fst].
  assert (B : x_mean n2 = mean_of s /\ x_cov n2 = cov_of s /\ x_sep n2 = variances_of s /\ x_sigma n2 = sigma_of s).
  { cbn [n_sample cma_num] in Es. unfold sample_num in Es. injection Es as _ <-. cbn [with_pos x_mean x_cov x_sep x_sigma n_eigen cma_num].
    unfold eigen_num. destruct (_ || _)%bool; [repeat split; reflexivity|]. destruct (_ || _ || _)%bool; repeat split; reflexivity. }
  assert (BD : k_sep k = false -> k_vd k = false -> p_lazy p = false -> x_dec n2 = p_eig p (mtab d (cov_of s))).
  { intros H1 H2 H3. cbn [n_sample cma_num] in Es. unfold sample_num in Es. injection Es as _ <-. cbn [with_pos x_dec n_eigen cma_num].
    unfold eigen_num. fold k. rewrite H1, H2, H3. cbn [orb negb]. rewrite orb_true_r. reflexivity. }
  cbn [t_sol set_t_sol s_num set_s_num] in H. change (n_xmean (cma_num p) n2) with (tab d (x_mean n2)) in H.
  rewrite (proj1 B) in H. apply bind_ok in H as ([pop2 s2] & H1 & H). apply bind_ok in H1 as (x & EX & H1). rewrite HT in EX. apply Ok_inj in EX. subst x.
  set (s1 := set_t_sol _ s) in *. destruct (gradf _ _ _ _ s1) as [vals s2'] eqn:G.
  exists s1, vals, s2', n2. split; [exact G|]. split; [exact B|]. split; [exact BD|].
  assert (N : s_num (t_sol s2') = n2) by (apply gradf_num in G; rewrite G; reflexivity). rewrite N in H1.
  change (n_gradcol (cma_num p) vals n2) with (grad_col p vals n2) in H1.
  assert (F : nth_error pop 0 = nth_error pop2 0 /\ (g_tpa g <> 2%Z -> pop = pop2)).
  { apply bind_ok in H as ([pop3 s3] & H2 & H). cbn [fix_rows bind] in H. apply Ok_inj in H. injection H as <- _.
    destruct ((g_tpa g =? 2)%Z && _)%bool eqn:ET.
    - destruct (n_tpa_points _ _) as [[x1 x2] n3]. cbn [s_tpa1 s_tpa2 set_s_tpa1 set_s_tpa2 set_s_num] in H2.
      apply bind_ok in H2 as (pa & HA & H2). apply bind_ok in H2 as (pb & HB & H2). apply Ok_inj in H2. injection H2 as <- _.
      split; [|intros NT; apply andb_prop in ET as [ET _]; apply Z.eqb_eq in ET; contradiction].
      rewrite (upd_at_first _ _ 2%Z _ eq_refl HB). apply (upd_at_first _ _ 1%Z _ eq_refl HA).
    - apply Ok_inj in H2. injection H2 as <- _. auto. }
  destruct F as [F FT]. destruct (grad_col p vals n2) as [nx|].
  - apply bind_ok in H1 as (pop' & HC & H1). apply Ok_inj in H1. injection H1 as <- _.
    split; [|split; [discriminate|intros NT; rewrite (FT NT); exact HC]]. intros nx' Q. injection Q as <-. rewrite F. unfold set_col, upd_at in HC.
    destruct (_ || _)%bool; [discriminate|]. apply Ok_inj in HC. subst pop'. reflexivity.
  - apply Ok_inj in H1. injection H1 as <- _. split; [discriminate|]. split; [auto|exact FT].
Qed.
Lemma grad_col_zero vals n gr : (forall i, (i < d)%nat -> grad_mean p vals n i = gr i) -> (forall i, (i < d)%nat -> gr i = 0) -> grad_col p vals n = None.
Proof using HG.
  intros GM Z. unfold grad_col. fold k d. rewrite (proj2 (forallb_forall _ _)); [reflexivity|]. intros i Hi. apply in_seq in Hi.
  destruct (Req_EM_T _ 0) as [|N]; [reflexivity|]. exfalso. apply N. rewrite GM by lia. apply Z. lia.
Qed.
Lemma grad_col_some vals n gr i0 : (forall i, (i < d)%nat -> grad_mean p vals n i = gr i) -> (i0 < d)%nat -> gr i0 <> 0 ->
  grad_col p vals n = Some (tab d (
    if k_sep k || k_vd k then
      let q := norm d (fun i => sqrt (x_sep n i) * grad_mean p vals n i) in
      fun i => x_mean n i - x_sigma n * (sqrt (INR d) / q) * (x_sep n i * grad_mean p vals n i)
    else
      let q := mv d (op_sqrt p (x_dec n)) (grad_mean p vals n) in
      fun i => x_mean n i - x_sigma n * sqrt (INR d / dot d q q) * mv d (x_cov n) (grad_mean p vals n) i)).
Proof using HG.
  intros GM H0 N. unfold grad_col. fold k d. destruct (forallb _ _) eqn:E; [|reflexivity]. exfalso.
  rewrite forallb_forall in E. specialize (E i0). rewrite in_seq in E. specialize (E ltac:(lia)). destruct (Req_EM_T _ 0) as [Q|]; [|discriminate].
  apply N. rewrite <- GM by lia. exact Q.
Qed.
(** The root of the covariance squares to it. *)
Lemma root_quad a dec u : diagonalises d a dec -> (forall l, (l < d)%nat -> 0 <= fst dec l) ->
  dot d (mv d (op_sqrt p dec) u) (mv d (op_sqrt p dec) u) = quad d a u.
Proof using HG.
  intros HD HE. set (B := op_sqrt p dec).
  assert (BS : symmetric d B). { intros i j _ _. unfold B, op_sqrt. fold k d. apply rsum_ext. intros; ring. }
  rewrite <- (dot_mv_sym d B u _ BS). unfold quad. apply dot_ext; auto. intros i Hi. rewrite <- mv_mm. apply mv_ext; auto. intros j Hj.
  unfold mm. change (rsum d (fun l => sp d dec (fun q => sqrt (fst dec q)) i l * sp d dec (fun q => sqrt (fst dec q)) l j) = a i j).
  rewrite (sp_mul d a dec HD) by auto. destruct HD as (_ & _ & E). rewrite E by auto. unfold sp. apply rsum_ext. intros l Hl.
  rewrite sqrt_sqrt by auto. reflexivity.
Qed.
Lemma steepest_full s pop s' gr : k_sep k = false -> k_vd k = false -> p_lazy p = false -> eigensolver_ok p ->
  g_gradient g = true -> g_fixed g = [] ->
  symmetric d (cov_of s) -> pos_def d (cov_of s) -> 0 < sigma_of s -> slope_at_mean p e s gr -> (exists i, (i < d)%nat /\ gr i <> 0) ->
  ask (cma_num p) e g s = Ok (pop, s') ->
  exists x, nth_error pop 0 = Some x /\ length x = d /\ steepest_point d (cov_of s) (sigma_of s) (mean_of s) gr (at0 x).
Proof using HG HT.
  intros H1 H2 H3 HE G1 G2 HS HP Hs HSl HN H. destruct (ask_first s pop s' G1 G2 H) as (s0 & vals & s1 & n & G & (B1 & B2 & B3 & B4) & BD & F & _).
  pose proof (slope_grad s s0 gr vals s1 n HSl G B1) as GM. destruct HN as (i0 & Hi0 & N0).
  pose proof (grad_col_some vals n gr i0 GM Hi0 N0) as C. rewrite H1, H2 in C. cbn [orb] in C. cbv zeta in C.
  eexists. split; [apply F, C|]. split; [apply tab_length|]. specialize (BD H1 H2 H3). rewrite BD in *. specialize (HE (cov_of s) HS). fold k d in HE.
  assert (Q : dot d (mv d (op_sqrt p (p_eig p (mtab d (cov_of s)))) (grad_mean p vals n)) (mv d (op_sqrt p (p_eig p (mtab d (cov_of s)))) (grad_mean p vals n)) = quad d (cov_of s) gr).
  { rewrite (root_quad (cov_of s)); auto; [apply quad_ext_x, GM|]. intros l Hl. left. apply (diag_ev_pos d (cov_of s)); auto. }
  assert (Qp : 0 < quad d (cov_of s) gr) by (apply HP; eauto).
  assert (Hn : (1 <= d)%nat) by lia. assert (Dn : 0 < INR d) by (apply lt_0_INR; lia).
  assert (Rp : 0 < INR d / quad d (cov_of s) gr) by (apply Rdiv_lt_0_compat; auto).
  apply (steepest d (cov_of s) (sigma_of s) (mean_of s) gr _ (sigma_of s * sqrt (INR d / quad d (cov_of s) gr))); auto.
  - intros u. destruct (Classical_Prop.classic (exists i, (i < d)%nat /\ u i <> 0)) as [A|A]; [left; apply HP, A|].
    assert (Z : forall i, (i < d)%nat -> u i = 0 * u i) by (intros i Hi; destruct (Req_dec (u i) 0) as [->|]; [ring|exfalso; eauto]).
    rewrite (quad_ext_x d _ _ _ Z), quad_scal_x. lra.
  - apply Rmult_lt_0_compat; auto. apply sqrt_lt_R0, Rp.
  - set (r := INR d / quad d (cov_of s) gr) in *. pose proof (sqrt_sqrt r (Rlt_le _ _ Rp)) as SQ.
    transitivity (sigma_of s * sigma_of s * (sqrt r * sqrt r * quad d (cov_of s) gr)); [ring|]. rewrite SQ. unfold r. field. lra.
  - intros i Hi. rewrite at0_tab by exact Hi. rewrite B1, B2, B4, Q. f_equal. f_equal. apply mv_ext; auto.
Qed.
Lemma quad_diag v x : quad d (diag v) x = rsum d (fun i => v i * (x i * x i)).
Proof using HG.
  unfold quad, dot, mv. apply rsum_ext. intros i Hi. rewrite (rsum_single d _ i Hi); [unfold diag; rewrite Nat.eqb_refl; ring|].
  intros j Hj D. unfold diag. destruct (Nat.eqb_spec i j); [congruence|ring].
Qed.
Lemma steepest_sep s pop s' gr : k_sep k = true ->
  g_gradient g = true -> g_fixed g = [] ->
  (forall i, (i < d)%nat -> 0 < variances_of s i) -> 0 < sigma_of s -> slope_at_mean p e s gr -> (exists i, (i < d)%nat /\ gr i <> 0) ->
  ask (cma_num p) e g s = Ok (pop, s') ->
  exists x, nth_error pop 0 = Some x /\ length x = d /\ steepest_point d (diag (variances_of s)) (sigma_of s) (mean_of s) gr (at0 x).
Proof using HG HT.
  intros H1 G1 G2 HV Hs HSl HN H. destruct (ask_first s pop s' G1 G2 H) as (s0 & vals & s1 & n & G & (B1 & B2 & B3 & B4) & BD & F & _).
  pose proof (slope_grad s s0 gr vals s1 n HSl G B1) as GM. destruct HN as (i0 & Hi0 & N0).
  pose proof (grad_col_some vals n gr i0 GM Hi0 N0) as C. rewrite H1 in C. cbn [orb] in C. cbv zeta in C.
  eexists. split; [apply F, C|]. split; [apply tab_length|]. set (Qg := quad d (diag (variances_of s)) gr).
  assert (Q : norm d (fun i => sqrt (x_sep n i) * grad_mean p vals n i) = sqrt Qg).
  { unfold norm, Qg. f_equal. rewrite quad_diag. unfold dot. apply rsum_ext. intros i Hi. rewrite GM, B3 by auto.
    pose proof (sqrt_sqrt _ (Rlt_le _ _ (HV i Hi))) as SQ. transitivity (sqrt (variances_of s i) * sqrt (variances_of s i) * (gr i * gr i)); [ring|]. rewrite SQ. reflexivity. }
  assert (Qp : 0 < Qg).
  { unfold Qg. rewrite quad_diag. apply Rlt_le_trans with (variances_of s i0 * (gr i0 * gr i0)).
    - apply Rmult_lt_0_compat; auto. pose proof (Rsqr_pos_lt _ N0). exact H0.
    - apply (rsum_one_le d (fun i => variances_of s i * (gr i * gr i)) i0 Hi0). intros i Hi. apply Rmult_le_pos; [left; auto|apply (Rle_0_sqr (gr i))]. }
  assert (Dn : 0 < INR d) by (apply lt_0_INR; lia).
  assert (Sq : 0 < sqrt Qg) by (apply sqrt_lt_R0, Qp). assert (Sn : 0 < sqrt (INR d)) by (apply sqrt_lt_R0, Dn).
  apply (steepest d (diag (variances_of s)) (sigma_of s) (mean_of s) gr _ (sigma_of s * (sqrt (INR d) / sqrt Qg))); auto.
  - intros i j _ _. unfold diag. destruct (Nat.eqb_spec i j), (Nat.eqb_spec j i); congruence.
  - intros u. rewrite quad_diag. apply rsum_nonneg. intros i Hi. apply Rmult_le_pos; [left; auto|apply (Rle_0_sqr (u i))].
  - lia.
  - apply Rmult_lt_0_compat; auto. apply Rdiv_lt_0_compat; auto.
  - fold Qg. pose proof (sqrt_sqrt _ (Rlt_le _ _ Qp)) as S1. pose proof (sqrt_sqrt _ (Rlt_le _ _ Dn)) as S2.
    transitivity (sigma_of s * sigma_of s * (sqrt (INR d) * sqrt (INR d)) * (/ (sqrt Qg * sqrt Qg) * Qg)); [field; lra|]. rewrite S1, S2. field. lra.
  - intros i Hi. rewrite at0_tab by exact Hi. rewrite Q, B1, B3, B4, GM by auto. f_equal. f_equal.
    unfold mv. rewrite (rsum_single d _ i Hi); [unfold diag; rewrite Nat.eqb_refl; ring|]. intros j Hj D. unfold diag. destruct (Nat.eqb_spec i j); [congruence|ring].
Qed.
(** The other points, and the whole population when the gradient is zero, are
    those of an ask without gradient. *)
Lemma gradient_others s pop s' gr : g_gradient g = true -> g_fixed g = [] -> g_tpa g <> 2%Z -> slope_at_mean p e s gr ->
  ask (cma_num p) e g s = Ok (pop, s') ->
  exists pop0 s0, ask (cma_num p) e (set_g_gradient false g) s = Ok (pop0, s0) /\ length pop = length pop0 /\
    (forall i, (1 <= i)%nat -> nth_error pop i = nth_error pop0 i) /\ ((forall i, (i < d)%nat -> gr i = 0) -> pop = pop0).
Proof using HG HT.
  intros G1 G2 NT HSl H. destruct (ask_first s pop s' G1 G2 H) as (s0 & vals & s1 & n & G & (B1 & _) & _ & _ & _ & F). specialize (F NT).
  pose proof (slope_grad s s0 gr vals s1 n HSl G B1) as GM.
  assert (A : exists s2, ask (cma_num p) e (set_g_gradient false g) s = Ok (fst (n_sample (cma_num p) (g_lambda g) (n_eigen (cma_num p) (t_niter s) (s_num (t_sol s)))), s2)).
  { unfold ask. cbn [g_gradient set_g_gradient g_lambda g_tpa g_fixed]. rewrite G2. destruct (n_sample _ _ _) as [pop0 n2]. cbn [bind fst].
    rewrite (proj2 (Z.eqb_neq _ _) NT). cbn [andb bind fix_rows]. eexists. reflexivity. }
  destruct A as (s2 & A). eexists. exists s2. split; [exact A|]. set (pop0 := fst _) in *.
  destruct (grad_col p vals n) as [nx|] eqn:C.
  - unfold set_col, upd_at in F. destruct (_ || _)%bool eqn:E; [discriminate|]. apply Ok_inj in F. change (Z.to_nat 0) with 0%nat in F. cbn [firstn app] in F.
    apply Bool.orb_false_elim in E as [_ E]. apply Z.leb_gt in E. destruct pop0 as [|a pop0]; [cbn in E; lia|]. cbn [skipn] in F. subst pop.
    split; [reflexivity|]. split; [intros [|i] Hi; [lia|reflexivity]|]. intros Z. rewrite (grad_col_zero vals n gr GM Z) in C. discriminate.
  - subst pop. auto.
Qed.
End Pt.
