(** The point injected along the gradient: instances. *)
From Coq Require Import Reals List Lia Lra Psatz ZArith.
From Verif Require Import Base Dbl Vec VecProofs Params SpecParams Config Search SpecSearch SearchInv Update SpecUpdate DemoNum DemoNumProofs NumThms ActiveThms NumInv CritThms SpecRate SpecVd SpecEdm EdmProofs SpecGradPt GradPtProofs EdmThms.
Import ListNotations.
Local Open Scope R_scope.

(** The gradient of the user is the identity (that of the sphere, halved). *)
Definition user_env : env R num := mkEnv (fun _ _ => Fin 0) true (fun x => Ok x) (fun _ => 0%Z) (e_sort flat_env).
Definition grad_cfg (k : cpar) : cfg R := set_g_gradient true (cfg_of k).
Lemma id_slope p m i : p_pheno p = (fun x => x) -> (i < k_dim (p_k p))%nat -> transform_slope p m i = 1.
Proof.
  intros E Hi. unfold transform_slope. cbv zeta. rewrite E, !at0_tab by exact Hi.
  assert (0 < quotient_step m i). { unfold quotient_step. apply Rdiv_lt_0_compat; [|apply pow_lt; lra]. pose proof (Rabs_pos (m i)). lra. }
  field. lra.
Qed.
Lemma user_slope p s : p_pheno p = (fun x => x) -> p_ugrad p = (fun x => x) -> slope_at_mean p user_env s (mean_of s).
Proof.
  intros E1 E2. exists (mean_of s). split.
  - unfold objective_slope. cbn [user_env e_gfunc]. intros i Hi. rewrite E1, E2, at0_tab by exact Hi. reflexivity.
  - intros i Hi. rewrite (id_slope p _ i E1 Hi). ring.
Qed.
Lemma start_mean p g x0 s : p_scale p = (fun x => x) -> k_fixed (p_k p) = [] -> st_new (cma_num p) g x0 num0 = Ok s ->
  (forall i, (i < k_dim (p_k p))%nat -> mean_of s i = at0 x0 i) /\ cov_of s = ident /\ variances_of s = (fun _ => 1) /\ sigma_of s = init_sigma p.
Proof.
  intros E1 E2 H. apply st_new_num in H. unfold mean_of, cov_of, variances_of, sigma_of. rewrite H. cbn [cma_num n_new new_num x_mean x_cov x_sep x_sigma].
  split; [|auto]. intros i Hi. unfold init_mean. rewrite E1, E2. cbn [put_fixed]. now rewrite at0_tab.
Qed.
Lemma user_ask p k s : g_tpa (grad_cfg k) <> 2%Z -> (1 <= k_lambda k)%nat -> k_fixed k = [] ->
  exists pop s', ask (cma_num p) user_env (grad_cfg k) s = Ok (pop, s').
Proof.
  intros HT HL HF. unfold ask. destruct (n_sample _ _ _) as [pop0 n2] eqn:Es.
  assert (L : exists a l, pop0 = a :: l).
  { cbn [cma_num n_sample] in Es. unfold sample_num in Es. injection Es as <- _. cbn [grad_cfg set_g_gradient cfg_of g_lambda]. destruct (k_lambda k); [lia|]. eexists. eexists. reflexivity. }
  destruct L as (a & l & ->). rewrite (proj2 (Z.eqb_neq _ _) HT). cbn [grad_cfg set_g_gradient g_gradient g_fixed cfg_of]. rewrite HF.
  cbn [user_env e_pheno bind]. unfold gradf at 1. cbn [e_gfunc user_env].
  destruct (n_gradcol _ _ _); cbn [set_col upd_at bind andb]; [|cbn; eauto].
  unfold set_col, upd_at. cbn [length]. rewrite (proj2 (Z.leb_gt _ _)) by lia. cbn. eauto.
Qed.
(** A full covariance. *)
Lemma full_example : let p := npar_eig k24 Full eig2 in exists s pop s',
  st_new (cma_num p) (grad_cfg k24) [1; 0] num0 = Ok s /\ symmetric 2 (cov_of s) /\ pos_def 2 (cov_of s) /\ 0 < sigma_of s /\
  slope_at_mean p user_env s (mean_of s) /\ mean_of s 0%nat <> 0 /\ ask (cma_num p) user_env (grad_cfg k24) s = Ok (pop, s').
Proof.
  cbv zeta. set (p := npar_eig k24 Full eig2).
  assert (E0 : exists s, st_new (cma_num p) (grad_cfg k24) [1; 0] num0 = Ok s) by (eexists; reflexivity). destruct E0 as [s E0].
  destruct (start_mean p _ _ _ eq_refl eq_refl E0) as (M & C & _ & SG).
  pose proof (user_ask p k24 s ltac:(cbn; lia) ltac:(cbn; lia) eq_refl) as A.
  destruct A as (pop & s' & A). exists s, pop, s'. rewrite C, SG. split; [exact E0|]. split; [apply ident_sym|]. split; [apply ident_pd|].
  split. { unfold init_sigma. cbn [p npar_eig p_sigma0]. destruct (Rlt_dec 0 1); lra. }
  split; [apply user_slope; reflexivity|]. split; [|exact A]. rewrite M by (cbn; lia). cbn. lra.
Qed.
(** VD-CMA: the point is placed with the diagonal scales in place of the covariance. *)
Lemma vd_away (a b sg : R) x : 0 < sg -> a <> 0 -> (forall i, (i < 2)%nat -> x i = at0 [1; 0] i - sg * sqrt 2 * at0 [1; 0] i) ->
  ~ steepest_point 2 (vd_matrix (fun _ => 1) (at0 [a; b])) sg (at0 [1; 0]) (at0 [1; 0]) x.
Proof.
  intros Hs Ha HX ((z & RZ & QZ) & _). pose proof (RZ 0%nat ltac:(lia)) as R0. pose proof (RZ 1%nat ltac:(lia)) as R1. cbn beta in R0, R1.
  rewrite HX in R0, R1 by lia. unfold mv, vd_matrix, delta, at0 in R0, R1. cbn [rsum nth Nat.eqb] in R0, R1.
  unfold quad, dot, mv, vd_matrix, delta, at0 in QZ. cbn [rsum nth Nat.eqb] in QZ. change (INR 2) with 2 in QZ.
  pose proof (sqrt_sqrt 2 ltac:(lra)) as S2. set (q := sqrt 2) in *. set (z0 := z 0%nat) in *. set (z1 := z 1%nat) in *.
  assert (exists w, w = a * z0 + b * z1) as (w & DW) by eauto.
  assert (E0 : z0 = - (sg * q) - a * w) by (rewrite DW; lra). assert (E1 : z1 = - (b * w)) by (rewrite DW; lra).
  assert (Q2 : z0 * z0 + z1 * z1 + w * w = sg * sg * 2) by (rewrite DW; lra).
  assert (EW : w * (1 + a * a + b * b) = - (a * sg * q)). { rewrite E0, E1 in DW. lra. }
  assert (w = 0 \/ w <> 0) as [W|W] by (destruct (Req_dec w 0); auto).
  - rewrite W, Rmult_0_l in EW. assert (0 < q) by (unfold q; apply sqrt_lt_R0; lra). assert (a * (sg * q) = 0) by lra. apply Rmult_integral in H0 as [|]; [contradiction|]. assert (0 < sg * q) by (apply Rmult_lt_0_compat; auto). lra.
  - assert (A1 : z0 * z0 + z1 * z1 + w * w = sg * sg * (q * q) + 2 * (a * sg * q) * w + w * (w * (1 + a * a + b * b))) by (rewrite E0, E1; ring).
    rewrite EW, S2 in A1. assert (A2 : a * sg * q * w = 0) by lra. assert (A3 : w * w * (1 + a * a + b * b) = 0) by (transitivity (w * (w * (1 + a * a + b * b))); [ring|]; rewrite EW; lra).
    assert (0 < w * w) by (apply Rsqr_pos_lt; auto). assert (0 < 1 + a * a + b * b) by (pose proof (Rle_0_sqr a); pose proof (Rle_0_sqr b); unfold Rsqr in *; lra).
    assert (0 < w * w * (1 + a * a + b * b)) by (apply Rmult_lt_0_compat; auto). lra.
Qed.
Definition kvd2 : cpar := set_vd (set_algo 12 k24).
Lemma vd_wrong : let p := npar_of kvd2 Vd in exists s pop s' x,
  constructed_any (p_k p) /\ st_new (cma_num p) (grad_cfg kvd2) [1; 0] num0 = Ok s /\ 0 < sigma_of s /\
  slope_at_mean p user_env s (at0 [1; 0]) /\ ask (cma_num p) user_env (grad_cfg kvd2) s = Ok (pop, s') /\ nth_error pop 0 = Some x /\
  ~ steepest_point 2 (vd_matrix (variances_of s) (x_v (s_num (t_sol s)))) (sigma_of s) (mean_of s) (at0 [1; 0]) (at0 x).
Proof.
  cbv zeta. set (p := npar_of kvd2 Vd). set (g := grad_cfg kvd2).
  assert (E0 : exists s, st_new (cma_num p) g [1; 0] num0 = Ok s) by (eexists; reflexivity). destruct E0 as [s E0].
  destruct (start_mean p _ _ _ eq_refl eq_refl E0) as (M & _ & V & SG). change (k_dim (p_k p)) with 2%nat in M.
  assert (SP : 0 < sigma_of s) by (rewrite SG; unfold init_sigma; cbn [p npar_of p_sigma0]; destruct (Rlt_dec 0 1); lra).
  assert (XV : x_v (s_num (t_sol s)) = fun i => demo_normal i / sqrt (INR 2)) by (apply st_new_num in E0; rewrite E0; reflexivity).
  destruct (user_ask p kvd2 s) as (pop & s' & A); [cbn; lia|cbn; lia|reflexivity|]. fold g in A.
  destruct (ask_first p user_env g (fun x => eq_refl) s pop s' eq_refl eq_refl A) as (s0 & vals & s1 & n & G & (B1 & _ & B3 & B4) & _ & F & _).
  assert (HSl : slope_at_mean p user_env s (mean_of s)) by (apply user_slope; reflexivity).
  pose proof (slope_grad p user_env g eq_refl (fun x => eq_refl) s s0 _ vals s1 n HSl G B1) as GM. change (k_dim (p_k p)) with 2%nat in GM.
  assert (N0 : mean_of s 0%nat <> 0) by (rewrite M by lia; unfold at0; cbn [nth]; lra).
  pose proof (grad_col_some p g eq_refl vals n _ 0%nat GM ltac:(change (k_dim (p_k p)) with 2%nat; lia) N0) as C. change (k_sep (p_k p) || k_vd (p_k p))%bool with true in C. cbv iota zeta in C. change (k_dim (p_k p)) with 2%nat in C.
  exists s, pop, s'. eexists. split; [|split; [exact E0|split; [exact SP|split; [|split; [exact A|split; [exact (F _ C)|]]]]]].
  - right. exists k24, 12%Z. split; [apply k24_constructed|reflexivity].
  - destruct HSl as (go & HO & HM). exists go. split; [exact HO|]. intros i Hi. rewrite <- HM by exact Hi. symmetry. apply M. exact Hi.
  - intros ST. set (x := tab 2 _) in ST.
    apply (vd_away (1 / sqrt 2) (2 / sqrt 2) (sigma_of s) (at0 x) SP).
    + assert (0 < sqrt 2) by (apply sqrt_lt_R0; lra). assert (0 < 1 / sqrt 2) by (apply Rdiv_lt_0_compat; lra). lra.
    + intros i Hi. unfold x. rewrite at0_tab, B1, B3, B4, V, GM by exact Hi. rewrite (M i Hi). change (INR 2) with 2.
      assert (Q : norm 2 (fun i => sqrt 1 * grad_mean p vals n i) = 1).
      { rewrite sqrt_1. rewrite (norm_ext 2 _ (at0 [1; 0])); [|intros j Hj; rewrite GM, M by exact Hj; ring]. unfold norm, dot, at0. cbn [rsum nth]. replace (0 + 1 * 1 + 0 * 0) with 1 by ring. apply sqrt_1. }
      rewrite Q. field.
    + rewrite V, XV in ST. destruct ST as ((z & RZ & QZ) & ST).
      assert (EV : forall i j, (i < 2)%nat -> (j < 2)%nat -> vd_matrix (fun _ => 1) (fun i => demo_normal i / sqrt (INR 2)) i j = vd_matrix (fun _ => 1) (at0 [1 / sqrt 2; 2 / sqrt 2]) i j).
      { assert (D : forall i, (i < 2)%nat -> demo_normal i / sqrt (INR 2) = at0 [1 / sqrt 2; 2 / sqrt 2] i) by (intros [|[|i]] Hi; [reflexivity|reflexivity|lia]).
        intros i j Hi Hj. unfold vd_matrix. rewrite !D by auto. reflexivity. }
      assert (EQ : forall u, quad 2 (vd_matrix (fun _ => 1) (fun i => demo_normal i / sqrt (INR 2))) u = quad 2 (vd_matrix (fun _ => 1) (at0 [1 / sqrt 2; 2 / sqrt 2])) u) by (intros u; apply quad_ext, EV).
      assert (EM : forall u i, (i < 2)%nat -> mv 2 (vd_matrix (fun _ => 1) (fun i => demo_normal i / sqrt (INR 2))) u i = mv 2 (vd_matrix (fun _ => 1) (at0 [1 / sqrt 2; 2 / sqrt 2])) u i) by (intros u i Hi; apply mv_ext; auto).
      assert (ED : forall i, (i < 2)%nat -> at0 x i - mean_of s i = at0 x i - at0 [1; 0] i) by (intros i Hi; rewrite M by exact Hi; reflexivity).
      destruct ST as [S1 S2]. split; [|split].
      * exists z. split; [|rewrite <- EQ; exact QZ]. intros i Hi. rewrite <- ED, <- EM by exact Hi. apply RZ, Hi.
      * rewrite (dot_ext 2 _ (at0 [1; 0]) _ (fun i => at0 x i - mean_of s i)); auto. intros i Hi. rewrite ED by exact Hi. reflexivity.
      * intros w (zw & RW & QW). rewrite (dot_ext 2 _ (at0 [1; 0]) _ (fun i => at0 x i - mean_of s i)); [|auto|intros i Hi; rewrite ED by exact Hi; reflexivity].
        apply S2. exists zw. split; [|rewrite EQ; exact QW]. intros i Hi. rewrite EM by exact Hi. apply RW, Hi.
Qed.
