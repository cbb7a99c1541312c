(** Proofs about the constructor with a step size for each parameter. *)
From Coq Require Import Reals List Lra Lia.
From Verif Require Import Base Dbl Vec EoMatrix Pwq Scaling GenoPheno SpecBounds SpecGeno Params Config Search SpecSearch Update SpecUpdate Corr Start SpecStart SpecSample VecSigma SpecVecSigma
  SearchInv NumInv VecProofs EoMatrixProofs ScalingProofs GpParProofs ErrVpk StopProofs StartThms SampleThms ReportProofs ReportThms Demo DemoNum DemoNumProofs NumThms SafeProofs FixedProofs ActiveThms BoundsExtra.
Import ListNotations.
Local Open Scope R_scope.

Lemma vs_sigma_least sigma m : vs_sigma sigma = Ok m -> least sigma m.
Proof.
  destruct sigma as [|s l]; [discriminate|]. intros H. injection H as <-. cut (forall l s, least (s :: l) (fold_left (fun m v => if Rlt_dec v m then v else m) l s)); [auto|].
  clear. induction l as [|v l IH]; intros s; cbn [fold_left]; [split; [left; reflexivity|repeat constructor; lra]|].
  destruct (Rlt_dec v s) as [Q|Q].
  - destruct (IH v) as [A B]. split; [cbn in A |- *; tauto|]. inversion B; subst. repeat (constructor; try lra); auto.
  - destruct (IH s) as [A B]. split; [cbn in A |- *; tauto|]. inversion B; subst. repeat (constructor; try lra); auto.
Qed.
Lemma least_unique sigma m m' : least sigma m -> least sigma m' -> m = m'.
Proof. intros [A B] [A' B']. rewrite Forall_forall in B, B'. apply B in A'. apply B' in A. lra. Qed.
Lemma least_pos n sigma m : step_sizes n sigma -> least sigma m -> 0 < m.
Proof. intros [_ P] [A _]. rewrite Forall_forall in P. auto. Qed.
Lemma vs_sigma_total n sigma : step_sizes n sigma -> (1 <= n)%nat -> exists m, vs_sigma sigma = Ok m.
Proof. intros [L _] N. destruct sigma; [cbn in L; lia|]. cbn. eauto. Qed.
Lemma vs_scaling_ok x0 sigma : step_sizes (length x0) sigma -> vs_scaling x0 sigma = Ok (map (fun s => / s) sigma).
Proof.
  intros [L P]. unfold vs_scaling. revert sigma L P. induction x0 as [|a x0 IH]; intros [|s l] L P; try discriminate; [reflexivity|]. inversion P; subst.
  cbn [mapM2]. unfold rdiv at 1. destruct (Req_EM_T s 0); [lra|]. cbn [bind]. rewrite IH by (cbn in L; auto). cbn [bind map]. unfold Rdiv. rewrite Rmult_1_l. reflexivity.
Qed.
Lemma lin_user_ok sc x0 : length sc = length x0 -> lin_user sc (map (fun _ : R => 0) x0) = Ok (mkLin (map (fun s => (s, 0)) sc) false).
Proof.
  intros L. unfold lin_user. cut (mapM2 (fun s h : R => Ok (s, h)) sc (map (fun _ : R => 0) x0) = Ok (map (fun s => (s, 0)) sc)); [intros ->; reflexivity|].
  revert x0 L. induction sc as [|s sc IH]; intros [|a x0] L; try discriminate; [reflexivity|]. cbn. rewrite IH by (cbn in L; lia). reflexivity.
Qed.
Definition lin_of (sigma : list R) : linscale := mkLin (map (fun s => (s, 0)) (map (fun s => / s) sigma)) false.
Lemma nb_gp x0 sigma b : step_sizes (length x0) sigma -> vs_gp NbLin x0 sigma b = Ok (mkGP NoBound None (LinScaling (lin_of sigma))).
Proof.
  intros H. cbn [vs_gp]. rewrite (vs_scaling_ok _ _ H). cbn [bind]. unfold gp_scaling_nb. rewrite lin_user_ok by (rewrite map_length; apply H). reflexivity.
Qed.
Lemma total_nb x0 sigma b : step_sizes (length x0) sigma -> x0 <> [] -> exists gp m, vector_sigma NbLin x0 sigma b = Ok (gp, m) /\ least sigma m.
Proof.
  intros H N. unfold vector_sigma. rewrite (nb_gp _ _ b H). cbn [bind]. destruct (vs_sigma_total _ _ H) as [m E]; [destruct x0; [contradiction|cbn; lia]|].
  rewrite E. cbn [bind]. eexists _, _. split; [reflexivity|apply vs_sigma_least, E].
Qed.
Lemma internal_coords sigma x z : scale_to_internal (lin_of sigma) x = Ok z -> forall i s v, nth_error sigma i = Some s -> nth_error x i = Some v -> nth_error z i = Some (v * / s).
Proof.
  unfold scale_to_internal, lin_of. cbn [l_pairs]. revert x z. induction sigma as [|s0 sigma IH]; intros [|v0 x] z H; cbn in H; try discriminate.
  - intros [|i] s v A; discriminate.
  - apply bind_ok in H as (z' & H & E). injection E as <-. intros [|i] s v A B; cbn in A, B |- *; [injection A as ->; injection B as ->; f_equal; lra|eapply IH; eauto].
Qed.
Lemma user_coords sigma x : step_sizes (length x) sigma -> exists y, scale_to_f (lin_of sigma) x = Ok y /\ length y = length x /\
  forall i s v, nth_error sigma i = Some s -> nth_error x i = Some v -> nth_error y i = Some (v * s).
Proof.
  intros [L P]. unfold scale_to_f, lin_of. cbn [l_pairs]. revert x L. induction P as [|s0 sigma P0 P IH]; intros [|v0 x] L; try discriminate.
  - exists []. split; [reflexivity|]. split; [reflexivity|]. intros [|i] s v A; discriminate.
  - destruct (IH x) as (y & E & Ly & Hy); [cbn in L; lia|]. cbn. assert (/ s0 <> 0) by (apply Rinv_neq_0_compat; lra). unfold rdiv at 1. destruct (Req_EM_T (/ s0) 0); [contradiction|]. cbn [bind].
    rewrite E. cbn [bind]. eexists. split; [reflexivity|]. split; [cbn; lia|]. intros [|i] s v A B; cbn in A, B |- *; [injection A as ->; injection B as ->; f_equal; field; lra|eauto].
Qed.
Lemma init_cov p x0 n : k_vd (p_k p) = false -> full_cov p (new_num p x0 n) = ident.
Proof. intros V. unfold full_cov. rewrite V, orb_false_r. destruct (k_sep (p_k p)); reflexivity. Qed.
Lemma sampling p e g x0 sigma b gp m n s pop s' :
  constructed (p_k p) -> p_upd p = Full -> p_lazy p = false -> eigensolver_ok p -> same_problem p g -> g_fixed g = [] -> g_gradient g = false ->
  length x0 = k_dim (p_k p) -> step_sizes (length x0) sigma -> vector_sigma NbLin x0 sigma b = Ok (gp, m) -> made_with p gp m ->
  st_new (cma_num p) g x0 n = Ok s -> ask (cma_num p) e g s = Ok (pop, s') ->
  normal_points p gp s pop x0 (fun i => nth i sigma 0 * m).
Proof.
  intros C F L E G FX GR LX SS VS [M1 M2] H1 H2. pose proof (constructed_vd _ C) as V.
  assert (W : started p e g s) by (econstructor; eauto).
  destruct (sample_thm p e g [] s s pop s' C F L E G W eq_refl H2) as (a & A1 & (A2 & _ & A3)). rewrite (start_num _ _ _ _ _ H1), (init_cov _ _ _ V) in A1.
  unfold vector_sigma in VS. rewrite (nb_gp _ _ _ SS) in VS. cbn [bind] in VS. apply bind_ok in VS as (m' & VS & Q). injection Q as <- ->.
  pose proof (vs_sigma_least _ _ VS) as LM. pose proof (least_pos _ _ _ SS LM) as PM.
  exists a. split; [exact A1|]. intros c x Hx.
  assert (Hr : ~ replaced g s c).
  { intros [[Q _]|(_ & Q & _)]; [congruence|]. unfold st_new in H1. apply bind_ok in H1 as (so & _ & H1). apply Ok_inj in H1. subst s. cbn in Q. lia. }
  assert (LX' : length x = k_dim (p_k p)).
  { pose proof (pop_len p e g G GR _ _ _ H2) as PL. rewrite Forall_forall in PL. eapply PL, nth_error_In, Hx. }
  destruct (user_coords sigma x) as (y & Y1 & Y2 & Y3); [rewrite LX'; rewrite <- LX; exact SS|].
  exists y. split; [exact Y1|]. split; [lia|]. intros i v w Hv Hw.
  assert (Hi : (i < k_dim (p_k p))%nat) by (rewrite <- LX; apply nth_error_Some; congruence).
  assert (FI : ~ is_fixed g i) by (intros [q Hq]; rewrite FX in Hq; exact Hq).
  specialize (A3 c x i Hx Hr Hi FI).
  destruct (nth_error sigma i) as [si|] eqn:ES; [|apply nth_error_None in ES; destruct SS as [SS _]; lia].
  rewrite (Y3 _ _ _ ES A3) in Hv. injection Hv as <-. rewrite (nth_error_nth _ _ 0 ES).
  assert (P0 : 0 < si) by (destruct SS as [_ SS]; rewrite Forall_forall in SS; eapply SS, nth_error_In, ES).
  assert (MM : mean_of s i = w * / si).
  { unfold mean_of. rewrite (start_num _ _ _ _ _ H1). cbn [new_num x_mean]. unfold init_mean. destruct G as (_ & _ & G3). rewrite <- G3, FX. cbn [put_fixed].
    rewrite tab_at0 by exact LX.
    assert (exists z, scale_to_internal (lin_of sigma) x0 = Ok z) as [z Ez].
    { unfold scale_to_internal, lin_of. cbn [l_pairs]. destruct SS as [SS _]. clear -SS. revert sigma SS. induction x0 as [|v0 x0 IH]; intros [|s0 sigma] SS; try discriminate; [cbn; eauto|]. cbn.
      destruct (IH sigma) as [z ->]; [cbn in SS; lia|]. cbn. eauto. }
    rewrite (M2 x0 z Ez). apply nth_error_nth. eapply internal_coords; eauto. }
  assert (SG : sigma_of s = m).
  { unfold sigma_of. rewrite (start_num _ _ _ _ _ H1). cbn [new_num x_sigma]. unfold init_sigma. rewrite M1. destruct (Rlt_dec 0 m); [reflexivity|contradiction]. }
  rewrite MM, SG. field. lra.
Qed.
Lemma nb_start x0 sigma b gp m u : step_sizes (length x0) sigma -> vector_sigma NbLin x0 sigma b = Ok (gp, m) ->
  box (length x0) x0 x0 -> draws (length x0) u -> starts_at gp (length x0) x0 u.
Proof.
  intros SS VS B U. unfold vector_sigma in VS. rewrite (nb_gp _ _ _ SS) in VS. cbn [bind] in VS. apply bind_ok in VS as (m' & VS & Q). injection Q as <- ->.
  destruct B as (_ & _ & _ & B).
  assert (exists z, scale_to_internal (lin_of sigma) x0 = Ok z) as [z Ez].
  { unfold scale_to_internal, lin_of. cbn [l_pairs]. destruct SS as [SS _]. clear -SS. revert sigma SS. induction x0 as [|v0 x0 IH]; intros [|s0 sigma] SS; try discriminate; [cbn; eauto|]. cbn.
    destruct (IH sigma) as [z ->]; [cbn in SS; lia|]. cbn. eauto. }
  exists z. split.
  - unfold initial_mean, initial_point, set_x0_vector. destruct (list_eq_dec Req_EM_T x0 x0) as [_|Q]; [|contradiction]. destruct (list_eq_dec Req_EM_T x0 (repeat (- dbl_max_R) (length x0))); [contradiction|]. exact Ez.
  - assert (Lz : length z = length x0).
    { unfold scale_to_internal in Ez. apply mapM2_ok_length in Ez. lia. }
    destruct (user_coords sigma z) as (y & E1 & E2 & E3); [rewrite Lz; exact SS|]. change (scale_to_f (lin_of sigma) z = Ok x0). rewrite E1. f_equal.
    apply nth_ext with (d := 0) (d' := 0); [lia|]. intros i Hi.
    destruct (nth_error sigma i) as [si|] eqn:ES; [|apply nth_error_None in ES; destruct SS as [SS _]; lia].
    destruct (nth_error x0 i) as [v|] eqn:EX; [|apply nth_error_None in EX; lia].
    pose proof (internal_coords _ _ _ Ez _ _ _ ES EX) as Z1. rewrite (nth_error_nth _ _ 0 (E3 _ _ _ ES Z1)), (nth_error_nth _ _ 0 EX).
    assert (P0 : 0 < si) by (destruct SS as [_ SS]; rewrite Forall_forall in SS; eapply SS, nth_error_In, ES). field. lra.
Qed.
Lemma pwq_feasible x0 sigma lb ub gp m x : step_sizes (length x0) sigma -> ordered lb ub -> length lb = length x0 ->
  vector_sigma PwqLin x0 sigma (Some (lb, ub)) = Ok (gp, m) -> length x = length x0 ->
  (exists y, pheno gp x = Ok y /\ inside lb ub y) \/ pheno gp x = Fault IntCast.
Proof.
  intros SS O L VS LX. unfold vector_sigma in VS. apply bind_ok in VS as (gp' & H & VS). apply bind_ok in VS as (m' & _ & VS). injection VS as -> _.
  cbn [vs_gp] in H. rewrite (vs_scaling_ok _ _ SS) in H. cbn [bind] in H. destruct SS as [S1 S2]. eapply feasible_user_scaling; [| |exact O| |exact H|lia].
  - intros i s Hs. apply nth_error_In, in_map_iff in Hs as (t & <- & Ht). rewrite Forall_forall in S2. apply Rinv_0_lt_compat; auto.
  - rewrite !map_length. exact S1.
  - rewrite map_length. lia.
Qed.
Lemma pwq_no_bounds x0 sigma gp m v x : step_sizes (length x0) sigma -> vector_sigma PwqLin x0 sigma None = Ok (gp, m) -> pheno gp (v :: x) = Fault SizeMismatch.
Proof.
  intros SS VS. unfold vector_sigma in VS. apply bind_ok in VS as (gp' & H & VS). apply bind_ok in VS as (m' & _ & VS). injection VS as -> _.
  cbn [vs_gp] in H. rewrite (vs_scaling_ok _ _ SS) in H. cbn [bind] in H. eapply no_bounds_scaling_faults; eauto.
Qed.
Lemma zero_faults x0 sigma b : length sigma = length x0 -> In 0 sigma -> vector_sigma NbLin x0 sigma b = Fault DivByZero.
Proof.
  intros L I. unfold vector_sigma, vs_gp. assert (vs_scaling x0 sigma = Fault DivByZero) as ->; [|reflexivity].
  unfold vs_scaling. revert sigma L I. induction x0 as [|a x0 IH]; intros [|s l] L I; try discriminate; [contradiction|]. cbn [mapM2]. unfold rdiv at 1.
  destruct (Req_EM_T s 0) as [_|Q]; [reflexivity|]. cbn [bind]. destruct I as [->|I]; [contradiction|]. rewrite IH; [reflexivity|cbn in L; lia|exact I].
Qed.

(** * One parameter with step size 2 *)
Definition gp_half : genopheno := mkGP NoBound None (LinScaling (lin_of [2])).
Definition npar2 : npar :=
  mkNpar k1 Full 2 false (/ 1000000000000) 0.3 (/ 10000000) eig1 demo_normal (fun _ => 1 / 2)
    (fun x => match scale_i_step (gp_scale gp_half) x with Ok z => z | Fault _ => x end) (fun x => x) (fun _ => None) (fun x => x).
Lemma eig_npar2 : eigensolver_ok npar2.
Proof. exact (eig1_ok k1 Full eq_refl). Qed.
Lemma sizes2 : step_sizes 1 [2].
Proof. split; [reflexivity|repeat constructor; lra]. Qed.
Lemma made2 : vector_sigma NbLin [0] [2] None = Ok (gp_half, 2) /\ made_with npar2 gp_half 2.
Proof.
  split.
  - unfold vector_sigma. rewrite (nb_gp [0] [2] None sizes2). reflexivity.
  - split; [reflexivity|]. intros x z H. cbn [npar2 p_scale]. rewrite H. reflexivity.
Qed.
Lemma first2 : exists s pop s', st_new (cma_num npar2) (cfg_of k1) [0] num0 = Ok s /\ ask (cma_num npar2) (call_env zig) (cfg_of k1) s = Ok (pop, s') /\ length pop = 4%nat /\ drawn s = 0%nat.
Proof.
  assert (HL : (2 <= k_lambda (p_k npar2))%nat) by (cbn; lia). destruct (new_ok npar2 HL [0] num0) as [s0 E0]. exists s0.
  destruct (ask_safe (cma_num npar2) (call_env zig) (cfg_of k1)) with (s := s0) as (pop & s1 & H1 & (P1 & _) & _).
  - apply (dims_of npar2); reflexivity.
  - intros x _. cbn. eauto.
  - intros i v [].
  - exact (cfg_room npar2 HL).
  - exact (sinv_new _ _ _ _ _ E0).
  - exists pop, s1. split; [exact E0|]. split; [exact H1|]. split; [exact P1|]. unfold drawn. rewrite (start_num _ _ _ _ _ E0). reflexivity.
Qed.
Lemma sampled4 : exists s pop s', st_new (cma_num npar2) (cfg_of k1) [0] num0 = Ok s /\ ask (cma_num npar2) (call_env zig) (cfg_of k1) s = Ok (pop, s') /\
  normal_points npar2 gp_half s pop [0] (fun _ => 4) /\ ~ normal_points npar2 gp_half s pop [0] (fun i => nth i [2] 0).
Proof.
  destruct first2 as (s & pop & s' & E0 & E1 & L & D). exists s, pop, s'. split; [exact E0|]. split; [exact E1|].
  assert (N : normal_points npar2 gp_half s pop [0] (fun i => nth i [2] 0 * 2)).
  { eapply sampling with (g := cfg_of k1) (e := call_env zig) (b := None); [exact k1_constructed|reflexivity|reflexivity|exact eig_npar2|repeat split|reflexivity|reflexivity|reflexivity|exact sizes2|exact (proj1 made2)|exact (proj2 made2)|exact E0|exact E1]. }
  assert (N4 : normal_points npar2 gp_half s pop [0] (fun _ => 4)).
  { destruct N as (a & A & H). exists a. split; [exact A|]. intros c x Hx. destruct (H c x Hx) as (y & Y1 & Y2 & Y3). exists y. split; [exact Y1|]. split; [exact Y2|].
    intros [|i] v w Hv Hw; [rewrite (Y3 _ _ _ Hv Hw); cbn [nth]; lra|destruct i; discriminate]. }
  split; [exact N4|]. intros M. destruct pop as [|x pop]; [discriminate|].
  destruct N4 as (a & A & H). destruct M as (a' & A' & H'). destruct (H 0%nat x eq_refl) as (y & Y1 & Y2 & Y3). destruct (H' 0%nat x eq_refl) as (y' & Y1' & _ & Y3').
  rewrite Y1 in Y1'. injection Y1' as <-. assert (Ly : length y = 1%nat) by exact Y2. destruct y as [|v [|]]; try discriminate.
  specialize (Y3 0%nat v 0 eq_refl eq_refl). specialize (Y3' 0%nat v 0 eq_refl eq_refl). cbn [nth] in Y3'.
  specialize (A 0%nat 0%nat ltac:(cbn; lia) ltac:(cbn; lia)). specialize (A' 0%nat 0%nat ltac:(cbn; lia) ltac:(cbn; lia)).
  unfold draws_of in Y3, Y3'. rewrite D in Y3, Y3'.
  assert (DD : k_dim (p_k npar2) = 1%nat) by reflexivity. rewrite DD in *. cbn [npar2 p_normal] in *.
  unfold mv, dot in *. cbn [rsum] in *. unfold ident, diag, demo_normal in *. cbn in *. 
  set (q := a 0%nat 0%nat) in *. set (q' := a' 0%nat 0%nat) in *. clearbody q q'. nra.
Qed.
