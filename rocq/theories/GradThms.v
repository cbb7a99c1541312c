(** Numerical gradient: counterexamples and instances. *)
From Coq Require Import Reals List Lia Lra Arith ZArith.
From Verif Require Import Base Dbl Vec VecProofs SpecBounds SpecGeno EoMatrix Pwq Scaling GenoPheno PwqProofs GenoPhenoProofs ScalingProofs BoundsExtra Params SpecParams Config Search SpecSearch SearchInv StopProofs
  Update SpecUpdate SpecSafe SpecUh SafeProofs Demo DemoProofs DemoNum DemoNumProofs NumInv NumThms SpecGrad GradProofs.
Import ListNotations.
Local Open Scope R_scope.

(** Parameters and problem using the transform [gp], objective [f]. *)
Definition gp_par (k : cpar) (gp : genopheno) : npar :=
  mkNpar k Full 1 false (/ 1000000000000) 0.3 (/ 10000000) (fun _ => (fun _ => 1, ident)) demo_normal (fun _ => 1 / 2)
    (fun x => x) (fun x => match pheno gp x with Ok y => y | Fault _ => x end)
    (fun i => match intern_bounds gp with None => None | Some l => option_map snd (nth_error l i) end) (fun x => x).
Definition gp_env (gp : genopheno) (f : list R -> dbl) : env R num := mkEnv (fun _ x => f x) false (pheno gp) (fun _ => 0%Z) isort.
Lemma gp_uses k gp f : uses_gp (gp_par k gp) (gp_env gp f) gp.
Proof. split; reflexivity. Qed.

(** Value of [a + b x] when it is an integer. *)
Definition aff_f (a : R) (b : nat -> R) (d : nat) (x : list R) : dbl := Fin (Int_part (affine_at d a b x) * 2 ^ 1074).
Lemma Int_part_IZR z : Int_part (IZR z) = z.
Proof. unfold Int_part. rewrite <- (up_tech (IZR z) z) by (try apply Rle_refl; apply IZR_lt; lia). lia. Qed.
Lemma pow_1074 : IZR (2 ^ 1074) = 2 ^ 1074.
Proof. rewrite (pow_IZR 2 1074). f_equal. Qed.
Lemma aff_f_ok a b d x z : affine_at d a b x = IZR z -> exists w, aff_f a b d x = Fin w /\ IZR w / 2 ^ 1074 = affine_at d a b x.
Proof.
  intros E. eexists. split; [reflexivity|]. rewrite E, Int_part_IZR, mult_IZR, pow_1074. unfold Rdiv. rewrite Rmult_assoc, Rinv_r by (apply pow_nonzero; lra). ring.
Qed.

Definition k14 : cpar := cma_params 1 4.
Definition g14 : cfg R := set_g_gradient true (cfg_of k14).

(** At the upper bound the step is cut but the divisor is not. *)
Lemma affine_at_bound : exists p e g gp lb ub x s gr s' (b : R),
  uses_gp p e gp /\ ordered lb ub /\ gp_bounds None lb ub = Ok gp /\ inside lb ub x /\ length x = k_dim (p_k p) /\ g_dim g = k_dim (p_k p) /\ e_gfunc e = false /\
  (exists s0, st_new (cma_num p) g lb num0 = Ok s0 /\ s = s0) /\
  gradf (cma_num p) e g x s = (gr, s') /\ (forall ys, new_calls s s' ys -> affine_on (k_dim (p_k p)) e 0 (fun _ => b) ys) /\
  grad_vec p x gr 0%nat = 0 /\ b <> 0.
Proof.
  assert (G : exists gp, gp_bounds None [0] [1] = Ok gp) by (eexists; reflexivity). destruct G as [gp EG].
  pose (p := gp_par k14 gp). pose (f := aff_f 0 (fun _ => 1) 1). pose (e := gp_env gp f). pose (g := g14).
  assert (E0 : exists s0, st_new (cma_num p) g [0] num0 = Ok s0) by (eexists; reflexivity). destruct E0 as [s E0].
  destruct (gradf (cma_num p) e g [1] s) as [gr s'] eqn:G.
  assert (PU : p_ub p 0%nat = Some 1) by (unfold p; cbn [gp_par p_ub]; unfold gp_bounds in EG; cbn in EG; apply Ok_inj in EG; subst gp; reflexivity).
  assert (PT : grad_point p 0 [1] = [1]).
  { unfold grad_point. change (k_dim (p_k p)) with 1%nat. cbn [tab seq map Nat.eqb]. rewrite PU. cbv zeta.
    rewrite Rmin_right; [reflexivity|]. pose proof (eps_pos (at0 [1]) 0). change (at0 [1] 0%nat) with 1 in *. lra. }
  pose proof (gradf_new p e g [1] s gr s' eq_refl G) as N. change (g_dim g) with 1%nat in N. cbn [seq map] in N. rewrite PT in N.
  assert (AF : forall y, In y [[1]; [1]] -> affine_at 1 0 (fun _ => 1) y = IZR 1). { intros y [<-|[<-|[]]]; unfold affine_at; cbn; ring. }
  exists p, e, g, gp, [0], [1], [1], s, gr, s', 1.
  split; [apply gp_uses|]. split; [repeat constructor; lra|]. split; [exact EG|].
  split. { repeat split; destruct i as [|[|i]]; cbn in *; try discriminate; injection H as <-; injection H0 as <-; injection H1 as <-; lra. }
  split; [reflexivity|]. split; [reflexivity|]. split; [reflexivity|]. split; [exists s; auto|]. split; [exact G|].
  split. { intros ys (log & L1 & L2). destruct N as (log' & L3 & L4). rewrite L1 in L3. apply app_inv_head in L3. subst log'. rewrite L4 in L2. subst ys.
    intros j y Hy. change (k_dim (p_k p)) with 1%nat. apply (aff_f_ok _ _ _ _ 1%Z). apply AF, Hy. }
  split; [|lra]. apply gradf_calls in G. destruct G as (_ & -> & _). change (g_dim g) with 1%nat. cbn [seq map]. rewrite PT.
  unfold grad_vec. rewrite !eval_from_cons. cbn [map nth snd]. change (e_f e (length (t_log s)) [1]) with (f [1]).
  change (e_f e (S (length (t_log s))) [1]) with (f [1]). unfold Rdiv. rewrite Rminus_diag_eq by reflexivity. apply Rmult_0_l.
Qed.

(** With linear scaling the step is cut at the bound of the scaled space. *)
Lemma scaled_outside : exists p e g gp lb ub x s gr s' y v,
  uses_gp p e gp /\ ordered lb ub /\ gp_bounds_lin None lb ub = Ok gp /\ inside lb ub x /\ length x = k_dim (p_k p) /\ g_dim g = k_dim (p_k p) /\ e_gfunc e = false /\
  gradf (cma_num p) e g x s = (gr, s') /\ In (y, v) (t_log s') /\ ~ inside lb ub y.
Proof.
  assert (O : ordered [20] [30]) by (repeat constructor; lra).
  destruct (gp_bounds_lin_total None [20] [30] O) as [gp EG].
  pose (p := gp_par k14 gp). pose (f := fun _ : list R => dint 0). pose (e := gp_env gp f). pose (g := g14).
  assert (E0 : exists s0, st_new (cma_num p) g [25] num0 = Ok s0) by (eexists; reflexivity). destruct E0 as [s E0].
  destruct (gradf (cma_num p) e g [25] s) as [gr s'] eqn:G.
  assert (PU : p_ub p 0%nat = Some 10).
  { unfold p. cbn [gp_par p_ub]. unfold gp_bounds_lin in EG. apply bind_ok in EG as (l & _ & EG). cbn in EG. apply Ok_inj in EG. subst gp. reflexivity. }
  assert (PT : grad_point p 0 [25] = [10]).
  { unfold grad_point. change (k_dim (p_k p)) with 1%nat. cbn [tab seq map Nat.eqb]. rewrite PU. cbv zeta.
    rewrite Rmin_right; [reflexivity|]. pose proof (eps_pos (at0 [25]) 0). change (at0 [25] 0%nat) with 25 in *. lra. }
  exists p, e, g, gp, [20], [30], [25], s, gr, s', [10], (dint 0).
  split; [apply gp_uses|]. split; [exact O|]. split; [exact EG|].
  split. { repeat split; destruct i as [|[|i]]; cbn in *; try discriminate; injection H as <-; injection H0 as <-; injection H1 as <-; lra. }
  split; [reflexivity|]. split; [reflexivity|]. split; [reflexivity|]. split; [exact G|].
  split. { apply gradf_calls in G. cbn [e gp_env e_gfunc] in G. destruct G as (-> & _). change (g_dim g) with 1%nat. cbn [seq map]. rewrite PT, !eval_from_cons. apply in_or_app. right. right. left. reflexivity. }
  intros (_ & _ & I). specialize (I 0%nat 20 30 10 eq_refl eq_refl eq_refl). lra.
Qed.

(** Instances. *)
Definition k2g : cpar := cma_params 2 4.
Definition g2g : cfg R := set_g_gradient true (cfg_of k2g).
(** ask looks at the transform only at the mean. *)
Lemma ask_pheno p e e' g s : e_f e' = e_f e -> e_gfunc e' = e_gfunc e -> e_pheno e' (tab (k_dim (p_k p)) (mean_of s)) = e_pheno e (tab (k_dim (p_k p)) (mean_of s)) ->
  ask (cma_num p) e' g s = ask (cma_num p) e g s.
Proof.
  intros E1 E2 E3. unfold ask. destruct (n_sample _ _ _) as [pop0 n2] eqn:Es. destruct (g_gradient g); [|reflexivity].
  assert (XM : n_xmean (cma_num p) n2 = tab (k_dim (p_k p)) (mean_of s)).
  { cbn [n_sample cma_num] in Es. unfold sample_num in Es. injection Es as _ <-. cbn [n_xmean cma_num with_pos x_mean n_eigen].
    f_equal. unfold eigen_num. destruct (_ || _)%bool; [reflexivity|]. destruct (_ || _ || _)%bool; reflexivity. }
  cbn [t_sol set_t_sol s_num set_s_num]. rewrite XM, E3. destruct (e_pheno e _) as [x|]; [|reflexivity]. cbn [bind].
  assert (Q : forall s, gradf (cma_num p) e' g x s = gradf (cma_num p) e g x s).
  { intros s1. unfold gradf. rewrite E2. destruct (e_gfunc e); [reflexivity|].
    assert (C : forall l s, calls e' l s = calls e l s). { induction l as [|y l IH]; intros s2; cbn [calls]; [auto|]. unfold call. rewrite E1. now rewrite IH. }
    now rewrite C. }
  rewrite Q. reflexivity.
Qed.
Lemma bounded_ask : exists gp s0 pop s, gp_bounds None [0; -1] [1; 3] = Ok gp /\
  st_new (cma_num (gp_par k2g gp)) g2g [1 / 2; 3] num0 = Ok s0 /\
  ask (cma_num (gp_par k2g gp)) (gp_env gp (fun _ => dint 0)) g2g s0 = Ok (pop, s).
Proof.
  assert (G : exists gp, gp_bounds None [0; -1] [1; 3] = Ok gp) by (eexists; reflexivity). destruct G as [gp EG].
  pose (p := gp_par k2g gp). pose (e := gp_env gp (fun _ => dint 0)). pose (g := g2g).
  pose (e' := mkEnv (e_f e) false (fun x => match pheno gp x with Ok y => Ok y | Fault _ => Ok x end) (fun _ => 0%Z) isort : env R num).
  assert (E0 : exists s0, st_new (cma_num p) g [1 / 2; 3] num0 = Ok s0) by (eexists; reflexivity). destruct E0 as [s0 E0].
  assert (HD : dims_ok (cma_num p) g) by (apply dims_of; reflexivity).
  assert (HP : pheno_total e' g) by (intros x _; cbn; destruct (pheno gp x); eauto).
  assert (HF : fixed_in_range g) by (intros i v []).
  assert (HR : room g) by (split; [cbn; lia|cbn; discriminate]).
  destruct (ask_safe (cma_num p) e' g HD HP HF HR s0 (sinv_new (cma_num p) g _ _ _ E0)) as (pop & s & E & _ & _).
  exists gp, s0, pop, s. split; [exact EG|]. split; [exact E0|]. rewrite <- E. symmetry. apply ask_pheno; [reflexivity|reflexivity|].
  assert (M : tab (k_dim (p_k p)) (mean_of s0) = [1 / 2; 3]).
  { apply st_new_num in E0. unfold mean_of. rewrite E0. reflexivity. }
  change (e_pheno e' (tab (k_dim (p_k p)) (mean_of s0)) = e_pheno e (tab (k_dim (p_k p)) (mean_of s0))). rewrite M. cbn [e' e_pheno gp_env e].
  assert (W : within_widths 4294967296 [0; -1] [1; 3] [1 / 2; 3]).
  { intros i l u v; destruct i as [|[|i]]; cbn; intros A B C; try discriminate; [injection A as <-; injection B as <-; injection C as <-; lra ..|destruct i; discriminate]. }
  assert (O : ordered [0; -1] [1; 3]) by (repeat constructor; lra).
  destruct (feasible_total _ _ _ [1 / 2; 3] O EG eq_refl W) as (y & H1 & _). rewrite H1. reflexivity.
Qed.
(** 5 + 10^8 x + 2 10^8 y at the origin. *)
Lemma affine_example : let b := fun i => if Nat.eqb i 0 then 100000000 else 200000000 in
  let p := npar_of k2g Full in let e := gp_env gp_default_nb (aff_f 5 b 2) in
  affine_on 2 e 5 b ([0; 0] :: map (fun i => grad_point p i [0; 0]) (seq 0 2)).
Proof.
  cbv zeta. intros j y Hy. set (b := fun i => if Nat.eqb i 0 then 100000000 else 200000000).
  assert (Z : exists z, affine_at 2 5 b y = IZR z).
  { destruct Hy as [<-|Hy]; [exists 5%Z; unfold affine_at, b; cbn; ring|]. cbn [seq map] in Hy. unfold grad_point in Hy. cbn in Hy. unfold eps_at in Hy.
    destruct Hy as [<-|[<-|[]]]; [exists 6%Z|exists 7%Z]; unfold affine_at, b; cbn; rewrite Rabs_R0; lra. }
  destruct Z as [z Z]. exact (aff_f_ok 5 b 2 y z Z).
Qed.
