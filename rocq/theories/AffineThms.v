(** Translation and scaling: instances. *)
From Coq Require Import Reals List Lia Lra.
From Verif Require Import Base Dbl Vec VecProofs Params SpecParams Config Search SpecSearch SpecInvar SpecMorph SpecSafe SpecUh SearchInv SafeProofs Demo DemoProofs Update SpecUpdate ParamSound StopProofs DemoNum DemoNumProofs NumInv UpdateProofs UpdateProofs2 NumThms SpecAffine AffineProofs FixedProofs ActiveThms.
Import ListNotations.
Local Open Scope R_scope.

(** Objective that looks at the point: the number of coordinates above 1. *)
Definition above (x : list R) : Z := fold_right (fun v z => if Rlt_dec 1 v then (z + 1)%Z else z) 0%Z x.
Definition point_env : env R num := mkEnv (fun _ x => dint (above x)) false (fun x => Ok x) (fun _ => 0%Z) isort.
Lemma point_env_real : real_values point_env.
Proof. intros j x. exact (call_env_real (fun _ => above x) j x). Qed.
Lemma point_env_sort : std_sort_ok point_env.
Proof. exact (call_env_sort (fun _ => 0%Z)). Qed.
Lemma run_point p h : (2 <= k_lambda (p_k p))%nat -> k_fixed (p_k p) = [] -> no_optimize h = true -> Forall (proper_op (cfg_of (p_k p))) h -> forall x0 n,
  exists s0 s, st_new (cma_num p) (cfg_of (p_k p)) x0 n = Ok s0 /\ run_ops (cma_num p) point_env (cfg_of (p_k p)) h s0 = Ok s.
Proof.
  intros HL HF0 NO W x0 n. set (g := cfg_of (p_k p)) in *.
  assert (HF : forall i v, In (i, v) (g_fixed g) -> (0 <= i < Z.of_nat (g_dim g))%Z) by (cbn; rewrite HF0; intros i v []).
  destruct (new_ok p HL x0 n) as [s0 H0]. exists s0. fold g in H0.
  assert (HV := point_env_real). assert (HD := dims_of p g eq_refl).
  assert (HP : pheno_total point_env g) by (intros x _; cbn; eauto).
  assert (HR := cfg_room p HL). fold g in HR. assert (HE : elitism_le1 g) by (split; reflexivity).
  assert (X : forall s, sinv g s -> exists s', run_ops (cma_num p) point_env g h s = Ok s'); [|destruct (X s0 (sinv_new (cma_num p) g x0 n s0 H0)) as [s E]; eauto].
  clear s0 H0. induction h as [|o h IH]; intros s I; cbn [run_ops]; [eauto|]. inversion W; subst.
  assert (Y : exists s', do_op (cma_num p) point_env g o s = Ok s' /\ sinv g s').
  { destruct o; cbn [proper_op do_op] in *; try contradiction; try discriminate.
    - destruct (ask_safe (cma_num p) point_env g HD HP HF HR s I) as (pop & s1 & E & _ & I1). rewrite E. cbn. eauto.
    - destruct (stop_safe (cma_num p) point_env g HR s I) as (b & s1 & E & I1). rewrite E. cbn. eauto.
    - destruct H1 as [W1 W2].
      destruct (eval_safe (cma_num p) point_env g HR eq_refl s cols phen I W1 W2) as [s2 E2]. rewrite E2. cbn [bind].
      destruct (eval_real (cma_num p) point_env g HV HE s cols phen s2 I W1 E2) as [I2 F2].
      destruct (tell_safe (cma_num p) point_env g HR eq_refl s2 I2 F2) as (s3 & E3 & I3). rewrite E3. cbn. eauto. }
  destruct Y as (s' & -> & I'). cbn [bind]. apply IH; auto. destruct o; auto; discriminate.
Qed.
(** The sampler of [num0] with its mean at [a]. *)
Definition num_at (a : nat -> R) : num :=
  mkNu (fun _ => 0) (fun _ => 0) 0 ident (fun _ => 0) (fun _ => 0) ident (fun _ => 0) (fun _ => 0) 0 false 0 a
    ((fun _ => 0), ident) (fun _ => 0) ident 0 0 0 0 0 0 0.
Lemma num_at_stream c a : same_stream c a num0 (num_at a).
Proof. repeat split; auto. intros i. cbn. ring. Qed.
Lemma k24_good : good_weights k24.
Proof. destruct (constructed_sound _ k24_constructed) as (_ & _ & H & _). exact H. Qed.
Lemma k24_sep_good : good_weights (set_sep k24).
Proof. destruct (constructed_sound _ k24_sep_constructed) as (_ & _ & H & _). exact H. Qed.

Lemma translation p e g pr a x0 n n' hs :
  good_weights (p_k p) -> same_problem p g -> plain_space p e g -> std_sort_ok e ->
  (forall so so', moved_sol (aff 1 a) (moved_num (k_dim (p_k p)) 1 a) so so' -> pr so' = e_progress e so) ->
  length x0 = k_dim (p_k p) -> same_stream 1 a n n' -> Forall (point_op g) hs -> initial_known g hs ->
  moved_result (aff 1 a) (moved_num (k_dim (p_k p)) 1 a)
    (do s <- st_new (cma_num p) g x0 n; run_ops (cma_num p) e g hs s)
    (do s <- st_new (cma_num (moved_par 1 a p)) (moved_cfg 1 a g) (aff 1 a x0) n';
     run_ops (cma_num (moved_par 1 a p)) (moved_env 1 a pr e) (moved_cfg 1 a g) (map (move_op (aff 1 a)) hs) s).
Proof. intros. apply affine_history; auto; try lra. destruct H1 as (_ & Q & _). exact Q. Qed.
Lemma scaling p e g pr c x0 n n' hs : 0 < c -> 0 < p_sigma0 p ->
  good_weights (p_k p) -> same_problem p g -> plain_space p e g -> std_sort_ok e ->
  (forall so so', moved_sol (aff c (fun _ => 0)) (moved_num (k_dim (p_k p)) c (fun _ => 0)) so so' -> pr so' = e_progress e so) ->
  length x0 = k_dim (p_k p) -> same_stream c (fun _ => 0) n n' -> Forall (point_op g) hs -> initial_known g hs ->
  moved_result (aff c (fun _ => 0)) (moved_num (k_dim (p_k p)) c (fun _ => 0))
    (do s <- st_new (cma_num p) g x0 n; run_ops (cma_num p) e g hs s)
    (do s <- st_new (cma_num (moved_par c (fun _ => 0) p)) (moved_cfg c (fun _ => 0) g) (aff c (fun _ => 0) x0) n';
     run_ops (cma_num (moved_par c (fun _ => 0) p)) (moved_env c (fun _ => 0) pr e) (moved_cfg c (fun _ => 0) g) (map (move_op (aff c (fun _ => 0))) hs) s).
Proof. intros. apply affine_history; auto. destruct H3 as (_ & Q & _). exact Q. Qed.
Lemma translation_rounds p e g pr a x0 n n' m :
  good_weights (p_k p) -> same_problem p g -> plain_space p e g -> std_sort_ok e ->
  (forall so so', moved_sol (aff 1 a) (moved_num (k_dim (p_k p)) 1 a) so so' -> pr so' = e_progress e so) ->
  length x0 = k_dim (p_k p) -> same_stream 1 a n n' -> needs_initial g = false ->
  moved_result (aff 1 a) (moved_num (k_dim (p_k p)) 1 a)
    (do s <- st_new (cma_num p) g x0 n; rounds (cma_num p) g e m s)
    (do s <- st_new (cma_num (moved_par 1 a p)) (moved_cfg 1 a g) (aff 1 a x0) n';
     rounds (cma_num (moved_par 1 a p)) (moved_cfg 1 a g) (moved_env 1 a pr e) m s).
Proof. intros. apply affine_rounds; auto; try lra. destruct H1 as (_ & Q & _). exact Q. Qed.
Lemma scaling_rounds p e g pr c x0 n n' m : 0 < c -> 0 < p_sigma0 p ->
  good_weights (p_k p) -> same_problem p g -> plain_space p e g -> std_sort_ok e ->
  (forall so so', moved_sol (aff c (fun _ => 0)) (moved_num (k_dim (p_k p)) c (fun _ => 0)) so so' -> pr so' = e_progress e so) ->
  length x0 = k_dim (p_k p) -> same_stream c (fun _ => 0) n n' -> needs_initial g = false ->
  moved_result (aff c (fun _ => 0)) (moved_num (k_dim (p_k p)) c (fun _ => 0))
    (do s <- st_new (cma_num p) g x0 n; rounds (cma_num p) g e m s)
    (do s <- st_new (cma_num (moved_par c (fun _ => 0) p)) (moved_cfg c (fun _ => 0) g) (aff c (fun _ => 0) x0) n';
     rounds (cma_num (moved_par c (fun _ => 0) p)) (moved_cfg c (fun _ => 0) g) (moved_env c (fun _ => 0) pr e) m s).
Proof. intros. apply affine_rounds; auto. destruct H3 as (_ & Q & _). exact Q. Qed.
(** An elitist search whose progress function ends optimize at once. *)
Definition ending_env : env R num := mkEnv (fun _ x => dint (above x)) false (fun x => Ok x) (fun _ => 1%Z) isort.
Definition elit_cfg (k : cpar) : cfg R := set_g_elit (mkElit false true false) (cfg_of k).
Lemma run_elit p x0 n : (2 <= k_lambda (p_k p))%nat ->
  exists s0 s, st_new (cma_num p) (elit_cfg (p_k p)) x0 n = Ok s0 /\ run_ops (cma_num p) ending_env (elit_cfg (p_k p)) [OOptimize 0 1] s0 = Ok s.
Proof.
  intros HL. assert (N0 : (Z.of_nat (g_lambda (elit_cfg (p_k p))) =? 0)%Z = false) by (apply Z.eqb_neq; cbn; lia).
  unfold st_new, sol_new. rewrite N0. cbn [bind]. eexists. eexists. split; [reflexivity|]. reflexivity.
Qed.
(** The points of a numerical gradient do not move along. *)
Lemma gradient_calls : exists p e g a x0 n n' s0 s0' pop s pop' s',
  constructed (p_k p) /\ same_problem p g /\ (forall x, e_pheno e x = Ok x) /\ (forall x, p_scale p x = x) /\ e_gfunc e = false /\
  g_gradient g = true /\ p_ub p = (fun _ => None) /\ same_stream 1 a n n' /\
  st_new (cma_num p) g x0 n = Ok s0 /\ ask (cma_num p) e g s0 = Ok (pop, s) /\
  st_new (cma_num (moved_par 1 a p)) (moved_cfg 1 a g) (aff 1 a x0) n' = Ok s0' /\
  ask (cma_num (moved_par 1 a p)) (moved_env 1 a (e_progress e) e) (moved_cfg 1 a g) s0' = Ok (pop', s') /\
  map fst (t_log s') <> map (fun q => aff 1 a (fst q)) (t_log s).
Proof.
  pose (k := cma_params 1 4). pose (p := npar_of k Full). pose (g := set_g_gradient true (cfg_of k)). pose (a := fun _ : nat => 1).
  pose (p' := moved_par 1 a p). pose (g' := moved_cfg 1 a g). pose (e' := moved_env 1 a (e_progress flat_env) flat_env).
  assert (E0 : exists s0, st_new (cma_num p) g [0] num0 = Ok s0) by (eexists; reflexivity). destruct E0 as [s0 E0].
  assert (E0' : exists s0, st_new (cma_num p') g' (aff 1 a [0]) (num_at a) = Ok s0) by (eexists; reflexivity). destruct E0' as [s0' E0'].
  assert (HD : dims_ok (cma_num p) g) by (apply dims_of; reflexivity).
  assert (HD' : dims_ok (cma_num p') g') by (apply dims_of; reflexivity).
  assert (HP : pheno_total flat_env g) by (intros x _; cbn; eauto).
  assert (HP' : pheno_total e' g') by (intros x _; cbn; eauto).
  assert (HF : fixed_in_range g) by (intros i v []). assert (HF' : fixed_in_range g') by (intros i v []).
  assert (HR : room g) by (split; [cbn; lia|cbn; discriminate]).
  assert (HR' : room g') by (split; [cbn; lia|cbn; discriminate]).
  destruct (ask_safe (cma_num p) flat_env g HD HP HF HR s0 (sinv_new (cma_num p) g _ _ _ E0)) as (pop & s & E & _ & _).
  destruct (ask_safe (cma_num p') e' g' HD' HP' HF' HR' s0' (sinv_new (cma_num p') g' _ _ _ E0')) as (pop' & s' & E' & _ & _).
  assert (M : mean_of s0 = x_mean (new_num p [0] num0)) by (apply st_new_num in E0; unfold mean_of; rewrite E0; reflexivity).
  assert (M' : mean_of s0' = x_mean (new_num p' (aff 1 a [0]) (num_at a))) by (apply st_new_num in E0'; unfold mean_of; rewrite E0'; reflexivity).
  assert (G3 : g_tpa g <> 2%Z) by discriminate. assert (G3' : g_tpa g' <> 2%Z) by discriminate.
  pose proof (ask_grad_log p flat_env g s0 pop s _ eq_refl eq_refl G3 eq_refl E) as L.
  pose proof (ask_grad_log p' e' g' s0' pop' s' _ eq_refl eq_refl G3' eq_refl E') as L'.
  exists p, flat_env, g, a, [0], num0, (num_at a), s0, s0', pop, s, pop', s'.
  split. { exists 1%nat, 4%nat, []. repeat split; cbn; lia. }
  split; [repeat split|]. split; [reflexivity|]. split; [reflexivity|]. split; [reflexivity|]. split; [reflexivity|]. split; [reflexivity|].
  split; [apply num_at_stream|]. split; [exact E0|]. split; [exact E|]. split; [exact E0'|]. split; [exact E'|].
  assert (Z0 : t_log s0 = []) by (unfold st_new in E0; apply bind_ok in E0 as (so & _ & Q); apply Ok_inj in Q; subst; reflexivity).
  assert (Z0' : t_log s0' = []) by (unfold st_new in E0'; apply bind_ok in E0' as (so & _ & Q); apply Ok_inj in Q; subst; reflexivity).
  rewrite L, L', Z0, Z0'. change (g_dim g) with 1%nat. change (g_dim g') with 1%nat. cbn [app seq map]. rewrite !eval_from_cons. cbn [map fst].
  intros Q. injection Q as _ Q. revert Q. rewrite M, M'. cbn. unfold eps_at. cbn. unfold a. rewrite !Rabs_pos_eq by lra. intros Q. lra.
Qed.
(** Nor do they scale. *)
Lemma gradient_scale : exists p e g c x0 n n' s0 s0' pop s pop' s',
  0 < c /\ constructed (p_k p) /\ same_problem p g /\ (forall x, e_pheno e x = Ok x) /\ (forall x, p_scale p x = x) /\ e_gfunc e = false /\
  g_gradient g = true /\ p_ub p = (fun _ => None) /\ same_stream c (fun _ => 0) n n' /\
  st_new (cma_num p) g x0 n = Ok s0 /\ ask (cma_num p) e g s0 = Ok (pop, s) /\
  st_new (cma_num (moved_par c (fun _ => 0) p)) (moved_cfg c (fun _ => 0) g) (aff c (fun _ => 0) x0) n' = Ok s0' /\
  ask (cma_num (moved_par c (fun _ => 0) p)) (moved_env c (fun _ => 0) (e_progress e) e) (moved_cfg c (fun _ => 0) g) s0' = Ok (pop', s') /\
  map fst (t_log s') <> map (fun q => aff c (fun _ => 0) (fst q)) (t_log s).
Proof.
  pose (k := cma_params 1 4). pose (p := npar_of k Full). pose (g := set_g_gradient true (cfg_of k)). pose (a := fun _ : nat => 0).
  pose (p' := moved_par 2 a p). pose (g' := moved_cfg 2 a g). pose (e' := moved_env 2 a (e_progress flat_env) flat_env).
  assert (E0 : exists s0, st_new (cma_num p) g [0] num0 = Ok s0) by (eexists; reflexivity). destruct E0 as [s0 E0].
  assert (E0' : exists s0, st_new (cma_num p') g' (aff 2 a [0]) (num_at a) = Ok s0) by (eexists; reflexivity). destruct E0' as [s0' E0'].
  assert (HD : dims_ok (cma_num p) g) by (apply dims_of; reflexivity).
  assert (HD' : dims_ok (cma_num p') g') by (apply dims_of; reflexivity).
  assert (HP : pheno_total flat_env g) by (intros x _; cbn; eauto).
  assert (HP' : pheno_total e' g') by (intros x _; cbn; eauto).
  assert (HF : fixed_in_range g) by (intros i v []). assert (HF' : fixed_in_range g') by (intros i v []).
  assert (HR : room g) by (split; [cbn; lia|cbn; discriminate]).
  assert (HR' : room g') by (split; [cbn; lia|cbn; discriminate]).
  destruct (ask_safe (cma_num p) flat_env g HD HP HF HR s0 (sinv_new (cma_num p) g _ _ _ E0)) as (pop & s & E & _ & _).
  destruct (ask_safe (cma_num p') e' g' HD' HP' HF' HR' s0' (sinv_new (cma_num p') g' _ _ _ E0')) as (pop' & s' & E' & _ & _).
  assert (M : mean_of s0 = x_mean (new_num p [0] num0)) by (apply st_new_num in E0; unfold mean_of; rewrite E0; reflexivity).
  assert (M' : mean_of s0' = x_mean (new_num p' (aff 2 a [0]) (num_at a))) by (apply st_new_num in E0'; unfold mean_of; rewrite E0'; reflexivity).
  assert (G3 : g_tpa g <> 2%Z) by discriminate. assert (G3' : g_tpa g' <> 2%Z) by discriminate.
  pose proof (ask_grad_log p flat_env g s0 pop s _ eq_refl eq_refl G3 eq_refl E) as L.
  pose proof (ask_grad_log p' e' g' s0' pop' s' _ eq_refl eq_refl G3' eq_refl E') as L'.
  exists p, flat_env, g, 2, [0], num0, (num_at a), s0, s0', pop, s, pop', s'.
  split; [lra|]. split. { exists 1%nat, 4%nat, []. repeat split; cbn; lia. }
  split; [repeat split|]. split; [reflexivity|]. split; [reflexivity|]. split; [reflexivity|]. split; [reflexivity|]. split; [reflexivity|].
  split; [apply num_at_stream|]. split; [exact E0|]. split; [exact E|]. split; [exact E0'|]. split; [exact E'|].
  assert (Z0 : t_log s0 = []) by (unfold st_new in E0; apply bind_ok in E0 as (so & _ & Q); apply Ok_inj in Q; subst; reflexivity).
  assert (Z0' : t_log s0' = []) by (unfold st_new in E0'; apply bind_ok in E0' as (so & _ & Q); apply Ok_inj in Q; subst; reflexivity).
  rewrite L, L', Z0, Z0'. change (g_dim g) with 1%nat. change (g_dim g') with 1%nat. cbn [app seq map]. rewrite !eval_from_cons. cbn [map fst].
  intros Q. injection Q as _ Q. revert Q. rewrite M, M'. cbn. unfold eps_at. cbn. unfold a. rewrite !Rabs_pos_eq by lra. intros Q. lra.
Qed.
