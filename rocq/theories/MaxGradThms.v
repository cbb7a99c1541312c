(** Maximisation with a gradient given by the user. *)
From Coq Require Import Reals List Lia Lra ZArith.
From Verif Require Import Base Dbl Vec VecProofs Params SpecParams Config Search SpecSearch Update SpecUpdate DemoNum DemoNumProofs NumThms ActiveThms CritThms SpecEdm EdmProofs SpecGradPt GradPtProofs GradPtThms.
Import ListNotations.
Local Open Scope R_scope.

(** Value of a double: [Fin z] is z / 2^1074. *)
Definition rounded (F : list R -> R) (_ : nat) (x : list R) : dbl := Fin (Int_part (F x * 2 ^ 1074)).
Definition first_coord (x : list R) : R := at0 x 0%nat.
Definition max_env : env R num := mkEnv (ctor_func true (rounded first_coord)) true (fun x => Ok x) (fun _ => 0%Z) (e_sort flat_env).
(** The user's gradient is that of the first coordinate. *)
Definition max_par : npar := mkNpar k24 Full 1 false (/ 1000000000000) 0.3 (/ 10000000) eig2 demo_normal (fun _ => 1 / 2)
  (fun x => x) (fun x => x) (fun _ => None) (fun _ => [1; 0]).
Lemma max_ask s : exists pop s', ask (cma_num max_par) max_env (grad_cfg k24) s = Ok (pop, s').
Proof.
  unfold ask. destruct (n_sample _ _ _) as [pop0 n2] eqn:Es.
  assert (L : exists a l, pop0 = a :: l).
  { cbn [cma_num n_sample] in Es. unfold sample_num in Es. injection Es as <- _. cbn [grad_cfg set_g_gradient cfg_of g_lambda]. change (k_lambda k24) with 4%nat. eexists. eexists. reflexivity. }
  destruct L as (a & l & ->). cbn [grad_cfg set_g_gradient g_gradient g_fixed g_tpa cfg_of]. change (k_fixed k24) with (@nil (Z * R)).
  cbn [max_env e_pheno bind]. unfold gradf at 1. cbn [e_gfunc max_env].
  destruct (n_gradcol _ _ _); cbn [set_col upd_at bind andb]; [|cbn; eauto].
  unfold set_col, upd_at. cbn [length]. rewrite (proj2 (Z.leb_gt _ _)) by lia. cbn. eauto.
Qed.
Lemma max_wrong : exists p e g F x0 s pop s' x,
  constructed (p_k p) /\ (forall y, p_pheno p y = y) /\ same_transform p e /\ g_gradient g = true /\ e_gfunc e = true /\
  e_f e = ctor_func true (rounded F) /\ (forall a b, F b - F a = dot (k_dim (p_k p)) (at0 (p_ugrad p a)) (fun i => at0 b i - at0 a i)) /\
  st_new (cma_num p) g x0 num0 = Ok s /\ ask (cma_num p) e g s = Ok (pop, s') /\ nth_error pop 0 = Some x /\
  F x < F x0 /\ forall y, ellipsoid (k_dim (p_k p)) (cov_of s) (sigma_of s * sigma_of s * INR (k_dim (p_k p))) (fun i => at0 y i - at0 x0 i) -> F x <= F y.
Proof.
  pose (p := max_par). pose (g := grad_cfg k24).
  assert (E0 : exists s, st_new (cma_num p) g [1; 0] num0 = Ok s) by (eexists; reflexivity). destruct E0 as [s E0].
  destruct (start_mean p _ _ _ eq_refl eq_refl E0) as (M & C & _ & SG). change (k_dim (p_k p)) with 2%nat in M.
  destruct (max_ask s) as (pop & s' & A).
  assert (SP : 0 < sigma_of s) by (rewrite SG; unfold init_sigma; cbn [p max_par p_sigma0]; destruct (Rlt_dec 0 1); lra).
  assert (HSl : slope_at_mean p max_env s (at0 [1; 0])).
  { exists (at0 [1; 0]). split; [intros i Hi; reflexivity|]. intros i Hi. rewrite (id_slope p _ i eq_refl Hi). ring. }
  destruct (steepest_full p max_env g eq_refl (fun x => eq_refl) s pop s' (at0 [1; 0]) eq_refl eq_refl eq_refl) as (x & N & _ & (_ & D & W)).
  { exact (eig2_ok k24 Full eq_refl). } { reflexivity. } { reflexivity. } { rewrite C. apply ident_sym. } { rewrite C. apply ident_pd. } { exact SP. } { exact HSl. }
  { exists 0%nat. split; [cbn; lia|]. unfold at0. cbn. lra. } { exact A. }
  change (k_dim (p_k p)) with 2%nat in *.
  assert (E : forall u, dot 2 (at0 [1; 0]) u = u 0%nat) by (intros u; unfold dot, at0; cbn [rsum nth]; ring).
  rewrite E, (M 0%nat) in D by lia. 
  exists p, max_env, g, first_coord, [1; 0], s, pop, s', x.
  split; [apply k24_constructed|]. split; [reflexivity|]. split; [intros y; reflexivity|]. split; [reflexivity|]. split; [reflexivity|]. split; [reflexivity|].
  split. { intros a b. cbn [p max_par p_ugrad]. change (k_dim (p_k max_par)) with 2%nat. rewrite E. reflexivity. }
  split; [exact E0|]. split; [exact A|]. split; [exact N|]. split; [unfold first_coord; lra|].
  intros y HY. specialize (W _ HY). rewrite !E, (M 0%nat) in W by lia. unfold first_coord. lra.
Qed.
