(** Lemmas behind PropsUpdate.v in the form of the property theorems. *)
From Coq Require Import Reals List Lia Lra Psatz Permutation.
From Verif Require Import Base Dbl Vec VecProofs Params SpecParams ParamsProofs Config Search SpecSearch SpecSafe SpecUh SearchInv StopProofs SearchThms SearchThms2 NumInv Demo DemoProofs.
From Verif Require Import Update SpecUpdate UpdateProofs ParamSound Corr UpdateProofs2 CorrProofs TpaProofs FixedProofs DemoNum DemoNumProofs LargeLambda.
Import ListNotations.
Local Open Scope R_scope.

Lemma cov_psd_thm p e g h s0 s : constructed (p_k p) -> p_upd p = Full -> started p e g s0 -> run_ops (cma_num p) e g h s0 = Ok s ->
  symmetric (k_dim (p_k p)) (cov_of s) /\ psd (k_dim (p_k p)) (cov_of s).
Proof.
  intros C F. pose proof (constructed_sound _ C) as HS. pose proof HS as (HD1 & _ & _ & HA1). apply (cov_psd p HS HD1 HA1). congruence.
Qed.
Lemma cov_lower_thm p e g h s0 s : constructed (p_k p) -> p_upd p = Full -> started p e g s0 ->
  Forall (okop (fun _ => True)) h -> run_ops (cma_num p) e g h s0 = Ok s ->
  forall x, (1 - k_c1 (p_k p) - k_cmu (p_k p)) ^ Z.to_nat (s_niter (t_sol s)) * dot (k_dim (p_k p)) x x <= quad (k_dim (p_k p)) (cov_of s) x.
Proof. intros C F. apply (cov_lower p (constructed_sound _ C)). congruence. Qed.
Lemma cov_pd_thm p e g h s0 s : constructed (p_k p) -> p_upd p = Full -> k_c1 (p_k p) + k_cmu (p_k p) < 1 -> started p e g s0 ->
  run_ops (cma_num p) e g h s0 = Ok s -> pos_def (k_dim (p_k p)) (cov_of s).
Proof. intros C F. apply (cov_pd p (constructed_sound _ C)). congruence. Qed.
Lemma sep_pos_thm p e g h x0 n0 s0 s : constructed (p_k p) -> p_upd p = Full -> k_c1 (p_k p) + k_cmu (p_k p) < 1 ->
  st_new (cma_num p) g x0 n0 = Ok s0 -> run_ops (cma_num p) e g h s0 = Ok s -> forall j, 0 < variances_of s j.
Proof. intros C F. apply (sep_pos p (constructed_sound _ C)). congruence. Qed.
Lemma sep_lower_thm p e g h x0 n0 s0 s : constructed (p_k p) -> p_upd p = Full ->
  st_new (cma_num p) g x0 n0 = Ok s0 -> Forall (okop (fun _ => True)) h -> run_ops (cma_num p) e g h s0 = Ok s ->
  forall j, (1 - k_c1 (p_k p) - k_cmu (p_k p)) ^ Z.to_nat (s_niter (t_sol s)) <= variances_of s j.
Proof. intros C F. apply (sep_lower p (constructed_sound _ C)). congruence. Qed.
Lemma sigma_thm p e g h s0 s : configured (p_k p) -> started p e g s0 -> run_ops (cma_num p) e g h s0 = Ok s -> 0 < sigma_of s.
Proof. intros C. destruct (configured_pos _ C) as [HD1 HA1]. apply (sigma_positive p HD1 HA1). Qed.
Lemma mean_thm p e g s s' : constructed (p_k p) -> g_uh g = false -> (forall c, In c (s_cands (t_sol s)) -> c_f c <> NaN) ->
  tell (cma_num p) e g s = Ok s' ->
  let k := p_k p in let best i := at0 (nth i (map c_x (s_cands (t_sol s'))) []) in
  Permutation (s_cands (t_sol s')) (s_cands (t_sol s)) /\ ascending (s_cands (t_sol s')) /\
  length (k_w k) = k_mu k /\ (forall w, In w (k_w k) -> 0 < w) /\ sumR (k_w k) = 1 /\
  (forall c, mean_of s' c = rsum (k_mu k) (fun i => nth i (k_w k) 0 * best i c)) /\
  (forall c lo hi, (forall i, (i < k_mu k)%nat -> lo <= best i c <= hi) -> lo <= mean_of s' c <= hi).
Proof.
  intros C U NN H k best. pose proof (constructed_sound _ C) as HS. destruct (tell_ranks _ _ _ _ _ U NN H) as (A & B & _).
  destruct (mean_convex p HS e g s s' H) as (M1 & M2). pose proof HS as (_ & _ & (W1 & _ & _ & W4 & W5) & _).
  split; [exact A|]. split; [exact B|]. split; [exact W1|]. split; [exact W4|]. split; [exact W5|]. split; auto.
Qed.
Lemma mean_any p e g s s' : constructed (p_k p) -> tell (cma_num p) e g s = Ok s' ->
  let k := p_k p in let best i := at0 (nth i (map c_x (s_cands (t_sol s'))) []) in
  (forall c, mean_of s' c = rsum (k_mu k) (fun i => nth i (k_w k) 0 * best i c)) /\
  (forall c lo hi, (forall i, (i < k_mu k)%nat -> lo <= best i c <= hi) -> lo <= mean_of s' c <= hi).
Proof. intros C H. exact (mean_convex p (constructed_sound _ C) e g s s' H). Qed.

Lemma fixed_candidates p e g s pop s' : same_problem p g -> fixed_ok p -> ask (cma_num p) e g s = Ok (pop, s') ->
  length pop = g_lambda g /\ Forall (has_fixed (g_fixed g)) pop.
Proof. intros G F H. destruct (fx_ask p e g G F s pop s' H) as [A B]. destruct G as (_ & _ & ->). auto. Qed.
Lemma fixed_mean_thm p e g h x0 n s0 s : constructed (p_k p) -> same_problem p g -> fixed_ok p -> elitism_le1 g -> std_sort_ok e ->
  (forall x, p_scale p x = x) -> st_new (cma_num p) g x0 n = Ok s0 -> Forall (fixed_op g) h -> run_ops (cma_num p) e g h s0 = Ok s ->
  forall i v, In (i, v) (g_fixed g) -> mean_of s (Z.to_nat i) = v.
Proof.
  intros C G F L U Sc H0 W H. pose proof (constructed_sound _ C) as HS. pose proof G as (_ & _ & EG). rewrite EG.
  apply (fixed_mean p e g HS G F L U Sc h x0 n s0 s); auto. eapply Forall_impl; [|exact W]. intros o. destruct o; cbn; auto. rewrite EG. tauto.
Qed.
Lemma fixed_evaluated_thm p e g h x0 n s0 s : constructed (p_k p) -> same_problem p g -> fixed_ok p -> elitism_le1 g -> std_sort_ok e ->
  (forall x, p_scale p x = x) -> (forall x, length x = g_dim g -> e_pheno e x = Ok x) -> g_gradient g = false -> g_uh g = false -> g_edm g = false ->
  st_new (cma_num p) g x0 n = Ok s0 -> Forall (fixed_op g) h -> run_ops (cma_num p) e g h s0 = Ok s ->
  forall y v, In (y, v) (t_log s) -> has_fixed (g_fixed g) y.
Proof.
  intros C G F L U Sc Ph Gr Uh Ed H0 W H. pose proof (constructed_sound _ C) as HS. pose proof G as (ED & _ & EG). rewrite EG. rewrite ED in Ph.
  apply (fixed_evaluated p e g HS G F L U Sc Ph Gr Uh Ed h x0 n s0 s); auto.
  eapply Forall_impl; [|exact W]. intros o. destruct o; cbn; auto. rewrite EG. tauto.
Qed.

(** Fixed parameter of value 3 in dimension 1. *)
Definition kfix : cpar := set_fixed_p 0 3 (cma_params 1 4).
Lemma kfix_constructed : constructed kfix.
Proof. exists 1%nat, 4%nat, [Fix 0 3]. repeat split; cbn; lia. Qed.
Definition scaled_npar (k : cpar) : npar :=
  mkNpar k Full 1 false (/ 1000000000000) 0.3 (/ 10000000) (fun _ => (fun _ => 1, ident)) demo_normal (fun _ => 1 / 2)
    (map (fun v => 2 * v)) (fun x => x) (fun _ => None) (fun x => x).
(** The calls of a numerical gradient are in the log. *)
Lemma ask_grad_log (p : npar) (e : env R num) g s pop s' x : g_gradient g = true -> e_gfunc e = false -> g_tpa g <> 2%Z ->
  e_pheno e (tab (k_dim (p_k p)) (mean_of s)) = Ok x -> ask (cma_num p) e g s = Ok (pop, s') ->
  t_log s' = t_log s ++ eval_from e (length (t_log s)) (x :: map (fun i => grad_point p i x) (seq 0 (g_dim g))).
Proof.
  intros G1 G2 G3 EX H. unfold ask in H. rewrite G1 in H.
  destruct (n_sample _ _ _) as [pop0 n2] eqn:Es.
  assert (XM : n_xmean (cma_num p) n2 = tab (k_dim (p_k p)) (mean_of s)).
  { cbn [n_sample cma_num] in Es. unfold sample_num in Es. injection Es as _ <-. cbn [n_xmean cma_num with_pos x_mean n_eigen].
    f_equal. unfold eigen_num. destruct (_ || _)%bool; [reflexivity|]. destruct (_ || _ || _)%bool; reflexivity. }
  cbn [t_sol set_t_sol s_num set_s_num] in H. rewrite XM, EX in H. cbn [bind] in H.
  destruct (gradf _ _ _ _ _) as [gr s2] eqn:G. unfold gradf in G. rewrite G2 in G. destruct (calls _ _ _) as [vs s3] eqn:CL. injection G as <- <-.
  apply calls_spec in CL as [CL _].
  assert (TP : (g_tpa g =? 2)%Z = false) by (apply Z.eqb_neq; exact G3).
  assert (L : t_log s' = t_log s3).
  { rewrite TP in H. cbn [andb] in H. destruct (n_gradcol _ _ _).
    - apply bind_ok in H as ([p2 s4] & H1 & H). apply bind_ok in H1 as (p5 & _ & H1). apply Ok_inj in H1. injection H1 as <- <-. cbn [bind] in H.
      apply bind_ok in H as (p4 & _ & H). apply Ok_inj in H. injection H as _ <-. reflexivity.
    - cbn [bind] in H. apply bind_ok in H as (p4 & _ & H). apply Ok_inj in H. injection H as _ <-. reflexivity. }
  rewrite L, CL. reflexivity.
Qed.
Lemma fixed_gradient : exists p e g x0 n s0 pop s y v, constructed (p_k p) /\ same_problem p g /\ fixed_ok p /\ (forall x, p_scale p x = x) /\
  (forall x, e_pheno e x = Ok x) /\ g_gradient g = true /\
  st_new (cma_num p) g x0 n = Ok s0 /\ ask (cma_num p) e g s0 = Ok (pop, s) /\ In (y, v) (t_log s) /\ ~ has_fixed (g_fixed g) y.
Proof.
  pose (p := npar_of kfix Full). pose (g := set_g_gradient true (cfg_of kfix)).
  assert (E0 : exists s0, st_new (cma_num p) g [1] num0 = Ok s0) by (eexists; reflexivity). destruct E0 as [s0 E0].
  assert (HD : dims_ok (cma_num p) g) by (apply dims_of; reflexivity).
  assert (HP : pheno_total flat_env g) by (intros x _; cbn; eauto).
  assert (HF : fixed_in_range g). { intros i v [Q|[]]. injection Q as <- <-. cbn. lia. }
  assert (HR : room g) by (split; [cbn; lia|cbn; discriminate]).
  destruct (SafeProofs.ask_safe (cma_num p) flat_env g HD HP HF HR s0 (SafeProofs.sinv_new (cma_num p) g _ _ _ E0)) as (pop & s & E & _ & _).
  assert (M : mean_of s0 = x_mean (new_num p [1] num0)) by (apply st_new_num in E0; unfold mean_of; rewrite E0; reflexivity).
  assert (G3 : g_tpa g <> 2%Z) by discriminate.
  pose proof (ask_grad_log p flat_env g s0 pop s _ eq_refl eq_refl G3 eq_refl E) as L.
  set (y := grad_point p 0 (tab (k_dim (p_k p)) (mean_of s0))) in *.
  assert (V : exists v, In (y, v) (t_log s)).
  { rewrite L. rewrite eval_from_cons. change (g_dim g) with 1%nat. cbn [seq map]. rewrite eval_from_cons. eexists. apply in_or_app. right. right. left. reflexivity. }
  destruct V as [v V]. exists p, flat_env, g, [1], num0, s0, pop, s, y, v.
  split; [apply kfix_constructed|]. split; [repeat split|].
  split. { split; [repeat constructor; intros []|]. intros i v' [Q|[]]. injection Q as <- <-. cbn. lia. }
  split; [reflexivity|]. split; [reflexivity|]. split; [reflexivity|]. split; [exact E0|]. split; [exact E|]. split; [exact V|].
  intros Q. specialize (Q 0%Z 3 (or_introl eq_refl)). unfold y in Q. rewrite M in Q. cbn in Q. injection Q as Q. unfold eps_at in Q. cbn in Q. rewrite Rabs_pos_eq in Q by lra. lra.
Qed.

(** ** Instances for the examples *)
Definition k24 : cpar := cma_params 2 4.
Lemma k24_constructed : constructed k24.
Proof. exists 2%nat, 4%nat, []. repeat split; cbn; lia. Qed.
Lemma k24_sep_constructed : constructed (set_sep k24).
Proof. exists 2%nat, 4%nat, [Sep]. repeat split; cbn; lia. Qed.
Lemma muw_2 : 1 <= muw_of 2 <= 2.
Proof. pose proof (muw_bounds 2 (le_S _ _ (le_n _))). cbn [INR] in H. lra. Qed.
Lemma muw_2_poly : muw_of 2 - 2 + 1 / muw_of 2 <= 1.
Proof.
  pose proof muw_2. assert (1 / muw_of 2 <= 1); [|lra]. apply Rmult_le_reg_r with (muw_of 2); [lra|].
  unfold Rdiv. rewrite Rmult_assoc, Rinv_l by lra. lra.
Qed.
Lemma div_le a b c : 0 < b -> a <= c * b -> a / b <= c.
Proof. intros H1 H2. apply Rmult_le_reg_r with b; auto. unfold Rdiv. rewrite Rmult_assoc, Rinv_l by lra. lra. Qed.
Lemma k24_rates : k_c1 k24 + k_cmu k24 < 1.
Proof.
  change (k_c1 k24) with (2 / ((2 + 1.3) * (2 + 1.3) + muw_of 2)).
  change (k_cmu k24) with (Rmin (1 - 2 / ((2 + 1.3) * (2 + 1.3) + muw_of 2)) (2 * (muw_of 2 - 2 + 1 / muw_of 2) / ((2 + 2) * (2 + 2) + muw_of 2))).
  pose proof muw_2. pose proof muw_2_poly.
  assert (2 / ((2 + 1.3) * (2 + 1.3) + muw_of 2) <= 1 / 4) by (apply div_le; lra).
  assert (2 * (muw_of 2 - 2 + 1 / muw_of 2) / ((2 + 2) * (2 + 2) + muw_of 2) <= 1 / 4) by (apply div_le; lra).
  pose proof (Rmin_r (1 - 2 / ((2 + 1.3) * (2 + 1.3) + muw_of 2)) (2 * (muw_of 2 - 2 + 1 / muw_of 2) / ((2 + 2) * (2 + 2) + muw_of 2))). lra.
Qed.
Lemma k24_sep_rates : k_c1 (set_sep k24) + k_cmu (set_sep k24) < 1.
Proof.
  set (c1 := k_c1 (set_sep k24)).
  change (k_cmu (set_sep k24)) with (Rmin (1 - c1) ((0.3 + muw_of 2 - 2 + 1 / muw_of 2) / (2 + 4 * sqrt 2 + muw_of 2 / 2))).
  pose proof muw_2. pose proof muw_2_poly.
  assert (c1 <= 1 / 2).
  { change c1 with (2 / ((2 + 1.3) * (2 + 1.3) + muw_of 2) * ((2 + 2) / 3)).
    assert (2 / ((2 + 1.3) * (2 + 1.3) + muw_of 2) <= 1 / 4) by (apply div_le; lra). lra. }
  assert (1 <= sqrt 2) by (rewrite <- sqrt_1 at 1; apply sqrt_le_1; lra).
  assert ((0.3 + muw_of 2 - 2 + 1 / muw_of 2) / (2 + 4 * sqrt 2 + muw_of 2 / 2) <= 1 / 4) by (apply div_le; lra).
  pose proof (Rmin_r (1 - c1) ((0.3 + muw_of 2 - 2 + 1 / muw_of 2) / (2 + 4 * sqrt 2 + muw_of 2 / 2))). lra.
Qed.
Definition h24 : list (op R) := [OAsk; OGen [[1; 2]; [3; 1]; [0; 2]; [1; 5]] []; OStop; OAsk; OGen [[1; 1]; [1; 0]; [4; 4]; [0; 5]] []].
Lemma run24 k fl : k_lambda k = 4%nat -> k_fixed k = [] -> exists s0 s, st_new (cma_num (npar_of k fl)) (cfg_of k) [1; 2] num0 = Ok s0 /\
  run_ops (cma_num (npar_of k fl)) (call_env zig) (cfg_of k) h24 s0 = Ok s.
Proof.
  intros L F. destruct (new_ok (npar_of k fl) ltac:(cbn; lia) [1; 2] num0) as [s0 E0]. exists s0.
  assert (A : (2 <= k_lambda (p_k (npar_of k fl)))%nat) by (cbn; lia).
  assert (B : forall i v, In (i, v) (k_fixed (p_k (npar_of k fl))) -> (0 <= i < Z.of_nat (k_dim (p_k (npar_of k fl))))%Z) by (intros i v H; cbn in H; rewrite F in H; destruct H).
  destruct (runs_ok (npar_of k fl) A B zig h24 eq_refl [1; 2] num0 s0 E0) as [s E]; [|exists s; auto].
  repeat constructor; cbn; auto.
Qed.
Lemma h24_iters : Forall (okop (fun _ => True)) h24.
Proof. repeat constructor. Qed.
