(** Lemmas behind PropsTpa.v in the form of the property theorems. *)
From Coq Require Import Reals List Lia Lra Psatz Permutation ZArith.
From Verif Require Import Base Dbl Vec VecProofs Params SpecParams ParamSound Config Search SpecSearch SpecSafe SpecUh SortProofs SearchInv StopProofs NumInv CounterProofs SearchThms2 SafeProofs Demo DemoProofs.
From Verif Require Import Update SpecUpdate UpdateProofs UpdateProofs2 Corr CorrProofs ActiveProofs ActiveThms DemoNum DemoNumProofs NumThms SpecSample SampleProofs SampleThms SpecTpa TpaProofs TpaPoints.
Import ListNotations.
Local Open Scope R_scope.

Lemma diag_pd n v : (forall i, (i < n)%nat -> 0 < v i) -> pos_def n (diag v).
Proof.
  intros H x (i & Hi & Hx). unfold quad, dot, mv.
  rewrite (rsum_ext n _ (fun i => x i * x i * v i)).
  - apply rsum_pos with (i := i); auto; [assert (0 < x i * x i) by nra; specialize (H i Hi); nra|].
    intros j Hj. specialize (H j Hj). nra.
  - intros j Hj. rewrite (rsum_single n _ j Hj).
    + unfold diag. rewrite Nat.eqb_refl. ring.
    + intros l _ Hl. unfold diag. destruct (Nat.eqb_spec j l); [congruence|ring].
Qed.
Lemma run_app {T N} (no : numops T N) e g h1 h2 : forall s s1, run_ops no e g h1 s = Ok s1 -> run_ops no e g (h1 ++ h2) s = run_ops no e g h2 s1.
Proof.
  induction h1 as [|o h1 IH]; intros s s1 H; cbn [run_ops app] in *; [apply Ok_inj in H; subst; reflexivity|].
  apply bind_ok in H as (s2 & H & H'). rewrite H. cbn [bind]. auto.
Qed.
Lemma iter_nonneg {T N} (no : numops T N) e g h x0 n0 s0 s : st_new no g x0 n0 = Ok s0 -> Forall (okop (fun _ => True)) h -> run_ops no e g h s0 = Ok s ->
  t_niter s = s_niter (t_sol s) /\ (0 <= t_niter s)%Z.
Proof.
  intros H0 W H. edestruct (iter_ops no e g) as [A B]; [exact W| |exact H|exact A].
  apply st_new_spec in H0 as (_ & so & H0 & ->). apply sol_new_spec in H0 as (_ & ->). split; [split; reflexivity|intros _; reflexivity].
Qed.
Lemma gen_iters {T N} (no : numops T N) e g cols phen prev s : run_ops no e g [OGen cols phen] prev = Ok s -> t_niter s = (t_niter prev + 1)%Z.
Proof.
  cbn [run_ops do_op]. intros H. apply bind_ok in H as (s1' & H & H'). apply Ok_inj in H'. subst s1'.
  apply bind_ok in H as (s1 & H1 & H). apply bind_ok in H as (s2 & H2 & H). apply Ok_inj in H. subst s.
  apply eval_spec in H1 as (_ & _ & K & _). apply keep_iter in K as [_ K]. apply tell_effect in H2 as (_ & _ & _ & I2 & _). cbn. lia.
Qed.
Section Mirror.
Variables (p : npar) (e : env R num) (g : cfg R).
Variables (h : list (op R)) (cols phen : list (list R)) (x0 : list R) (n0 : num) (s0 prev s : st R num) (pop : list (list R)) (s' : st R num).
Hypothesis C : constructed (p_k p).
Hypothesis KT : k_tpa (p_k p) = 2%Z.
Hypothesis HT : g_tpa g = 2%Z.
Hypothesis G : same_problem p g.
Hypothesis H0 : st_new (cma_num p) g x0 n0 = Ok s0.
Hypothesis W : Forall (okop (fun _ => True)) h.
Hypothesis R1 : run_ops (cma_num p) e g h s0 = Ok prev.
Hypothesis R2 : run_ops (cma_num p) e g [OGen cols phen] prev = Ok s.
Hypothesis M : exists i, (i < k_dim (p_k p))%nat /\ mean_of s i <> mean_of prev i.
Hypothesis A : ask (cma_num p) e g s = Ok (pop, s').
Lemma both_run : run_ops (cma_num p) e g (h ++ [OGen cols phen]) s0 = Ok s.
Proof using R1 R2. rewrite (run_app _ _ _ _ _ _ _ R1). exact R2. Qed.
Lemma mirror_with : (k_sep (p_k p) = false -> p_lazy p = false /\ eigensolver_ok p /\ symmetric (k_dim (p_k p)) (cov_of s)) ->
  pos_def (k_dim (p_k p)) (full_cov p (s_num (t_sol s))) ->
  mirrored_pair p g prev s pop (fun i => p_normal p (drawn s + k_lambda (p_k p) * k_dim (p_k p) + i)%nat).
Proof using C KT HT G H0 W R1 R2 M A.
  intros S P. destruct (iter_nonneg _ _ _ _ _ _ _ _ H0 W R1) as [_ I]. pose proof (gen_iters _ _ _ _ _ _ _ R2) as I2.
  apply (pair_points p e g cols phen prev s pop s'); auto.
  - right. rewrite KT. discriminate.
  - exact (constructed_vd _ C).
  - lia.
  - eapply pair_ops; [|exact both_run]. eapply pair_new; eauto.
  - pose proof (constructed_sound _ C) as (HD1 & _ & _ & HA1). apply (sigma_positive p HD1 HA1 e g (h ++ [OGen cols phen]) s0 s); [econstructor; eauto|exact both_run].
Qed.
Lemma mirror_full : p_upd p = Full -> p_lazy p = false -> eigensolver_ok p -> k_c1 (p_k p) + k_cmu (p_k p) < 1 ->
  mirrored_pair p g prev s pop (fun i => p_normal p (drawn s + k_lambda (p_k p) * k_dim (p_k p) + i)%nat).
Proof using C KT HT G H0 W R1 R2 M A.
  intros F L E R. pose proof both_run as R3. assert (ST : started p e g s0) by (econstructor; eauto). apply mirror_with.
  - intros _. split; [exact L|]. split; [exact E|]. eapply cov_psd_thm; eauto.
  - unfold full_cov. rewrite (constructed_vd _ C). destruct (k_sep (p_k p)); cbn [orb negb].
    + apply diag_pd. intros i _. eapply sep_pos_thm; eauto.
    + eapply cov_pd_thm; eauto.
Qed.
Lemma mirror_active : p_upd p = Active -> p_lazy p = false -> eigensolver_ok p -> k_c1 (p_k p) + 0.66 * k_cmu (p_k p) < 0.66 ->
  asked false (h ++ [OGen cols phen]) ->
  mirrored_pair p g prev s pop (fun i => p_normal p (drawn s + k_lambda (p_k p) * k_dim (p_k p) + i)%nat).
Proof using C KT HT G H0 W R1 R2 M A.
  intros F L E R Q. pose proof both_run as R3. assert (ST : started p e g s0) by (econstructor; eauto). pose proof (constructed_vd _ C) as V. apply mirror_with.
  - intros S. split; [exact L|]. split; [exact E|]. eapply active_pd_thm with (h := h ++ [OGen cols phen]); eauto.
  - unfold full_cov. rewrite V. destruct (k_sep (p_k p)) eqn:S; cbn [orb negb].
    + apply diag_pd. intros i Hi. eapply active_sep_thm with (h := h ++ [OGen cols phen]); eauto.
    + eapply active_pd_thm with (h := h ++ [OGen cols phen]); eauto.
Qed.
End Mirror.
(** The effect on the step size. *)
Lemma ask_sigma p e g s pop s' : ask (cma_num p) e g s = Ok (pop, s') -> sigma_of s' = sigma_of s.
Proof.
  intros H. unfold sigma_of. apply (NumInv.ask_num (cma_num p) e g (fun n => x_sigma n = x_sigma (s_num (t_sol s)))) in H; auto.
  intros i n <-. cbn [cma_num n_eigen]. unfold eigen_num. destruct (_ || _); [reflexivity|]. destruct (_ || _ || _); reflexivity.
Qed.
Lemma effect_thm p e g h x0 n0 s0 s1 pop s2 cols phen s : no_elitism g -> g_uh g = false -> g_tpa g = 2%Z -> k_tpa (p_k p) = 2%Z -> g_lambda g = k_lambda (p_k p) ->
  room g -> std_sort_ok e -> 0 <= p_tpac p <= 1 -> st_new (cma_num p) g x0 n0 = Ok s0 -> Forall (whole_gen g) h -> run_ops (cma_num p) e g h s0 = Ok s1 ->
  (0 < s_niter (t_sol s1))%Z -> ask (cma_num p) e g s1 = Ok (pop, s2) -> length cols = g_lambda g -> run_ops (cma_num p) e g [OGen cols phen] s2 = Ok s ->
  exists r1 r2, ranked_at s cols (pair_first g) r1 /\ ranked_at s cols (S (pair_first g)) r2 /\
    path_of s = (1 - p_tpac p) * path_of s1 + p_tpac p * (INR r2 - INR r1) / (INR (g_lambda g) - 1) /\
    sigma_of s = sigma_of s1 * exp (path_of s / k_dsigma (p_k p)).
Proof.
  intros HE HU HT KT HL HR HS HC H0 W R HI A LC R2.
  assert (WO : Forall (okop (fun _ => True)) h). { eapply Forall_impl; [|exact W]. intros []; cbn; auto. }
  destruct (iter_nonneg _ _ _ _ _ _ _ _ H0 WO R) as [I1 _].
  assert (PO : pair_ok g s1) by (eapply pair_ops; [eapply pair_new; eauto|exact R]).
  destruct (ask_ids _ _ _ _ _ _ A HT ltac:(lia) PO) as [T1 T2].
  assert (LEN : length (s_cands (t_sol s2)) = length cols).
  { assert (R' : run_ops (cma_num p) e g (h ++ [OAsk]) s0 = Ok s2) by (rewrite (run_app _ _ _ _ _ _ _ R); cbn [run_ops do_op]; rewrite A; reflexivity).
    rewrite LC. apply (path_ops p e g HE HL HR HS HC (h ++ [OAsk]) s0 s2); [|apply (new_P p g HL HR x0 n0); exact H0|exact R'].
    apply Forall_app. split; [eapply Forall_impl; [|exact W]; intros []; cbn; auto|repeat constructor]. }
  assert (KK : t_niter s2 = t_niter s1 /\ s_niter (t_sol s2) = s_niter (t_sol s1)). { pose proof A as A'. apply ask_spec in A' as ((K & _) & _). apply keep_iter in K as [? ?]. auto. }
  assert (PF : (S (pair_first g) < length cols)%nat). { rewrite LC. destruct HR as [HR1 HR2]. unfold pair_first. destruct (g_gradient g); [specialize (HR2 eq_refl HT)|]; lia. }
  destruct (gen_step p e g cols phen s2 s (pair_first g) HE HU HT KT LEN PF ltac:(lia) ltac:(lia) T1 T2 R2) as (r1 & r2 & A1 & A2 & A3 & A4).
  exists r1, r2. split; [exact A1|]. split; [exact A2|]. rewrite HL. unfold path_of in A3 |- *. rewrite (ask_tpas p e g _ _ _ A) in A3. split; [exact A3|].
  rewrite A4, (ask_sigma p e g _ _ _ A). reflexivity.
Qed.

(** VD-CMA: the shift is measured with D alone, and its square root. *)
Definition kvd5 : cpar := set_vd (set_algo 12 (set_tpa 2 (cma_params 5 4))).
Definition pvd (k : cpar) : npar :=
  mkNpar k Vd 1 false (/ 1000000000000) 0.3 (/ 10000000) (fun _ => (fun _ => 1, ident)) (fun _ => 1) (fun _ => 1 / 2)
    (fun x => x) (fun x => x) (fun _ => None) (fun x => x).
Lemma vd_first p e g s pop s' a i : k_vd (p_k p) = true -> g_tpa g = 2%Z -> (0 < t_niter s)%Z -> pair_ok g s -> ask (cma_num p) e g s = Ok (pop, s') ->
  nth_error pop (pair_first g) = Some a -> ~ is_fixed g i -> (i < k_dim (p_k p))%nat ->
  nth_error a i = Some (mean_of s i + norm (k_dim (p_k p)) (fun j => p_normal p (drawn s + g_lambda g * k_dim (p_k p) + j)%nat) *
    ((mean_of s i - x_prev (s_num (t_sol s)) i) / shift_norm p (s_num (t_sol s)))).
Proof.
  intros HV HT HI HP A Ha Hf Hi. set (n0 := s_num (t_sol s)). set (n1 := with_solver n0 (x_fresh n0) (x_eigiter n0) (x_mean n0) (x_dec n0)).
  set (n2 := with_pos n1 (x_pos n0 + g_lambda g * k_dim (p_k p))%nat (x_upos n0)).
  assert (EN : n_eigen (cma_num p) (t_niter s) n0 = n1) by (cbn [cma_num n_eigen]; unfold eigen_num; rewrite HV, orb_true_r; reflexivity).
  assert (Es : exists pop0, n_sample (cma_num p) (g_lambda g) (n_eigen (cma_num p) (t_niter s) n0) = (pop0, n2)) by (rewrite EN; eexists; reflexivity).
  destruct Es as [pop0 Es]. destruct (ask_pair (cma_num p) e g s pop s' pop0 n2 _ _ _ A Es eq_refl HT HI HP) as (a' & b' & Ha' & _ & Q).
  rewrite Ha in Ha'. injection Ha' as <-. destruct (Q i Hf) as [-> _].
  rewrite (nth_error_nth' _ 0) by (rewrite tab_length; exact Hi). f_equal. fold (at0 (tab (k_dim (p_k p)) (fun i => x_mean n2 i + norm (k_dim (p_k p)) (fun j => p_normal p (x_pos n2 + j)%nat) * ((x_mean n2 i - x_prev n2 i) / shift_norm p n2))) i).
  rewrite at0_tab by exact Hi. reflexivity.
Qed.
Lemma vd_rates0 q : k_algo q = 12%Z -> k_dim q = 5%nat -> k_c1 (set_vd q) = 0 /\ k_cmu (set_vd q) = 0.
Proof.
  intros A D. unfold set_vd. rewrite A, D. cbn [Z.eqb Pos.eqb orb k_c1 k_cmu].
  replace ((INR 5 - 5) / 6) with 0 by (cbn [INR]; lra). rewrite Rmult_0_l, Rmult_0_r. split; [reflexivity|]. apply Rmin_right. lra.
Qed.
Lemma norm_ones : norm 5 (fun _ => 1) = sqrt 5.
Proof. unfold norm, dot. cbn [rsum]. f_equal. ring. Qed.
Section VdPair.
Variable k : cpar.
Hypothesis KD : k_dim k = 5%nat.
Hypothesis KL : k_lambda k = 4%nat.
Hypothesis KM : k_mu k = 2%nat.
Hypothesis KC1 : k_c1 k = 0.
Hypothesis KCM : k_cmu k = 0.
Hypothesis KW : length (k_w k) = 2%nat /\ sumR (k_w k) = 1.
Hypothesis KT : k_tpa k = 2%Z.
Hypothesis KV : k_vd k = true.
Hypothesis KF : k_fixed k = [].
Let p := pvd k.
Let g := cfg_of k.
Let x0 := repeat 0 5.
Let cols := repeat (repeat 1 5) 4.
Lemma vd_state : exists s0 s pop s', st_new (cma_num p) g x0 num0 = Ok s0 /\ run_ops (cma_num p) flat_env g [OGen cols []] s0 = Ok s /\
  ask (cma_num p) flat_env g s = Ok (pop, s') /\ t_niter s = 1%Z /\ s_num (t_sol s0) = new_num p x0 num0 /\ s_num (t_sol s) = update_num p 0 cols (new_num p x0 num0) /\ pair_ok g s.
Proof using KL KF.
  clear KD KM KC1 KCM KW KT KV.
  assert (HL : (2 <= k_lambda (p_k p))%nat) by (cbn; lia).
  assert (HF : forall i v, In (i, v) (k_fixed (p_k p)) -> (0 <= i < Z.of_nat (k_dim (p_k p)))%Z) by (cbn; rewrite KF; intros i v []).
  destruct (flat_generation p HL HF cols x0 num0) as (s0 & s & E0 & E & N & I); [cbn; rewrite KL; reflexivity|]. change (cfg_of (p_k p)) with g in *.
  pose proof (sinv_new (cma_num p) g x0 num0 s0 E0) as I0.
  assert (HP : pheno_total flat_env g) by (intros x _; cbn; eauto).
  assert (IS : sinv g s).
  { assert (W : Forall (proper_op g) [OGen cols []]) by (repeat apply Forall_cons; try apply Forall_nil; cbn; auto).
    pose proof (call_env_real (fun _ => 0%Z)) as HV. assert (HE : elitism_le1 g) by (split; reflexivity).
    destruct (ops_safe (cma_num p) flat_env g HV (dims_of p g eq_refl) HP HF (cfg_room p HL) HE eq_refl [OGen cols []] s0 W I0) as [(s2 & R & J)|R]; [pose proof (Ok_inj _ _ (eq_trans (eq_sym R) E)) as ->; exact J|discriminate (eq_trans (eq_sym R) E)]. }
  destruct (ask_safe (cma_num p) flat_env g (dims_of p g eq_refl) HP HF (cfg_room p HL) s IS) as (pop & s' & A & _ & _).
  exists s0, s, pop, s'. split; [exact E0|]. split; [exact E|]. split; [exact A|]. split; [rewrite <- I; apply IS|].
  split; [apply st_new_num in E0; exact E0|]. split; [exact N|]. eapply pair_ops; [eapply pair_new; eauto|exact E].
Qed.
Lemma vd_mean i : (i < 5)%nat -> new_mean p cols (new_num p x0 num0) i = 1.
Proof using KM KW.
  clear KD KL KC1 KCM KT KV KF.
  intros Hi. unfold new_mean. cbn [p pvd p_upd p_k]. rewrite KM. destruct KW as [W1 W2].
  assert (P1 : forall c, (c < 2)%nat -> pt cols c i = 1).
  { intros c Hc. unfold pt, at0, cols. destruct c as [|[|]]; [| |lia]; do 5 (destruct i as [|i]; [reflexivity|]); lia. }
  cbn [rsum]. rewrite !P1 by lia. unfold wgt. cbn [p pvd p_k]. destruct (k_w k) as [|a [|b [|]]]; try discriminate W1. cbn [nth sumR fold_right] in *. lra.
Qed.
Lemma vd_init i : (i < 5)%nat -> x_mean (new_num p x0 num0) i = 0.
Proof using KD KF.
  clear KL KM KC1 KCM KW KT KV.
  intros Hi. cbn [new_num x_mean]. unfold init_mean. cbn [p pvd p_scale p_k]. rewrite KF, KD. rewrite at0_tab by exact Hi. cbn [put_fixed fold_left]. unfold x0. apply nth_repeat.
Qed.
Lemma vd_num : let n := update_num p 0 cols (new_num p x0 num0) in
  (forall i, (i < 5)%nat -> x_mean n i = 1) /\ (forall i, (i < 5)%nat -> x_prev n i = 0) /\ x_sigma n = 1 /\ (forall i, x_v n i = 1 / sqrt (INR 5)) /\ (forall i, x_sep n i = 1).
Proof using KD KM KW KC1 KCM KT KV KF.
  assert (VT : vd_test p 0 cols (new_num p x0 num0) = false).
  { unfold vd_test. cbn [p pvd p_k]. rewrite KC1, KCM. destruct (Rlt_dec _ _) as [B|]; [exfalso; revert B; rewrite Rmult_0_l; lra|reflexivity]. }
  cbv zeta. unfold update_num. cbn [x_mean x_prev x_sigma x_v x_sep]. change (p_upd p) with Vd. cbv iota. change (p_k p) with k. rewrite KT.
  change (2 =? 0)%Z with false. cbv iota.
  split; [exact vd_mean|]. split; [exact vd_init|]. split.
  { unfold new_sigma. change (p_k p) with k. rewrite KT. change (2 <? 2)%Z with false. change (0 <? 0)%Z with false. cbv iota. cbn [new_num x_sigma].
    unfold init_sigma. cbn [p pvd p_sigma0]. destruct (Rlt_dec 0 1) as [_|B]; [reflexivity|exfalso; lra]. }
  unfold new_v, new_vd_sep. rewrite VT. cbn [new_num x_v x_sep]. change (p_k p) with k. rewrite KV. unfold init_v. change (p_k p) with k. rewrite KD. split; intros i; reflexivity.
Qed.
Lemma vd_other s0 s pop s' : ask (cma_num p) flat_env g s = Ok (pop, s') -> t_niter s = 1%Z -> s_num (t_sol s0) = new_num p x0 num0 ->
  s_num (t_sol s) = update_num p 0 cols (new_num p x0 num0) -> pair_ok g s ->
  ~ mirrored_pair p g s0 s pop (fun i => p_normal p (drawn s + k_lambda (p_k p) * k_dim (p_k p) + i)%nat).
Proof using KD KL KM KW KC1 KCM KT KV KF.
  intros A TN N0 N PO (a & b & t & Ha & _ & _ & PT & u & MV & DT). destruct vd_num as (M & XP & SG & XV & XS). cbv zeta in M, XP, SG, XV, XS. rewrite <- N in M, XP, SG, XV, XS.
  assert (M0 : forall i, (i < 5)%nat -> mean_of s0 i = 0) by (intros i Hi; unfold mean_of; rewrite N0; apply vd_init, Hi).
  fold (mean_of s) in M. fold (sigma_of s) in SG.
  assert (NF : forall i, ~ is_fixed g i). { intros i (v & Hv). cbn [g cfg_of g_fixed] in Hv. rewrite KF in Hv. destruct Hv. }
  change (p_k p) with k in *. rewrite KD in *.
  assert (S5 : 0 < sqrt (INR 5)) by (apply sqrt_lt_R0; cbn [INR]; lra).
  assert (Q5 : sqrt (INR 5) * sqrt (INR 5) = 5) by (rewrite sqrt_sqrt; cbn [INR]; lra).
  assert (T1 : t = 1).
  { destruct (PT 0%nat ltac:(lia) (NF _)) as [P1 _].
    pose proof (vd_first p flat_env g s pop s' a 0%nat KV KT ltac:(lia) PO A Ha (NF _) ltac:(change (p_k p) with k; lia)) as P2.
    rewrite P1 in P2. change (p_k p) with k in P2. rewrite KD in P2. change (p_normal p) with (fun _ : nat => 1) in P2. cbv beta in P2. injection P2 as P3.
    assert (SN : shift_norm p (s_num (t_sol s)) = sqrt (INR 5)).
    { unfold shift_norm. change (p_k p) with k. rewrite KV, orb_true_r, KD. fold (sigma_of s). rewrite SG.
      replace (norm 5 _) with (norm 5 (fun _ => 1)); [rewrite norm_ones; replace (INR 5) with 5 by (cbn [INR]; lra); field|].
      unfold norm, dot. f_equal. apply rsum_ext. intros i Hi. fold (mean_of s). rewrite M, XP, XS, sqrt_1 by exact Hi. field. }
    rewrite SN, M, M0, XP, norm_ones in P3 by lia. replace (sqrt 5) with (sqrt (INR 5)) in P3 by (f_equal; cbn [INR]; lra).
    replace (sqrt (INR 5) * ((1 - 0) / sqrt (INR 5))) with 1 in P3 by (field; lra). lra. }
  subst t.
  assert (ZS : forall i, (i < 5)%nat -> 1 * (mean_of s i - mean_of s0 i) = 1) by (intros i Hi; rewrite M, M0 by exact Hi; ring).
  assert (U : forall i, (i < 5)%nat -> u i + dot 5 u (fun _ => 1) / 5 = 1).
  { intros i Hi. pose proof (ZS i Hi) as Z1. rewrite <- (MV i Hi) in Z1. refine (eq_trans _ Z1). unfold mv.
    rewrite (rsum_ext 5 _ (fun j => ident i j * u j + / 5 * (u j * 1))).
    - rewrite rsum_plus, rsum_scal. fold (mv 5 ident u i). rewrite mv_ident by exact Hi. change (rsum 5 (fun j => u j * 1)) with (dot 5 u (fun _ => 1)). unfold Rdiv. ring.
    - intros j _. unfold full_cov. change (p_k p) with k. rewrite KV, orb_true_r. cbn [negb]. unfold vd_cov. rewrite !XS, !XV. unfold ident, diag. cbv beta.
      replace (1 / sqrt (INR 5) * (1 / sqrt (INR 5))) with (/ 5); [destruct (Nat.eqb i j); field|]. rewrite <- Q5. field. lra. }
  assert (D1 : dot 5 u (fun _ => 1) = 5 / 2).
  { assert (X : dot 5 u (fun _ => 1) = u 0%nat + u 1%nat + u 2%nat + u 3%nat + u 4%nat) by (unfold dot; cbn [rsum]; ring).
    pose proof (U 0%nat ltac:(lia)). pose proof (U 1%nat ltac:(lia)). pose proof (U 2%nat ltac:(lia)). pose proof (U 3%nat ltac:(lia)). pose proof (U 4%nat ltac:(lia)). lra. }
  assert (D2 : dot 5 (fun i => 1 * (mean_of s i - mean_of s0 i)) u = 5 / 2).
  { rewrite <- D1. unfold dot. apply rsum_ext. intros i Hi. rewrite ZS by exact Hi. ring. }
  rewrite D2, SG in DT. change (p_normal p) with (fun _ : nat => 1) in DT. unfold dot in DT. cbn [rsum] in DT. lra.
Qed.
End VdPair.
Lemma vd_pair : exists p e g x0 n cols s0 s pop s', k_vd (p_k p) = true /\ k_tpa (p_k p) = 2%Z /\ g_tpa g = 2%Z /\ same_problem p g /\
  st_new (cma_num p) g x0 n = Ok s0 /\ run_ops (cma_num p) e g [OGen cols []] s0 = Ok s /\ ask (cma_num p) e g s = Ok (pop, s') /\
  (forall i, (i < k_dim (p_k p))%nat -> mean_of s i <> mean_of s0 i) /\
  ~ mirrored_pair p g s0 s pop (fun i => p_normal p (drawn s + k_lambda (p_k p) * k_dim (p_k p) + i)%nat).
Proof.
  destruct (vd_rates0 (set_algo 12 (set_tpa 2 (cma_params 5 4))) eq_refl eq_refl) as [C0 CM]. fold kvd5 in C0, CM.
  assert (W : length (k_w kvd5) = 2%nat /\ sumR (k_w kvd5) = 1).
  { assert (W : good_weights (cma_params 5 4)) by (apply constructed_sound; exists 5%nat, 4%nat, []; split; [lia|split; [lia|split; [cbn; lia|reflexivity]]]).
    destruct W as (W1 & _ & _ & _ & W2). split; [exact W1|exact W2]. }
  assert (E1 : k_dim kvd5 = 5%nat) by reflexivity. assert (E2 : k_lambda kvd5 = 4%nat) by reflexivity. assert (E3 : k_mu kvd5 = 2%nat) by reflexivity.
  assert (E4 : k_tpa kvd5 = 2%Z) by reflexivity. assert (E5 : k_vd kvd5 = true) by reflexivity. assert (E6 : k_fixed kvd5 = []) by reflexivity.
  generalize dependent kvd5. intros k C0 CM W E1 E2 E3 E4 E5 E6.
  destruct (vd_state k E2 E6) as (s0 & s & pop & s' & A0 & A1 & A2 & A3 & A4 & A5 & A6).
  exists (pvd k), flat_env, (cfg_of k), (repeat 0 5), num0, (repeat (repeat 1 5) 4), s0, s, pop, s'. split; [exact E5|]. split; [exact E4|]. split; [exact E4|]. split; [split; [|split]; reflexivity|].
  split; [exact A0|]. split; [exact A1|]. split; [exact A2|]. split.
  - intros i Hi. cbn [pvd p_k] in Hi. rewrite E1 in Hi. destruct (vd_num k E1 E3 C0 CM W E4 E5 E6) as (M & _). unfold mean_of. rewrite A5, A4, (M i Hi), (vd_init k E1 E6 i Hi). lra.
  - exact (vd_other k E1 E2 E3 C0 CM W E4 E5 E6 s0 s pop s' A2 A3 A4 A5 A6).
Qed.

(** Instances. *)
Definition k24t : cpar := set_tpa 2 k24.
Lemma k24t_constructed : constructed k24t.
Proof. exists 2%nat, 4%nat, [Tpa 2]. repeat split; cbn; lia. Qed.
Definition moved_cols : list (list R) := repeat [3; 3] 4.
Lemma mirror_instance fl : fl <> Vd -> let p := npar_eig k24t fl eig2 in let g := cfg_of k24t in exists s0 prev s pop s',
  st_new (cma_num p) g [1; 2] num0 = Ok s0 /\ run_ops (cma_num p) flat_env g [OAsk] s0 = Ok prev /\ run_ops (cma_num p) flat_env g [OGen moved_cols []] prev = Ok s /\
  (exists i, (i < k_dim (p_k p))%nat /\ mean_of s i <> mean_of prev i) /\ ask (cma_num p) flat_env g s = Ok (pop, s').
Proof.
  intros NV p g.
  assert (HL : (2 <= k_lambda (p_k p))%nat) by (cbn; lia).
  assert (HF : forall i v, In (i, v) (k_fixed (p_k p)) -> (0 <= i < Z.of_nat (k_dim (p_k p)))%Z) by (intros i v []).
  destruct (ask_flat_generation p HL HF moved_cols [1; 2] num0 eq_refl) as (s0 & s & m & E0 & E & N & I).
  change (cfg_of (p_k p)) with g in E0, E. cbn [run_ops] in E. apply bind_ok in E as (prev & E1 & E2).
  pose proof (sinv_new (cma_num p) g [1; 2] num0 s0 E0) as I0.
  assert (HP : pheno_total flat_env g) by (intros x _; cbn; eauto).
  assert (E : run_ops (cma_num p) flat_env g [OAsk; OGen moved_cols []] s0 = Ok s) by (cbn [run_ops]; rewrite E1; exact E2).
  assert (IS : sinv g s).
  { assert (W : Forall (proper_op g) [OAsk; OGen moved_cols []]) by (repeat apply Forall_cons; try apply Forall_nil; cbn; auto).
    pose proof (call_env_real (fun _ => 0%Z)) as HV. assert (HE : elitism_le1 g) by (split; reflexivity).
    destruct (ops_safe (cma_num p) flat_env g HV (dims_of p g eq_refl) HP HF (cfg_room p HL) HE eq_refl _ s0 W I0) as [(s2 & R & J)|R]; [pose proof (Ok_inj _ _ (eq_trans (eq_sym R) E)) as ->; exact J|discriminate (eq_trans (eq_sym R) E)]. }
  destruct (ask_safe (cma_num p) flat_env g (dims_of p g eq_refl) HP HF (cfg_room p HL) s IS) as (pop & s' & A & _ & _).
  exists s0, prev, s, pop, s'. split; [exact E0|]. split; [cbn [run_ops]; rewrite E1; reflexivity|]. split; [exact E2|]. split; [|exact A].
  exists 0%nat. split; [cbn; lia|].
  assert (MP : mean_of prev 0%nat = 1).
  { assert (X : x_mean (s_num (t_sol prev)) = init_mean p [1; 2]).
    { cbn [do_op] in E1. apply bind_ok in E1 as ([pop1 s1] & E1 & Q). apply Ok_inj in Q. cbn [snd] in Q. subst s1.
      apply (NumInv.ask_num (cma_num p) flat_env g (fun n => x_mean n = init_mean p [1; 2])) in E1; auto.
      - intros i n <-. cbn [cma_num n_eigen]. unfold eigen_num. destruct (_ || _); [reflexivity|]. destruct (_ || _ || _); reflexivity.
      - apply st_new_num in E0. rewrite E0. reflexivity. }
    unfold mean_of. rewrite X. reflexivity. }
  rewrite MP. unfold mean_of. rewrite N. cbn [update_num x_mean].
  assert (W : good_weights k24) by (apply constructed_sound, k24_constructed). destruct W as (W1 & _ & _ & _ & W2). change (k_mu k24) with 2%nat in W1.
  assert (WS : forall a, rsum 2 (fun i => wgt p i * a) = a).
  { intros a. cbn [rsum]. unfold wgt. change (k_w (p_k p)) with (k_w k24). destruct (k_w k24) as [|x [|y [|]]]; try discriminate W1. cbn [nth sumR fold_right] in *. replace y with (1 - x) by lra. ring. }
  assert (X : new_mean p moved_cols (with_pos (eigen_num p 0 (new_num p [1; 2] num0)) m (x_upos num0)) 0%nat = 3).
  { unfold new_mean. change (k_mu (p_k p)) with 2%nat. change (p_upd p) with fl.
    assert (MI : x_mean (with_pos (eigen_num p 0 (new_num p [1; 2] num0)) m (x_upos num0)) 0%nat = 1).
    { cbn [with_pos x_mean]. unfold eigen_num. destruct (_ || _); [reflexivity|]. destruct (_ || _ || _); reflexivity. }
    destruct fl; [| |contradiction].
    - rewrite (rsum_ext 2 _ (fun i => wgt p i * 3)); [apply WS|]. intros i Hi. destruct i as [|[|]]; [reflexivity|reflexivity|lia].
    - rewrite MI. rewrite (rsum_ext 2 _ (fun i => wgt p i * (3 - 1))); [rewrite WS; unfold cm; ring|]. intros i Hi. destruct i as [|[|]]; [reflexivity|reflexivity|lia]. }
  rewrite X. lra.
Qed.
Lemma run_split {T N} (no : numops T N) e g h1 h2 : forall s s2, run_ops no e g (h1 ++ h2) s = Ok s2 -> exists s1, run_ops no e g h1 s = Ok s1 /\ run_ops no e g h2 s1 = Ok s2.
Proof.
  induction h1 as [|o h1 IH]; intros s s2 H; [exists s; auto|]. cbn [run_ops app] in *. apply bind_ok in H as (s' & H & H'). rewrite H. cbn [bind]. auto.
Qed.
Lemma effect_instance : let p := npar_of k24t Full in let g := cfg_of k24t in exists s0 s1 pop s2 s,
  st_new (cma_num p) g [1; 2] num0 = Ok s0 /\ run_ops (cma_num p) (call_env zig) g h24 s0 = Ok s1 /\ (0 < s_niter (t_sol s1))%Z /\
  ask (cma_num p) (call_env zig) g s1 = Ok (pop, s2) /\ run_ops (cma_num p) (call_env zig) g [OGen moved_cols []] s2 = Ok s.
Proof.
  intros p g.
  assert (HL : (2 <= k_lambda (p_k p))%nat) by (cbn; lia).
  assert (HF : forall i v, In (i, v) (k_fixed (p_k p)) -> (0 <= i < Z.of_nat (k_dim (p_k p)))%Z) by (intros i v []).
  destruct (new_ok p HL [1; 2] num0) as [s0 E0]. change (cfg_of (p_k p)) with g in E0.
  destruct (runs_ok p HL HF zig (h24 ++ [OAsk; OGen moved_cols []]) eq_refl [1; 2] num0 s0 E0) as [s E].
  { unfold h24. cbn [app]. repeat apply Forall_cons; try apply Forall_nil; cbn; auto. }
  change (cfg_of (p_k p)) with g in E. apply run_split in E as (s1 & R1 & E).
  change h24 with (firstn 4 h24 ++ [OGen [[1; 1]; [1; 0]; [4; 4]; [0; 5]] []]) in R1. pose proof R1 as R. apply run_split in R as (sp & Ra & Rb).
  change (run_ops (cma_num p) (call_env zig) g [OAsk; OGen moved_cols []] s1) with (do s1' <- do_op (cma_num p) (call_env zig) g OAsk s1; run_ops (cma_num p) (call_env zig) g [OGen moved_cols []] s1') in E.
  apply bind_ok in E as (s2 & E1 & E2). cbn [do_op] in E1. apply bind_ok in E1 as ([pop s2'] & E1 & Q). apply Ok_inj in Q. cbn [snd] in Q. subst s2'.
  exists s0, s1, pop, s2, s. split; [exact E0|]. split; [exact R1|]. split; [|split; [exact E1|exact E2]].
  assert (W1 : Forall (okop (fun _ => True)) (firstn 4 h24)) by (unfold h24; cbn [firstn]; repeat constructor).
  assert (W2 : Forall (okop (fun _ => True)) h24) by (unfold h24; repeat constructor).
  destruct (iter_nonneg _ _ _ _ _ _ _ _ E0 W1 Ra) as [_ I1]. destruct (iter_nonneg _ _ _ _ _ _ _ _ E0 W2 R1) as [I2 _]. pose proof (gen_iters _ _ _ _ _ _ _ Rb). lia.
Qed.
