(** How fast the step size may change. *)
From Coq Require Import Reals List Lia Lra Psatz ZArith.
From Verif Require Import Base Dbl Vec VecProofs Params SpecParams ParamsProofs AdaptProofs ParamSound Config Search SpecSearch SpecSafe SpecUh SearchInv StopProofs NumInv CounterProofs Update SpecUpdate UpdateProofs UpdateProofs2 ActiveThms SpecRate TpaProofs SpecTpa TpaThms StartDemo.
Import ListNotations.
Local Open Scope R_scope.

Lemma exp_le_mono x y : x <= y -> exp x <= exp y.
Proof. intros [H| ->]; [left; apply exp_increasing, H|right; reflexivity]. Qed.
Definition rate_ok (k : cpar) : Prop := (1 <= k_dim k)%nat /\ 1 <= k_alphathuh k /\ 0 < k_csigma k /\ 0 < k_dsigma k /\ 0 < k_chi k.
Definition chi_inv (k : cpar) : Prop := k_chi k = chi_of (INR (k_dim k)) \/ k_chi k = chi_of (INR (k_dim k) - INR (length (k_fixed k))).
Lemma alpha_ge1 k : 1 <= k_alphathuh (initialize k).
Proof. cbn. assert (0 <= INR (k_dim k)) by apply pos_INR. assert (0 < 2 / (INR (k_dim k) + 10)) by (apply Rdiv_lt_0_compat; lra). lra. Qed.
Lemma adapt_chi a k : chi_inv k /\ 1 <= k_alphathuh k -> chi_inv (do_adapt k a) /\ 1 <= k_alphathuh (do_adapt k a).
Proof.
  intros [C A]. destruct a as [| |b|i v|i]; cbn [do_adapt]; auto.
  - split; [left; reflexivity|apply (alpha_ge1 (mkPar (k_dim k) 0 0 [] 0 0 0 0 0 0 0 0 0 0 0 0 false false 0 0 []))].
  - unfold set_tpa. cbn zeta. destruct (b =? 2)%Z; auto.
  - split; [right; reflexivity|exact A].
  - split; [right; reflexivity|exact A].
Qed.
Lemma constructed_rate k : constructed k -> (length (k_fixed k) < k_dim k)%nat -> rate_ok k.
Proof.
  intros C L. pose proof (constructed_sound _ C) as (D & (A1 & _ & _ & _ & _ & A2) & _ & _).
  assert (X : chi_inv k /\ 1 <= k_alphathuh k).
  { destruct C as (n & l & h & _ & _ & _ & ->). clear.
    assert (G : forall k, chi_inv k /\ 1 <= k_alphathuh k -> chi_inv (fold_left do_adapt h k) /\ 1 <= k_alphathuh (fold_left do_adapt h k)) by (induction h as [|a h IH]; intros k H; cbn; auto; apply IH, adapt_chi, H).
    apply G. split; [left; reflexivity|apply alpha_ge1]. }
  destruct X as [X1 X2]. split; [exact D|]. split; [exact X2|]. split; [lra|]. split; [exact A2|].
  assert (D1 : 1 <= INR (k_dim k)) by (apply (le_INR 1); exact D).
  destruct X1 as [->| ->]; apply chi_pos; auto. rewrite <- minus_INR by lia. apply (le_INR 1). lia.
Qed.
Lemma any_rate k : constructed_any k -> (length (k_fixed k) < k_dim k)%nat -> rate_ok k.
Proof.
  intros [C|(k0 & a & C & ->)] L; [apply constructed_rate; auto|].
  assert (F : rate_ok k0). { apply constructed_rate; auto. revert L. unfold set_vd. destruct (_ || _ || _)%bool; auto. }
  pose proof (constructed_muw _ C) as M. destruct F as (F1 & F2 & F3 & F4 & F5). unfold set_vd. destruct (_ || _ || _)%bool; [|repeat split; auto].
  assert (S : 0 < sqrt (k_muw k0)) by (apply sqrt_lt_R0; lra). assert (S2 : 0 <= sqrt (INR (k_dim k0))) by apply sqrt_pos.
  assert (CS : 0 < sqrt (k_muw k0) / (2 * (sqrt (INR (k_dim k0)) + sqrt (k_muw k0)))) by (apply Rdiv_lt_0_compat; lra).
  repeat split; auto. cbn [k_dsigma]. destruct (_ =? 0)%Z; [|exact F4].
  unfold dsigma_of. pose proof (Rmax_l 0 (sqrt ((k_muw k0 - 1) / (INR (k_dim k0) + 1)) - 1)). cbn [k_muw k_dim set_algo with_algo] in *. lra.
Qed.

Section Rate.
Variable p : npar.
Let k := p_k p.
Let d := k_dim k.
Hypothesis HK : rate_ok k.
Let a := k_csigma k / k_dsigma k.
Lemma a_pos : 0 < a.
Proof using HK. destruct HK as (_ & _ & A & B & _). apply Rdiv_lt_0_compat; auto. Qed.
Lemma one_max : 1 < dbl_max_R.
Proof using Type. pose proof big. lra. Qed.
Lemma step_lower i xs n : (k_tpa k < 2)%Z -> 0 <= x_sigma n -> x_sigma n * exp (- a) <= new_sigma p i xs n.
Proof using HK.
  intros T S. unfold new_sigma. fold k. destruct (Z.ltb_spec (k_tpa k) 2); [|lia]. cbv zeta. apply Rmult_le_compat_l; [exact S|].
  destruct HK as (_ & _ & A & B & C).
  assert (F : exp (- a) <= exp (k_csigma k / k_dsigma k * (norm (k_dim k) (new_psigma p xs n) / k_chi k - 1))).
  { apply exp_le_mono. fold a. assert (0 <= norm (k_dim k) (new_psigma p xs n) / k_chi k) by (apply Rmult_le_pos; [apply norm_nonneg|left; apply Rinv_0_lt_compat, C]). pose proof a_pos. nra. }
  destruct (p_upd p); auto. apply Rmin_glb; [|exact F]. pose proof one_max. pose proof a_pos. assert (exp (- a) <= exp 0) by (apply exp_le_mono; lra). rewrite exp_0 in *. lra.
Qed.
Lemma rate_floor e g h x0 n0 s0 s : (k_tpa k < 2)%Z -> st_new (cma_num p) g x0 n0 = Ok s0 -> Forall (okop (fun _ => True)) h -> run_ops (cma_num p) e g h s0 = Ok s ->
  sigma_of s0 * exp (- (k_csigma k / k_dsigma k * IZR (s_niter (t_sol s)))) <= sigma_of s.
Proof using HK.
  intros T H0 W H. fold a. destruct HK as (HD & HA & _).
  assert (S0 : sigma_of s0 = init_sigma p) by (unfold sigma_of; apply st_new_num in H0; rewrite H0; reflexivity). rewrite S0.
  assert (IP : 0 < init_sigma p) by (apply init_sigma_pos; exact HD).
  set (P := fun (t : Z) (n : num) => init_sigma p * exp (- (a * IZR t)) <= x_sigma n).
  assert (X : (0 <= s_niter (t_sol s))%Z /\ P (s_niter (t_sol s)) (s_num (t_sol s))); [|exact (proj2 X)].
  apply (iter_num_ops (cma_num p) e g P) with (h := h) (s := s0); auto; unfold P.
  - intros x n. cbn [cma_num n_new new_num x_sigma]. rewrite Rmult_0_r, Ropp_0, exp_0. lra.
  - intros t i n Hn. cbn [cma_num n_eigen]. unfold eigen_num. destruct (_ || _)%bool; [exact Hn|]. destruct (_ || _ || _)%bool; exact Hn.
  - intros t xs n Ht Hn. cbn [cma_num n_update update_num x_sigma]. rewrite plus_IZR.
    assert (E : 0 < exp (- (a * IZR t))) by apply exp_pos. assert (Q : 0 < init_sigma p * exp (- (a * IZR t))) by nra.
    eapply Rle_trans; [|apply step_lower; auto; lra].
    replace (- (a * (IZR t + 1))) with (- (a * IZR t) + - a) by ring. rewrite exp_plus, <- Rmult_assoc. apply Rmult_le_compat_r; [left; apply exp_pos|exact Hn].
  - intros t n Hn. cbn [cma_num n_uh_scale uh_scale_num x_sigma]. fold k. assert (E : 0 < exp (- (a * IZR t))) by apply exp_pos. apply Rle_trans with (x_sigma n); [exact Hn|]. rewrite <- (Rmult_1_r (x_sigma n)) at 1. apply Rmult_le_compat_l; [|exact HA]. apply Rle_trans with (2 := Hn). left. apply Rmult_lt_0_compat; auto.
  - pose proof H0 as H0'. apply st_new_num in H0. rewrite H0. cbn [cma_num n_new new_num x_sigma].
    apply st_new_spec in H0' as (_ & so & H0' & ->). apply sol_new_spec in H0' as (_ & ->). cbn. rewrite Rmult_0_r, Ropp_0, exp_0. split; [lia|lra].
Qed.
(** One iteration. *)
Lemma gen_sigma e g cols phen s s' : g_uh g = false -> (k_tpa k < 2)%Z -> (g_tpa g <> 2)%Z -> run_ops (cma_num p) e g [OGen cols phen] s = Ok s' ->
  let f := exp (k_csigma k / k_dsigma k * (path_length p s' / k_chi k - 1)) in
  sigma_of s' = sigma_of s * match p_upd p with Active => Rmin dbl_max_R f | _ => f end.
Proof using Type.
  intros HU T GT H. cbn [run_ops do_op] in H. apply bind_ok in H as (s1' & H & H'). apply Ok_inj in H'. subst s1'.
  apply bind_ok in H as (s1 & H1 & H). apply bind_ok in H as (s2 & H2 & H). apply Ok_inj in H.
  apply eval_spec in H1 as (_ & _ & K & _ & _ & _ & _ & N & _ & _ & _). specialize (N HU).
  apply tell_spec in H2 as (so1 & so2 & so3 & n4 & R & E2 & E3 & E4 & Q). specialize (Q HU). destruct R as [(_ & _ & R)|(R & _)]; [|congruence].
  destruct (Z.eqb_spec (g_tpa g) 2); [contradiction|]. cbn [andb] in E2.
  apply ubc_spec in E3 as [KK _]. unfold kept_by_tell in KK. injection KK as K1 _ K2 _ _ _ _ K3 _ _ _ _ _.
  assert (N3 : s_num so3 = s_num (t_sol s)) by (rewrite K3, E2, R; exact N).
  unfold path_length, sigma_of. rewrite <- H, E4. cbn [t_sol set_t_sol inc_iter].
  cbv zeta. change (x_sigma n4 = x_sigma (s_num (t_sol s)) * match p_upd p with Active => Rmin dbl_max_R (exp (k_csigma k / k_dsigma k * (norm (k_dim k) (x_psigma n4) / k_chi k - 1))) | _ => exp (k_csigma k / k_dsigma k * (norm (k_dim k) (x_psigma n4) / k_chi k - 1)) end).
  rewrite Q, <- N3. cbn [cma_num n_update update_num x_sigma x_psigma]. unfold new_sigma. fold k. destruct (Z.ltb_spec (k_tpa k) 2); [|lia]. reflexivity.
Qed.
Lemma rate_direction e g cols phen s s' : g_uh g = false -> (k_tpa k < 2)%Z -> (g_tpa g <> 2)%Z -> 0 < sigma_of s -> run_ops (cma_num p) e g [OGen cols phen] s = Ok s' ->
  (sigma_of s < sigma_of s' <-> k_chi k < path_length p s') /\ (sigma_of s' < sigma_of s <-> path_length p s' < k_chi k).
Proof using HK.
  intros HU T GT S H. pose proof (gen_sigma e g cols phen s s' HU T GT H) as E. cbv zeta in E. fold a in E.
  destruct HK as (_ & _ & _ & _ & C). pose proof a_pos as A. set (q := path_length p s') in *. set (c := k_chi k) in *.
  assert (QC : q / c - 1 = (q - c) * / c) by (field; lra). rewrite QC in E. assert (IC : 0 < / c) by (apply Rinv_0_lt_compat, C).
  set (f := exp (a * ((q - c) * / c))) in *.
  assert (F1 : 1 < f <-> c < q).
  { split; intros X.
    - apply Rnot_le_lt. intros Y. assert (f <= exp 0) by (apply exp_le_mono; assert ((q - c) * / c <= 0) by nra; nra). rewrite exp_0 in *. lra.
    - unfold f. rewrite <- exp_0. apply exp_increasing. assert (0 < (q - c) * / c) by nra. nra. }
  assert (F2 : f < 1 <-> q < c).
  { split; intros X.
    - apply Rnot_le_lt. intros Y. assert (exp 0 <= f) by (apply exp_le_mono; assert (0 <= (q - c) * / c) by nra; nra). rewrite exp_0 in *. lra.
    - unfold f. rewrite <- exp_0. apply exp_increasing. assert ((q - c) * / c < 0) by nra. nra. }
  assert (G : exists f', sigma_of s' = sigma_of s * f' /\ (1 < f' <-> 1 < f) /\ (f' < 1 <-> f < 1)).
  { pose proof one_max. destruct (p_upd p); try (exists f; tauto). exists (Rmin dbl_max_R f). split; [exact E|]. unfold Rmin. destruct (Rle_dec _ _); split; lra. }
  destruct G as (f' & -> & G1 & G2). rewrite <- F1, <- F2, <- G1, <- G2. split; split; intros X; nra.
Qed.
End Rate.
Lemma rate_tpa p e g h x0 n0 s0 s1 pop s2 cols phen s : 0 < k_dsigma (p_k p) -> no_elitism g -> g_uh g = false -> g_tpa g = 2%Z -> k_tpa (p_k p) = 2%Z -> g_lambda g = k_lambda (p_k p) ->
  room g -> std_sort_ok e -> 0 <= p_tpac p <= 1 -> st_new (cma_num p) g x0 n0 = Ok s0 -> Forall (whole_gen g) h -> run_ops (cma_num p) e g h s0 = Ok s1 ->
  (0 < s_niter (t_sol s1))%Z -> 0 < sigma_of s1 -> ask (cma_num p) e g s1 = Ok (pop, s2) -> length cols = g_lambda g -> run_ops (cma_num p) e g [OGen cols phen] s2 = Ok s ->
  sigma_of s1 * exp (- (1 / k_dsigma (p_k p))) <= sigma_of s <= sigma_of s1 * exp (1 / k_dsigma (p_k p)).
Proof.
  intros D HE HU HT KT HL HR HS HC H0 W R HI SP A LC R2.
  destruct (effect_thm p e g h x0 n0 s0 s1 pop s2 cols phen s HE HU HT KT HL HR HS HC H0 W R HI A LC R2) as (r1 & r2 & _ & _ & _ & E).
  assert (B : Rabs (path_of s) <= 1).
  { apply (path_bounded p e g HE HL HR HS HC (h ++ [OAsk; OGen cols phen]) x0 n0 s0 s); auto.
    - apply Forall_app. split; [exact W|]. repeat constructor. exact LC.
    - rewrite (run_app _ _ _ _ _ _ _ R). cbn [run_ops do_op] in *. rewrite A. cbn [bind snd]. exact R2. }
  rewrite E. assert (ID : 0 < / k_dsigma (p_k p)) by (apply Rinv_0_lt_compat, D).
  assert (X : -1 <= path_of s <= 1) by (unfold Rabs in B; destruct (Rcase_abs _); lra). unfold Rdiv.
  split; apply Rmult_le_compat_l; try lra; apply exp_le_mono; nra.
Qed.
(** Forms of the property theorems. *)
Lemma floor_thm p e g h x0 n0 s0 s : constructed_any (p_k p) -> (length (k_fixed (p_k p)) < k_dim (p_k p))%nat -> (k_tpa (p_k p) < 2)%Z ->
  st_new (cma_num p) g x0 n0 = Ok s0 -> Forall (okop (fun _ => True)) h -> run_ops (cma_num p) e g h s0 = Ok s ->
  sigma_of s0 * exp (- (k_csigma (p_k p) / k_dsigma (p_k p) * IZR (s_niter (t_sol s)))) <= sigma_of s.
Proof. intros C L. exact (rate_floor p (any_rate _ C L) e g h x0 n0 s0 s). Qed.
Lemma direction_thm p e g h s0 s cols phen s' : constructed_any (p_k p) -> (length (k_fixed (p_k p)) < k_dim (p_k p))%nat -> (k_tpa (p_k p) < 2)%Z ->
  g_tpa g = k_tpa (p_k p) -> g_uh g = false -> started p e g s0 -> run_ops (cma_num p) e g h s0 = Ok s -> run_ops (cma_num p) e g [OGen cols phen] s = Ok s' ->
  (sigma_of s < sigma_of s' <-> k_chi (p_k p) < path_length p s') /\ (sigma_of s' < sigma_of s <-> path_length p s' < k_chi (p_k p)).
Proof.
  intros C L T G U H0 R H. pose proof (any_rate _ C L) as K. apply (rate_direction p K e g cols phen s s' U T ltac:(lia)); [|exact H].
  destruct K as (K1 & K2 & _). apply (sigma_positive p K1 ltac:(lra) e g h s0 s H0 R).
Qed.
Lemma tpa_thm p e g h x0 n0 s0 s1 pop s2 cols phen s : constructed (p_k p) -> no_elitism g -> g_uh g = false -> g_tpa g = 2%Z -> k_tpa (p_k p) = 2%Z -> g_lambda g = k_lambda (p_k p) ->
  room g -> std_sort_ok e -> 0 <= p_tpac p <= 1 -> st_new (cma_num p) g x0 n0 = Ok s0 -> Forall (whole_gen g) h -> run_ops (cma_num p) e g h s0 = Ok s1 ->
  (0 < s_niter (t_sol s1))%Z -> ask (cma_num p) e g s1 = Ok (pop, s2) -> length cols = g_lambda g -> run_ops (cma_num p) e g [OGen cols phen] s2 = Ok s ->
  sigma_of s1 * exp (- (1 / k_dsigma (p_k p))) <= sigma_of s <= sigma_of s1 * exp (1 / k_dsigma (p_k p)).
Proof.
  intros C HE HU HT KT HL HR HS HC H0 W R HI A LC R2. pose proof (constructed_sound _ C) as (D & (_ & _ & _ & _ & _ & DS) & _ & AL).
  eapply rate_tpa with (h := h) (s2 := s2); eauto. apply (sigma_positive p D AL e g h s0 s1); [econstructor; eauto|exact R].
Qed.
