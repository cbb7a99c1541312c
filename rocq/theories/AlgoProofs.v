(** The generation of the model is the published one. *)
From Coq Require Import Reals List Lia Lra Psatz ZArith Permutation.
From Verif Require Import Base Dbl Vec VecProofs Params SpecParams ParamsProofs AdaptProofs ParamSound Config Search SpecSearch SpecSafe SearchInv StopProofs SearchThms CounterProofs Update SpecUpdate UpdateProofs UpdateProofs2 ActiveProofs ActiveThms NumThms SampleProofs SampleThms TpaThms Corr SpecAlgo.
Import ListNotations.
Local Open Scope R_scope.

(** * Spectral calculus *)
Lemma classic_tr n (f : vec) : (exists m, (m < n)%nat /\ f m <> 0) \/ (forall m, (m < n)%nat -> f m = 0).
Proof.
  induction n as [|n [(m & H & E)|E]]; [right; intros; lia|left; exists m; split; [lia|exact E]|].
  destruct (Req_dec (f n) 0) as [Z|Z]; [right|left; exists n; split; [lia|exact Z]]. intros m H. destruct (Nat.eq_dec m n) as [->|]; [exact Z|apply E; lia].
Qed.
Section Spectral.
Variables (n : nat) (a : mat) (dec : vec * mat).
Hypothesis HD : diagonalises n a dec.
Let v := snd dec.
Definition sp (f : vec) : mat := fun i j => rsum n (fun l => v i l * f l * v j l).
Lemma sp_mul f h i j : (i < n)%nat -> (j < n)%nat -> rsum n (fun l => sp f i l * sp h l j) = sp (fun q => f q * h q) i j.
Proof using HD.
  intros Hi Hj. destruct HD as (O & _ & _). unfold sp.
  rewrite (rsum_ext n _ (fun l => rsum n (fun q => rsum n (fun r => v i q * f q * h r * v j r * (v l q * v l r))))).
  - rewrite rsum_swap. apply rsum_ext. intros q Hq. rewrite rsum_swap.
    rewrite (rsum_single n _ q Hq).
    + rewrite rsum_scal. unfold v. rewrite O, Nat.eqb_refl by auto. ring.
    + intros r Hr N. rewrite rsum_scal. unfold v. rewrite O by auto. destruct (Nat.eqb_spec q r); [congruence|ring].
  - intros l _. rewrite <- rsum_scal_r. apply rsum_ext. intros q _. rewrite <- rsum_scal. apply rsum_ext. intros r _. ring.
Qed.
Lemma sp_one i j : (i < n)%nat -> (j < n)%nat -> sp (fun _ => 1) i j = if Nat.eqb i j then 1 else 0.
Proof using HD. intros Hi Hj. destruct HD as (_ & O & _). rewrite <- (O i j Hi Hj). apply rsum_ext. intros. unfold v. ring. Qed.
Lemma sp_diag f : diagonalises n (sp f) (f, v).
Proof using HD. destruct HD as (A & B & _). split; [exact A|]. split; [exact B|]. intros i j _ _. reflexivity. Qed.
Lemma sp_pd f : (forall l, (l < n)%nat -> 0 < f l) -> pos_def n (sp f).
Proof using HD.
  intros H x (i & Hi & Hx). rewrite (diag_quad n (sp f) (f, v) (sp_diag f)). cbn [fst snd].
  assert (E : exists m, (m < n)%nat /\ tr n v x m <> 0).
  { destruct (classic_tr n (tr n v x)) as [E|E]; [exact E|]. exfalso. apply Hx. rewrite <- (synth n a dec HD x i Hi). fold v.
    rewrite (rsum_ext n _ (fun _ => 0)) by (intros l Hl; rewrite (E l Hl); ring). apply rsum_0. }
  destruct E as (m & Hm & E). apply rsum_pos with (i := m); auto.
  - apply Rmult_lt_0_compat; [auto|]. apply (Rsqr_pos_lt _ E).
  - intros l Hl. apply Rmult_le_pos; [left; auto|apply (Rle_0_sqr (tr n v x l))].
Qed.
Lemma sp_inverse_root : (forall l, (l < n)%nat -> 0 < fst dec l) -> inverse_root n (sp (fun l => sqrt (1 / fst dec l))) a.
Proof using HD.
  intros P. split; [|split].
  - intros i j _ _. unfold sp. apply rsum_ext. intros. ring.
  - apply sp_pd. intros l Hl. apply sqrt_lt_R0, Rdiv_lt_0_compat; [lra|auto].
  - intros i j Hi Hj. set (r := fun l => sqrt (1 / fst dec l)).
    rewrite (rsum_ext n _ (fun l => sp r i l * sp (fun q => fst dec q * r q) l j)).
    + rewrite sp_mul by auto. rewrite <- sp_one by auto. unfold sp. apply rsum_ext. intros l Hl. unfold r.
      replace (sqrt (1 / fst dec l) * (fst dec l * sqrt (1 / fst dec l))) with (sqrt (1 / fst dec l) * sqrt (1 / fst dec l) * fst dec l) by ring.
      rewrite sqrt_sqrt by (left; apply Rdiv_lt_0_compat; [lra|auto]). pose proof (P l Hl). replace (1 / fst dec l * fst dec l) with 1 by (field; lra). reflexivity.
    + intros l Hl. rewrite <- (sp_mul (fst dec) r) by auto. rewrite <- rsum_scal. apply rsum_ext. intros m Hm.
      destruct HD as (_ & _ & E). rewrite (E l m Hl Hm). change (rsum n (fun q => snd dec l q * fst dec q * snd dec m q)) with (sp (fst dec) l m). fold r. ring.
Qed.
End Spectral.

(** * Normalisation of the paths *)
Definition norm_ok (k : cpar) : Prop :=
  let c := (4 + k_muw k / INR (k_dim k)) / (INR (k_dim k) + 4 + 2 * k_muw k / INR (k_dim k)) in
  k_muw k = mu_eff (k_w k) /\ k_fact_ps k = sqrt (k_csigma k * (2 - k_csigma k) * k_muw k) /\ k_fact_pc k = sqrt (c * (2 - c) * k_muw k) /\
  (k_sep k = false -> k_cc k = c).
Lemma init_norm k : wf k -> norm_ok (initialize k).
Proof.
  intros [_ W]. split; [|split; [reflexivity|split; [reflexivity|reflexivity]]]. apply (muw_inv_sq (Nat.div2 (k_lambda k))). apply div2_ge1, W.
Qed.
Lemma adapt_norm a k : wf k -> norm_ok k -> wf (do_adapt k a) /\ norm_ok (do_adapt k a).
Proof.
  intros W N. destruct a as [| |b|i v|i]; cbn [do_adapt].
  - split; [exact W|]. destruct N as (A & B & C & _). split; [exact A|]. split; [exact B|]. split; [exact C|]. discriminate.
  - unfold set_noisy. match goal with |- context [initialize ?P] => set (p5 := P) end.
    assert (W5 : wf p5) by (destruct W; split; cbn; lia). split; [exact W5|exact (init_norm p5 W5)].
  - unfold set_tpa. cbn zeta. destruct (b =? 2)%Z; split; auto.
  - split; auto.
  - split; auto.
Qed.
Lemma constructed_norm k : constructed k -> norm_ok k.
Proof.
  intros (n & l & h & Hn & Hl & _ & ->).
  assert (G : forall k, wf k -> norm_ok k -> norm_ok (fold_left do_adapt h k)).
  { induction h as [|a h IH]; intros k W N; [exact N|]. destruct (adapt_norm a k W N). apply IH; auto. }
  apply G; [split; cbn; lia|apply init_norm; split; cbn; lia].
Qed.

(** * The generation *)
Lemma eval_cands_keep {T N} (no : numops T N) e g cols phen s s' : eval no e g cols phen s = Ok s' -> s_niter (t_sol s') = s_niter (t_sol s).
Proof. intros H. apply eval_spec in H as (_ & _ & K & _). apply keep_iter in K as [K _]. exact K. Qed.
Lemma gen_update p e g s1 pop s2 cols phen s3 s4 : g_uh g = false ->
  ask (cma_num p) e g s1 = Ok (pop, s2) -> eval (cma_num p) e g cols phen s2 = Ok s3 -> tell (cma_num p) e g s3 = Ok s4 ->
  exists n, s_num (t_sol s4) = update_num p (s_niter (t_sol s1)) (map c_x (s_cands (t_sol s4))) n /\
    let m := s_num (t_sol s1) in let n1 := eigen_num p (t_niter s1) m in
    x_mean n = x_mean m /\ x_sigma n = x_sigma m /\ x_cov n = x_cov m /\ x_sep n = x_sep m /\ x_v n = x_v m /\ x_psigma n = x_psigma m /\ x_pc n = x_pc m /\
    x_csqinv n = x_csqinv m /\ x_fresh n = x_fresh n1 /\ x_dec n = x_dec n1.
Proof.
  intros HU H1 H2 H3.
  assert (A : let m := s_num (t_sol s1) in let n1 := eigen_num p (t_niter s1) m in let n := s_num (t_sol s2) in
    x_mean n = x_mean m /\ x_sigma n = x_sigma m /\ x_cov n = x_cov m /\ x_sep n = x_sep m /\ x_v n = x_v m /\ x_psigma n = x_psigma m /\ x_pc n = x_pc m /\
    x_csqinv n = x_csqinv m /\ x_fresh n = x_fresh n1 /\ x_dec n = x_dec n1).
  { destruct (n_sample (cma_num p) (g_lambda g) (n_eigen (cma_num p) (t_niter s1) (s_num (t_sol s1)))) as [pop0 n2] eqn:Es.
    destruct (ask_final _ _ _ _ _ _ _ _ H1 Es) as [F _]. injection Es as _ <-.
    assert (G : forall n1, let n1' := eigen_num p (t_niter s1) n1 in x_mean n1' = x_mean n1 /\ x_sigma n1' = x_sigma n1 /\ x_cov n1' = x_cov n1 /\ x_sep n1' = x_sep n1 /\ x_v n1' = x_v n1 /\ x_psigma n1' = x_psigma n1 /\ x_pc n1' = x_pc n1 /\ x_csqinv n1' = x_csqinv n1).
    { intros n1. unfold eigen_num. destruct (_ || _)%bool; [repeat split|]. destruct (_ || _ || _)%bool; repeat split. }
    cbv zeta in *. destruct (G (s_num (t_sol s1))) as (G1 & G2 & G3 & G4 & G5 & G6 & G7 & G8). rewrite F. destruct (_ && _)%bool; repeat split; assumption. }
  assert (I : s_niter (t_sol s3) = s_niter (t_sol s1)).
  { rewrite (eval_cands_keep _ _ _ _ _ _ _ H2). apply ask_spec in H1 as ((K & _) & _). apply keep_iter in K as [K _]. exact K. }
  apply eval_spec in H2 as (_ & _ & _ & _ & _ & _ & _ & N & _). specialize (N HU).
  apply tell_spec in H3 as (so1 & so2 & so3 & n4 & R & E2 & E3 & E4 & Q). specialize (Q HU). destruct R as [(_ & _ & R)|(R & _)]; [|congruence].
  apply ubc_spec in E3 as [KK _]. unfold kept_by_tell in KK. injection KK as K1 _ K2 _ _ _ _ K3 _ _ _ _ _.
  exists (s_num so3). rewrite E4. change (s_num (t_sol (set_t_sol (set_s_num n4 so3) s3))) with n4. change (s_cands (t_sol (set_t_sol (set_s_num n4 so3) s3))) with (s_cands so3).
  assert (S2 : s_num so2 = s_num (t_sol s2) \/ s_num so2 = tpa_num p (tpa_rank_diff so1) (s_num (t_sol s2))).
  { rewrite E2. assert (s_num so1 = s_num (t_sol s2)) by (rewrite R; exact N). destruct (_ && _)%bool; [right|left; auto]. cbn [tpa_update s_num set_s_num]. rewrite H. reflexivity. }
  split.
  - rewrite Q. cbn [cma_num n_update]. f_equal. rewrite K2, E2, <- I. rewrite R. destruct (_ && _)%bool; reflexivity.
  - rewrite K3. cbv zeta in A |- *. destruct S2 as [-> | ->]; exact A.
Qed.
Lemma niter_nonneg p e g h s0 s : started p e g s0 -> Forall (okop (fun _ => True)) h -> run_ops (cma_num p) e g h s0 = Ok s -> (0 <= s_niter (t_sol s))%Z.
Proof.
  intros H0 W H. refine (proj1 (NumInv.iter_num_ops (cma_num p) e g (fun _ _ => True) _ _ _ _ _ _ _ _ _ _ h s0 s W (conj _ I) H)); auto.
  rewrite (started_niter p e g s0 H0). lia.
Qed.

Section Step.
Variable p : npar.
Let k := p_k p.
Let d := k_dim k.
Hypothesis HC : constructed k.
Variables (gen : Z) (xs : list (list R)) (n : num) (a a' : dist).
Hypothesis HG : (0 <= gen)%Z.
Hypothesis E1 : d_mean a = x_mean n.
Hypothesis E2 : d_sigma a = x_sigma n.
Hypothesis E3 : d_ps a = x_psigma n.
Hypothesis E4 : d_pc a = x_pc n.
Hypothesis F1 : d_mean a' = new_mean p xs n.
Hypothesis F2 : d_sigma a' = new_sigma p gen xs n.
Hypothesis F3 : d_ps a' = new_psigma p xs n.
Hypothesis F4 : d_pc a' = new_pc p gen xs n.
Hypothesis HS0 : 0 < x_sigma n.

Lemma rule_mean : mean_rule k xs a'.
Proof using HC F1. intros i _. rewrite F1. apply (new_mean_sum p (constructed_sound _ HC)). Qed.
Lemma y_step i : y_mean a a' i = mean_step p xs n i.
Proof using E1 E2 F1 HS0. unfold y_mean, mean_step. rewrite E1, E2, F1. unfold cm. destruct (p_upd p); field; lra. Qed.
Lemma rule_h : h_sigma k gen a' = hsig p gen xs n.
Proof using HC HG F3.
  unfold h_sigma, hsig. fold k d. rewrite F3. pose proof (constructed_sound _ HC) as (_ & (CS & _) & _). fold d.
  replace (INR d + 1 - INR (length (k_fixed k))) with (INR d - INR (length (k_fixed k)) + 1) by ring.
  replace (2 * Z.to_nat (gen + 1))%nat with (2 * (Z.to_nat gen + 1))%nat by lia.
  set (q := 1 - (1 - k_csigma k) ^ (2 * (Z.to_nat gen + 1))). set (t := (1.4 + 2 / (INR d - INR (length (k_fixed k)) + 1)) * k_chi k).
  assert (Q : 0 < q). { assert ((1 - k_csigma k) ^ (2 * (Z.to_nat gen + 1)) < 1); [|unfold q; lra]. apply pow_lt_1_compat; [lra|lia]. }
  assert (SQ : 0 < sqrt q) by (apply sqrt_lt_R0, Q). set (m := norm d (new_psigma p xs n)).
  replace (sqrt q * (1.4 + 2 / (INR d - INR (length (k_fixed k)) + 1)) * k_chi k) with (sqrt q * t) by (unfold t; ring).
  destruct (Rlt_dec (m / sqrt q) t) as [A|A]; destruct (Rlt_dec m (sqrt q * t)) as [B|B]; auto; exfalso.
  - apply B. apply (Rmult_lt_compat_l (sqrt q)) in A; [|exact SQ]. replace (sqrt q * (m / sqrt q)) with m in A by (field; lra). exact A.
  - apply A. apply (Rmult_lt_reg_l (sqrt q)); [exact SQ|]. replace (sqrt q * (m / sqrt q)) with m by (field; lra). exact B.
Qed.
Lemma rule_pc c : k_fact_pc k = sqrt (c * (2 - c) * k_muw k) -> cov_path_rule k gen a a' c.
Proof using HC HG E1 E2 E4 F1 F3 F4 HS0.
  intros N i _. rewrite F4, E4, rule_h, y_step. destruct (constructed_norm _ HC) as (M & _). rewrite <- M, <- N. reflexivity.
Qed.
Lemma rule_ps b : (forall i, (i < d)%nat -> (match p_upd p with Vd => 1 / sqrt (1 + x_v n i * x_v n i) * (1 / x_sep n i) * mean_step p xs n i
  | _ => if k_sep k then sqrt (1 / x_sep n i) * mean_step p xs n i else mv d (new_csqinv p n) (mean_step p xs n) i end) = mv d b (mean_step p xs n) i) -> sigma_path_rule k a a' b.
Proof using HC E1 E2 E3 F1 F3 HS0.
  intros H i Hi. rewrite F3, E3. unfold new_psigma. fold k d. rewrite H by exact Hi. destruct (constructed_norm _ HC) as (M & N & _). rewrite <- M, <- N.
  f_equal. f_equal. apply mv_ext; auto. intros j _. symmetry. apply y_step.
Qed.
Lemma rule_mu i j : rank_mu k xs a i j = spread p (best_of xs) n i j.
Proof using E1 E2 HS0.
  unfold rank_mu, spread. fold k. rewrite <- rsum_scal. apply rsum_ext. intros l _. unfold y_point. rewrite E1, E2. unfold wgt, best_of, pt, at0. fold k. field. lra.
Qed.
Lemma rule_minus i j : rank_minus k xs a i j = spread p (worst_of p xs) n i j.
Proof using E1 E2 HS0.
  unfold rank_minus, spread. fold k. rewrite <- rsum_scal. apply rsum_ext. intros l _. unfold y_point. rewrite E1, E2. unfold wgt, worst_of, pt, at0. fold k.
  replace (k_lambda k - l - 1)%nat with (k_lambda k - 1 - l)%nat by lia. field. lra.
Qed.
Lemma rule_entry i j : d_cov a i j = x_cov n i j -> cov_entry k gen xs a a' i j = rank_mu_cov p gen xs n i j.
Proof using HC HG E1 E2 F3 F4 HS0.
  intros E. unfold cov_entry, rank_mu_cov, keep_rate, rank_one. fold k. rewrite rule_h, rule_mu, E, F4. reflexivity.
Qed.
Lemma rule_entry_sep i : d_cov a i i = x_sep n i -> cov_entry k gen xs a a' i i = rank_mu_sep p gen xs n i.
Proof using HC HG E1 E2 F3 F4 HS0.
  intros E. unfold cov_entry, rank_mu_sep, keep_rate, rank_one. fold k. rewrite rule_h, rule_mu, E, F4. reflexivity.
Qed.
Lemma rule_sigma : p_upd p <> Active -> (k_tpa k < 2)%Z -> sigma_rule k a a'.
Proof using E2 F2 F3.
  intros U T. unfold sigma_rule. rewrite F2, F3, E2. unfold new_sigma. fold k d. destruct (Z.ltb_spec (k_tpa k) 2); [|lia]. cbv zeta. destruct (p_upd p); auto. congruence.
Qed.
Lemma rule_sigma_active : p_upd p = Active -> (k_tpa k < 2)%Z -> active_sigma_rule k a a'.
Proof using E2 F2 F3.
  intros U T. unfold active_sigma_rule. rewrite F2, F3, E2. unfold new_sigma. fold k d. destruct (Z.ltb_spec (k_tpa k) 2); [|lia]. cbv zeta. rewrite U. reflexivity.
Qed.
End Step.
