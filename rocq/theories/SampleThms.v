(** The distribution ask samples from. *)
From Coq Require Import Reals List Lia Lra ZArith.
From Verif Require Import Base Dbl Vec VecProofs Params ParamsProofs SpecParams Config Search SpecSearch SpecSafe SortProofs SearchInv SafeProofs StopProofs NumInv Update SpecUpdate UpdateProofs UpdateProofs2 ParamSound Corr SpecSample SampleProofs Demo DemoProofs DemoNum DemoNumProofs NumThms ActiveThms.
Import ListNotations.
Local Open Scope R_scope.

Lemma adapt_vd h : forall k, k_vd k = false -> k_vd (fold_left do_adapt h k) = false.
Proof.
  induction h as [|a h IH]; intros k H; [exact H|]. cbn [fold_left]. apply IH. destruct a; cbn; try exact H.
  unfold set_tpa. destruct (_ =? 2)%Z; exact H.
Qed.
Lemma constructed_vd k : constructed k -> k_vd k = false.
Proof. intros (n & l & h & _ & _ & _ & ->). apply adapt_vd. reflexivity. Qed.

(** Any state. *)
Lemma sample_state p e g s pop s' : same_problem p g ->
  (k_sep (p_k p) && k_vd (p_k p) = false)%bool ->
  (k_sep (p_k p) = true -> forall i, (i < k_dim (p_k p))%nat -> 0 <= variances_of s i) ->
  (k_vd (p_k p) = true -> exists i, (i < k_dim (p_k p))%nat /\ x_v (s_num (t_sol s)) i <> 0) ->
  (k_sep (p_k p) || k_vd (p_k p) = false -> p_lazy p = false /\ symmetric (k_dim (p_k p)) (cov_of s) /\ psd (k_dim (p_k p)) (cov_of s) /\ eigensolver_ok p) ->
  ask (cma_num p) e g s = Ok (pop, s') ->
  exists a, square_root (k_dim (p_k p)) a (full_cov p (s_num (t_sol s))) /\ normal_population p g s s' pop (mean_of s) a.
Proof.
  intros G X Hs Hv Hf H. pose proof (ask_normal p e g s pop s' G H) as Q. cbv zeta in Q.
  set (n1 := eigen_num p (t_niter s) (s_num (t_sol s))) in *. exists (root p (s_num (t_sol s)) (x_dec n1)).
  assert (M : x_smean n1 = mean_of s).
  { unfold n1, eigen_num. destruct (k_sep (p_k p) || k_vd (p_k p)) eqn:K; [reflexivity|]. destruct (Hf eq_refl) as [-> _]. cbn [negb]. rewrite orb_true_r. reflexivity. }
  rewrite M in Q. split; [|exact Q]. unfold full_cov. destruct (k_sep (p_k p)) eqn:K1; cbn [orb negb].
  - cbn in X. rewrite X. apply root_sep; [exact K1|apply Hs; reflexivity].
  - destruct (k_vd (p_k p)) eqn:K2; cbn [orb negb].
    + apply root_vd; auto. destruct (Hv eq_refl) as (i & Hi & V). unfold dot. apply (rsum_pos _ _ i Hi); [apply Rsqr_pos_lt in V; exact V|]. intros j _. apply (Rle_0_sqr (x_v (s_num (t_sol s)) j)).
    + destruct (Hf eq_refl) as (L & S1 & S2 & E). apply root_full; auto. unfold n1, eigen_num. rewrite K1, K2, L. cbn [orb negb]. rewrite orb_true_r. cbn [orb with_solver x_dec]. apply E. exact S1.
Qed.

Lemma sep_nonneg p e g h s0 s : constructed (p_k p) -> p_upd p = Full -> started p e g s0 -> run_ops (cma_num p) e g h s0 = Ok s -> forall i, 0 <= variances_of s i.
Proof.
  intros C F H1 H2. pose proof (constructed_sound _ C) as HS. pose proof HS as (HD1 & _ & _ & HA1).
  refine (proj2 (inv_all p HD1 HA1 (fun n => forall i, 0 <= x_sep n i) _ _ _ _ e g h s0 s H1 H2)).
  - intros n n' [_ E] H. rewrite E. exact H.
  - intros n _ E i. rewrite E. lra.
  - intros t xs n Hs B i. unfold update_num. cbn [x_sep]. rewrite F. destruct (k_sep (p_k p)); [|apply B].
    pose proof (rank_mu_sep_lower p HS t xs n 0 i Hs (Rle_refl 0) (B i)) as L. lra.
  - intros n B i. apply B.
Qed.
(** Any run of the default and separable variants. *)
Lemma sample_thm p e g h s0 s pop s' : constructed (p_k p) -> p_upd p = Full -> p_lazy p = false -> eigensolver_ok p -> same_problem p g ->
  started p e g s0 -> run_ops (cma_num p) e g h s0 = Ok s -> ask (cma_num p) e g s = Ok (pop, s') ->
  exists a, square_root (k_dim (p_k p)) a (full_cov p (s_num (t_sol s))) /\ normal_population p g s s' pop (mean_of s) a.
Proof.
  intros C F L E G H1 H2 H3. pose proof (constructed_vd _ C) as V. apply sample_state with (e := e); auto.
  - rewrite V. apply andb_false_r.
  - intros _ i _. eapply sep_nonneg; eauto.
  - rewrite V. discriminate.
  - intros _. destruct (cov_psd_thm p e g h s0 s C F H1 H2). auto.
Qed.

(** With lazy updates. *)
Definition k40 : cpar := cma_params 40 4.
Lemma k40_lazy : 1 <= k_lazy k40.
Proof.
  assert (E : k_lazy k40 = 1 / (k_c1 k40 + k_cmu k40) / INR 40 / 10) by reflexivity.
  assert (M : k_muw k40 = muw_of 2) by reflexivity. pose proof (muw_bounds 2 ltac:(lia)) as B. cbn [INR] in B.
  assert (E1 : k_c1 k40 = 2 / ((INR 40 + 1.3) * (INR 40 + 1.3) + muw_of 2)) by reflexivity.
  assert (E2 : k_cmu k40 = Rmin (1 - k_c1 k40) (2 * (muw_of 2 - 2 + 1 / muw_of 2) / ((INR 40 + 2) * (INR 40 + 2) + muw_of 2))) by reflexivity.
  replace (INR 40) with 40 in * by (cbn; lra). set (m := muw_of 2) in *.
  assert (I : / m <= 1) by (rewrite <- Rinv_1; apply Rinv_le_contravar; lra).
  assert (P : 0 < / m) by (apply Rinv_0_lt_compat; lra).
  assert (C1 : 0 < k_c1 k40 <= 2 / 1700).
  { rewrite E1. split; [apply Rdiv_lt_0_compat; nra|]. unfold Rdiv. apply Rmult_le_compat_l; [lra|]. apply Rinv_le_contravar; lra. }
  assert (C2 : 0 <= k_cmu k40 <= 2 / 1700).
  { rewrite E2. split.
    - apply Rmin_glb; [lra|]. apply Rmult_le_pos; [|left; apply Rinv_0_lt_compat; nra]. pose proof (muw_poly m (proj1 B)). lra.
    - eapply Rle_trans; [apply Rmin_r|]. apply Rle_trans with (2 * 1 / 1700); [|lra]. unfold Rdiv.
      apply Rmult_le_compat; [pose proof (muw_poly m (proj1 B)) as Q; unfold Rdiv in Q; lra|left; apply Rinv_0_lt_compat; nra|lra|apply Rinv_le_contravar; lra]. }
  rewrite E. set (t := k_c1 k40 + k_cmu k40) in *. assert (T : 0 < t <= 4 / 1700) by (unfold t; lra).
  assert (TI : 425 <= / t). { replace 425 with (/ (4 / 1700)) by field. apply Rinv_le_contravar; lra. }
  unfold Rdiv. lra.
Qed.
Definition step_normal (j : nat) : R := if (j <? 160)%nat then 1 else 0.
Definition p40 : npar := mkNpar k40 Full 1 true (/ 1000000000000) 0.3 (/ 10000000) (fun _ => (fun _ => 1, ident)) step_normal (fun _ => 1 / 2)
    (fun x => x) (fun x => x) (fun _ => None) (fun x => x).
Lemma ask_num p e g s pop s' : same_problem p g -> (g_tpa g =? 2)%Z = false -> ask (cma_num p) e g s = Ok (pop, s') ->
  let n1 := eigen_num p (t_niter s) (s_num (t_sol s)) in
  s_num (t_sol s') = with_pos n1 (x_pos n1 + k_lambda (p_k p) * k_dim (p_k p)) (x_upos n1).
Proof.
  intros (_ & G & _) T H. cbv zeta. destruct (n_sample (cma_num p) (g_lambda g) (n_eigen (cma_num p) (t_niter s) (s_num (t_sol s)))) as [pop0 n2] eqn:Es.
  destruct (ask_final _ _ _ _ _ _ _ _ H Es) as [F _]. rewrite T in F. cbn [andb] in F. rewrite F. injection Es as _ <-. rewrite G. reflexivity.
Qed.
Lemma mv_zero d a i : mv d a (fun _ => 0) i = 0.
Proof. unfold mv. rewrite (rsum_ext d _ (fun _ => 0 * 0)) by (intros; ring). rewrite rsum_scal. ring. Qed.
Lemma transform_ident i j : transform (fun _ => 1, ident) i j = ident i j.
Proof. unfold transform. cbn [fst snd]. rewrite Rmax_left by lra. rewrite sqrt_1. ring. Qed.
Lemma diag_ident n : diagonalises n ident (fun _ => 1, ident).
Proof.
  assert (A : forall i j, (i < n)%nat -> rsum n (fun l => ident i l * ident j l) = if Nat.eqb i j then 1 else 0).
  { intros i j Hi. transitivity (mv n ident (ident j) i); [reflexivity|]. rewrite mv_ident by exact Hi. unfold ident, diag. rewrite Nat.eqb_sym. reflexivity. }
  assert (S : forall i j, ident i j = ident j i). { intros i j. unfold ident, diag. rewrite Nat.eqb_sym. reflexivity. }
  split; [|split]; intros i j Hi Hj; cbn [fst snd].
  - rewrite <- (A i j Hi). apply rsum_ext. intros l _. rewrite (S l i), (S l j). reflexivity.
  - apply A, Hi.
  - transitivity (if Nat.eqb i j then 1 else 0); [reflexivity|]. rewrite <- (A i j Hi). apply rsum_ext. intros l _. ring.
Qed.
Lemma lazy_stale : exists p e g x0 n s0 pop s1 s pop' s',
  constructed (p_k p) /\ p_upd p = Full /\ p_lazy p = true /\ same_problem p g /\ k_sep (p_k p) = false /\
  st_new (cma_num p) g x0 n = Ok s0 /\ diagonalises (k_dim (p_k p)) (cov_of s0) (p_eig p (mtab (k_dim (p_k p)) (cov_of s0))) /\
  ask (cma_num p) e g s0 = Ok (pop, s1) /\ run_ops (cma_num p) e g [OGen pop []] s1 = Ok s /\ ask (cma_num p) e g s = Ok (pop', s') /\
  forall a, ~ normal_population p g s s' pop' (mean_of s) a.
Proof.
  assert (HL : (2 <= k_lambda (p_k p40))%nat) by (cbn; lia).
  assert (HF : forall i v, In (i, v) (k_fixed (p_k p40)) -> (0 <= i < Z.of_nat (k_dim (p_k p40)))%Z) by (intros i v []).
  set (g := cfg_of (p_k p40)). set (x0 := repeat 0 40).
  destruct (new_ok p40 HL x0 num0) as [s0 E0]. pose proof (sinv_new (cma_num p40) g x0 num0 s0 E0) as I.
  assert (HP : pheno_total flat_env g) by (intros x _; cbn; eauto).
  destruct (ask_safe (cma_num p40) flat_env g (dims_of p40 g eq_refl) HP HF (cfg_room p40 HL) s0 I) as (pop & s1 & E1 & PO & I1).
  assert (Z0 : t_niter s0 = 0%Z /\ s_num (t_sol s0) = new_num p40 x0 num0).
  { split; [|apply st_new_num in E0; exact E0]. unfold st_new, sol_new in E0. destruct (_ =? 0)%Z; [discriminate|]. cbn [bind] in E0. apply Ok_inj in E0. subst s0. reflexivity. }
  destruct Z0 as [Z0 N0].
  assert (SP : same_problem p40 g) by (split; [|split]; reflexivity).
  pose proof (ask_normal p40 flat_env g s0 pop s1 SP E1) as Q. cbv zeta in Q. pose proof (ask_num p40 flat_env g s0 pop s1 SP eq_refl E1) as N1. cbv zeta in N1.
  rewrite Z0, N0 in Q, N1. 
  assert (EN : eigen_num p40 0 (new_num p40 x0 num0) = with_solver (new_num p40 x0 num0) true 0 (init_mean p40 x0) (fun _ => 1, ident)) by reflexivity.
  rewrite EN in Q, N1. cbn [x_smean x_dec with_solver] in Q.
  assert (M0 : forall i, init_mean p40 x0 i = 0).
  { intros i. unfold init_mean, at0. change (k_fixed (p_k p40)) with (@nil (Z * R)). change (p_scale p40) with (fun x : list R => x). cbv beta.
    destruct (Nat.lt_ge_cases i 40) as [L|L].
    - change (at0 (tab 40 (put_fixed [] (at0 x0))) i = 0). rewrite at0_tab by exact L. cbn [put_fixed fold_left]. unfold x0. apply nth_repeat.
    - apply nth_overflow. unfold tab. rewrite map_length, seq_length. exact L. }
  assert (D0 : drawn s0 = 0%nat) by (unfold drawn; rewrite N0; reflexivity).
  assert (FX : forall i, ~ is_fixed g i) by (intros i (v & [])).
  assert (RP : forall (s : st R num) c, ~ replaced g s c) by (intros s c [[B _]|[B _]]; [change (false = true) in B|idtac]; discriminate B).
  assert (S0 : sigma_of s0 = 1). { unfold sigma_of. rewrite N0. change (init_sigma p40 = 1). unfold init_sigma. destruct (Rlt_dec 0 (p_sigma0 p40)) as [_|N]; [reflexivity|exfalso; apply N; cbn; lra]. }
  destruct Q as (Q1 & Q2 & Q).
  assert (POP : forall c x i, nth_error pop c = Some x -> (i < 40)%nat -> nth_error x i = Some 1).
  { intros c x i Hx Hi. assert (Hc : (c < 4)%nat). { change 4%nat with (k_lambda (p_k p40)). rewrite <- Q1. apply nth_error_Some. congruence. }
    rewrite (Q c x i Hx (RP _ _) Hi (FX i)). f_equal. rewrite M0, S0. unfold root. change (k_sep (p_k p40)) with false. change (k_vd (p_k p40)) with false. cbv iota.
    change (k_dim (p_k p40)) with 40%nat. unfold mv. rewrite (rsum_ext 40 _ (fun j => ident i j * draws_of p40 (drawn s0) c j)) by (intros j _; rewrite transform_ident; reflexivity).
    change (0 + 1 * mv 40 ident (draws_of p40 (drawn s0) c) i = 1). rewrite mv_ident by exact Hi. unfold draws_of. rewrite D0. change (k_dim (p_k p40)) with 40%nat.
    change (p_normal p40) with step_normal. unfold step_normal. destruct (Nat.ltb_spec (0 + c * 40 + i) 160) as [_|B]; [ring|lia]. }
  assert (Z1 : t_niter s1 = 0%Z).
  { apply ask_spec in E1 as ((K & _) & _). unfold keep in K. injection K as _ _ _ _ _ _ _ _ _ _ _ _ KT _ _. congruence. }
  destruct (flat_generation_from p40 HL HF pop s1 (proj1 PO) I1 Z1) as (s & E2 & N2 & Z2).
  assert (SM : forall i, (i < 40)%nat -> mean_of s i = 1).
  { intros i Hi. unfold mean_of. rewrite N2. change (new_mean p40 pop (s_num (t_sol s1)) i = 1). unfold new_mean. change (p_upd p40) with Full. cbv iota.
    assert (W : good_weights k40) by (apply constructed_sound; exists 40%nat, 4%nat, []; split; [lia|split; [lia|split; [cbn; lia|reflexivity]]]).
    destruct W as (W1 & _ & _ & _ & W2). change (k_mu (p_k p40)) with 2%nat. change (k_mu k40) with 2%nat in W1.
    assert (P1 : forall c, (c < 2)%nat -> pt pop c i = 1).
    { intros c Hc. unfold pt, at0. destruct (nth_error pop c) as [x|] eqn:Hx.
      - rewrite (nth_error_nth _ _ _ Hx). apply nth_error_nth. eapply POP; eauto.
      - apply nth_error_None in Hx. rewrite Q1 in Hx. cbn in Hx. lia. }
    cbn [rsum]. rewrite !P1 by lia. unfold wgt. change (p_k p40) with k40. destruct (k_w k40) as [|a [|b [|]]]; try discriminate W1. cbn [nth sumR fold_right] in *. lra. }
  assert (IS : sinv g s).
  { assert (W : Forall (proper_op g) [OGen pop []]) by (repeat constructor; auto; apply PO).
    pose proof (call_env_real (fun _ => 0%Z)) as HV. assert (HE : elitism_le1 g) by (split; reflexivity).
    destruct (ops_safe (cma_num p40) flat_env g HV (dims_of p40 g eq_refl) HP HF (cfg_room p40 HL) HE eq_refl [OGen pop []] s1 W I1) as [(s2 & R & J)|R]; [pose proof (Ok_inj _ _ (eq_trans (eq_sym R) E2)) as ->; exact J|discriminate (eq_trans (eq_sym R) E2)]. }
  destruct (ask_safe (cma_num p40) flat_env g (dims_of p40 g eq_refl) HP HF (cfg_room p40 HL) s IS) as (pop' & s' & E3 & PO' & _).
  exists p40, flat_env, g, x0, num0, s0, pop, s1, s, pop', s'.
  split; [exists 40%nat, 4%nat, []; split; [lia|split; [lia|split; [cbn; lia|reflexivity]]]|].
  do 4 (split; [first [reflexivity|exact SP]|]). split; [exact E0|]. split; [unfold cov_of; rewrite N0; apply diag_ident|]. do 3 (split; [assumption|]).
  intros a (_ & _ & NP). 
  pose proof (ask_normal p40 flat_env g s pop' s' SP E3) as (QL & _ & QQ). 
  assert (TN : t_niter s = 1%Z). { rewrite <- Z2. apply IS. }
  assert (EN2 : x_smean (eigen_num p40 (t_niter s) (s_num (t_sol s))) = init_mean p40 x0).
  { rewrite N2, N1, TN. unfold eigen_num. change (k_sep (p_k p40)) with false. change (k_vd (p_k p40)) with false. change (p_lazy p40) with true. cbn [orb negb Z.eqb].
    destruct (Rlt_dec _ _) as [B|B]; [exfalso|reflexivity]. cbn [x_eigiter update_num with_pos with_solver] in B. pose proof k40_lazy. change (k_lazy k40 < IZR 1) in B. lra. }
  rewrite EN2 in QQ.
  destruct pop' as [|x pop']; [discriminate QL|]. specialize (NP 0%nat x 0%nat eq_refl (RP _ _) ltac:(cbn; lia) (FX _)). specialize (QQ 0%nat x 0%nat eq_refl (RP _ _) ltac:(cbn; lia) (FX _)).
  assert (DR : forall b, mv (k_dim (p_k p40)) b (draws_of p40 (drawn s) 0) 0%nat = 0).
  { intros b. unfold mv. rewrite (rsum_ext _ _ (fun _ => 0 * 0)).
    - rewrite rsum_scal. ring.
    - intros j _. assert (D : drawn s = 160%nat). { unfold drawn. rewrite N2. cbn [x_pos update_num]. rewrite N1. reflexivity. }
      unfold draws_of. rewrite D. change (p_normal p40) with step_normal. unfold step_normal. destruct (Nat.ltb_spec (160 + 0 * k_dim (p_k p40) + j) 160); [lia|ring]. }
  rewrite DR in NP, QQ. rewrite NP in QQ. injection QQ as QQ. rewrite M0 in QQ. rewrite (SM 0%nat) in QQ by lia. lra.
Qed.

(** Draws are used once: their number never decreases, and each ask moves past
    those of its population. *)
Lemma draws_grow p e g h s s' : run_ops (cma_num p) e g h s = Ok s' -> (drawn s <= drawn s')%nat.
Proof.
  intros H. apply (ops_num (cma_num p) e g (fun n => (drawn s <= x_pos n)%nat)) with (h := h) (s := s) (s' := s'); auto;
    try (intros; cbn; lia).
  - intros x0 n H'. cbn. destruct (k_vd (p_k p)); lia.
  - intros i n H'. cbn [cma_num n_eigen]. unfold eigen_num. destruct (_ || _); [assumption|]. destruct (_ || _ || _); assumption.
Qed.

(** Active updates under the conditions of C24. *)
Lemma sample_active p e g h s0 s pop s' : constructed (p_k p) -> p_upd p = Active -> k_sep (p_k p) = false -> p_lazy p = false ->
  eigensolver_ok p -> k_c1 (p_k p) + 0.66 * k_cmu (p_k p) < 0.66 -> same_problem p g -> started p e g s0 -> asked false h ->
  run_ops (cma_num p) e g h s0 = Ok s -> ask (cma_num p) e g s = Ok (pop, s') ->
  exists a, square_root (k_dim (p_k p)) a (full_cov p (s_num (t_sol s))) /\ normal_population p g s s' pop (mean_of s) a.
Proof.
  intros C A S L E R G H1 W H2 H3. pose proof (constructed_vd _ C) as V. destruct (active_pd_thm p e g h s0 s C A S V L E R H1 W H2) as [Y P].
  apply sample_state with (e := e); auto.
  - rewrite S. reflexivity.
  - rewrite S. discriminate.
  - rewrite V. discriminate.
  - intros _. split; [exact L|]. split; [exact Y|]. split; [|exact E]. intros x.
    destruct (Exists_dec (fun i => x i <> 0) (seq 0 (k_dim (p_k p)))) as [X|X].
    { intros i. destruct (Req_EM_T (x i) 0); [right|left]; auto. }
    + apply Exists_exists in X as (i & Hi & Hx). apply in_seq in Hi. left. apply P. exists i. split; [lia|exact Hx].
    + unfold quad, dot. rewrite (rsum_ext _ _ (fun _ => 0 * 0)); [rewrite rsum_scal; lra|]. intros i Hi.
      destruct (Req_EM_T (x i) 0) as [->|N]; [ring|]. exfalso. apply X, Exists_exists. exists i. split; [apply in_seq; lia|exact N].
Qed.
Lemma sample_active_sep p e g h x0 n0 s0 s pop s' : constructed (p_k p) -> p_upd p = Active -> k_sep (p_k p) = true ->
  k_c1 (p_k p) + 0.66 * k_cmu (p_k p) < 0.66 -> same_problem p g -> st_new (cma_num p) g x0 n0 = Ok s0 -> run_ops (cma_num p) e g h s0 = Ok s ->
  ask (cma_num p) e g s = Ok (pop, s') ->
  exists a, square_root (k_dim (p_k p)) a (full_cov p (s_num (t_sol s))) /\ normal_population p g s s' pop (mean_of s) a.
Proof.
  intros C A S R G H1 H2 H3. pose proof (constructed_vd _ C) as V. apply sample_state with (e := e); auto.
  - rewrite V. apply andb_false_r.
  - intros _ i Hi. left. eapply active_sep_thm; eauto.
  - rewrite V. discriminate.
  - rewrite S. discriminate.
Qed.
(** VD-CMA: any state. *)
Lemma sample_vd p e g s pop s' : k_vd (p_k p) = true -> k_sep (p_k p) = false -> same_problem p g ->
  (exists i, (i < k_dim (p_k p))%nat /\ x_v (s_num (t_sol s)) i <> 0) -> ask (cma_num p) e g s = Ok (pop, s') ->
  exists a, square_root (k_dim (p_k p)) a (full_cov p (s_num (t_sol s))) /\ normal_population p g s s' pop (mean_of s) a.
Proof.
  intros V S G X H. apply sample_state with (e := e); auto.
  - rewrite S. reflexivity.
  - rewrite S. discriminate.
  - rewrite V, orb_true_r. discriminate.
Qed.
(** Instances. *)
Lemma run_ask k fl eig : k_lambda k = 4%nat -> k_fixed k = [] -> exists s0 s pop s',
  st_new (cma_num (npar_eig k fl eig)) (cfg_of k) [1; 2] num0 = Ok s0 /\ run_ops (cma_num (npar_eig k fl eig)) (call_env zig) (cfg_of k) h24 s0 = Ok s /\
  ask (cma_num (npar_eig k fl eig)) (call_env zig) (cfg_of k) s = Ok (pop, s').
Proof.
  intros L F. set (p := npar_eig k fl eig).
  assert (HL : (2 <= k_lambda (p_k p))%nat) by (cbn; lia).
  assert (HF : forall i v, In (i, v) (k_fixed (p_k p)) -> (0 <= i < Z.of_nat (k_dim (p_k p)))%Z) by (cbn; rewrite F; intros i v []).
  set (g := cfg_of (p_k p)).
  assert (HP : pheno_total (call_env zig) g) by (intros x _; cbn; eauto).
  pose proof (call_env_real zig) as HV. assert (HE : elitism_le1 g) by (split; reflexivity).
  destruct (run24_eig k fl eig L F) as (s0 & s & E0 & E). pose proof (sinv_new (cma_num p) g [1; 2] num0 s0 E0) as I0.
  assert (W : Forall (proper_op g) h24) by (unfold h24; repeat apply Forall_cons; try apply Forall_nil; cbn; auto).
  destruct (ops_safe (cma_num p) (call_env zig) g HV (dims_of p g eq_refl) HP HF (cfg_room p HL) HE eq_refl h24 s0 W I0) as [(s2 & R & J)|R];
    [pose proof (Ok_inj _ _ (eq_trans (eq_sym R) E)) as ->|discriminate (eq_trans (eq_sym R) E)].
  destruct (ask_safe (cma_num p) (call_env zig) g (dims_of p g eq_refl) HP HF (cfg_room p HL) s J) as (pop & s' & E3 & _).
  exists s0, s, pop, s'. auto.
Qed.
Definition kvd24 : cpar := set_vd (set_algo 12 k24).
Lemma vd_ask : exists s0 pop s', let p := npar_of kvd24 Vd in st_new (cma_num p) (cfg_of kvd24) [1; 2] num0 = Ok s0 /\
  (exists i, (i < k_dim (p_k p))%nat /\ x_v (s_num (t_sol s0)) i <> 0) /\ ask (cma_num p) (call_env zig) (cfg_of kvd24) s0 = Ok (pop, s').
Proof.
  set (p := npar_of kvd24 Vd).
  assert (HL : (2 <= k_lambda (p_k p))%nat) by (cbn; lia).
  assert (HF : forall i v, In (i, v) (k_fixed (p_k p)) -> (0 <= i < Z.of_nat (k_dim (p_k p)))%Z) by (intros i v []).
  set (g := cfg_of (p_k p)).
  assert (HP : pheno_total (call_env zig) g) by (intros x _; cbn; eauto).
  destruct (new_ok p HL [1; 2] num0) as [s0 E0]. pose proof (sinv_new (cma_num p) g [1; 2] num0 s0 E0) as I0.
  destruct (ask_safe (cma_num p) (call_env zig) g (dims_of p g eq_refl) HP HF (cfg_room p HL) s0 I0) as (pop & s' & E3 & _).
  exists s0, pop, s'. cbv zeta. split; [exact E0|]. split; [|exact E3]. exists 0%nat. split; [cbn; lia|].
  apply st_new_num in E0. rewrite E0. change (1 / sqrt (1 + 1) <> 0).
  assert (0 < sqrt (1 + 1)) by (apply sqrt_lt_R0; lra). apply Rgt_not_eq. apply Rdiv_lt_0_compat; lra.
Qed.
