(** Arbitrary changes of the training set's length, stopping criteria, the best of a generation. *)
From Coq Require Import Permutation QArith Lqa.
From Verif Require Import Base Dbl DblProofs Config Search SpecSearch SortProofs SearchInv CounterProofs StopProofs LogProofs SpecUh Surr SpecSurr SurrInv SurrProofs SurrThms SurrThms2 SurrThms3.
Local Open Scope Z_scope.

Section Suffix.
Context {T N M : Type}.
Variable so : surrops T N M.
Variable no : numops T N.
Variable e : env T N.
Variable g : cfg T.
Variable k : kind.
Notation surr := (surr T N M).
Implicit Types (u : surr).
Hypothesis HE : no_elitism g.
Hypothesis HU : g_uh g = false.
Hypothesis HS : samples_ok no.
Hypothesis CS : cand_sort_ok so.

Definition suffix u : Prop :=
  cands_len g u /\ (u_since u <= length (t_gens (u_st u)))%nat /\ (exists p, since_reset u = p ++ u_tset u) /\ (1 <= g_lambda g)%nat.
Lemma suffix_log u s : suffix u -> t_gens s = t_gens (u_st u) -> s_cands (t_sol s) = s_cands (t_sol (u_st u)) -> suffix (set_u_st s u).
Proof. intros (A1 & A2 & A3 & A4) G C. unfold suffix, cands_len, since_reset in *. ucbn. rewrite G, C. auto. Qed.
Lemma suffix_ops h : Forall (sized g) h -> forall u0 u, suffix u0 -> run_sops so no e g k h u0 = Ok u -> suffix u.
Proof.
  intros W1 u0 u H0 H. refine (U_ops so no e g k suffix (lam_or_pre g k) _ _ _ _ _ _ h u0 u _ H0 H); clear H0 H u0 u.
  - intros u pop u' (A1 & A3 & A4 & A7) H. apply ask_gen in H as (B1 & _ & B2 & B3 & B4 & _ & _ & B5 & lg & B6 & _); auto. split; auto.
    unfold suffix, cands_len, since_reset in *. rewrite B2, B3. split; auto.
    destruct B5 as [(-> & -> & _)|(NS & -> & -> & _)]; [repeat (split; [assumption|]); exact A7|].
    split; [lia|]. rewrite skipn_all. split; [exists []; reflexivity|auto].
  - intros u cols ph u1 u2 (A1 & A3 & A4 & A7) OC HP H1 H2.
    apply eval_gen in H1 as (test & GE & CL & _ & L1 & S1 & _ & _ & _); auto.
    apply tell_gen in H2 as (CL2 & T1 & T2 & T3 & T4 & T5 & _); auto.
    destruct GE as (lg & B1 & B2 & B3 & B4 & B5).
    unfold suffix, since_reset in *. ucbn. unfold inc_iter. cbn [t_gens set_t_sol set_t_niter]. unfold cands_len in *. ucbn. cbn [t_sol set_t_sol s_cands set_s_niter].
    split; [exact CL2|]. rewrite T2, T3, T5, S1, B5.
    destruct B4 as [->|[-> ->]].
    + rewrite skipn_snoc, !concat_snoc by auto. rewrite app_length. split; [lia|]. split; auto. now apply pushes_suffix.
    + split; [lia|]. split; auto.
  - intros u b s W H. apply stop_spec in H as [(_ & -> & _)|(_ & _ & [(_ & _ & ->)|(_ & r & _ & _ & ->)])]; apply suffix_log; auto.
  - intros u s W H. apply eval_initial_spec in H as [(_ & ->)|(_ & y & _ & ->)]; apply suffix_log; auto.
  - intros u s W _ H. apply edm_spec in H as ((K & G & C & lg & L & _) & _). apply suffix_log; eauto.
  - intros u s1 rf fuel r s2 W H _ _. now apply (no_restart no g HE) in H.
  - rewrite Forall_forall in *. intros o Ho. specialize (W1 o Ho). destruct o; cbn in *; auto; try contradiction.
    + intros u _. left. auto.
    + intros u u' W H. apply Ok_inj in H. subst u'. exact W.
    + intros u u' W H. apply Ok_inj in H. subst u'. exact W.
    + intros u u' W H. apply Ok_inj in H. subst u'. unfold set_nsteps. destruct (_ <? 0); exact W.
    + intros u u' W H. apply Ok_inj in H. subst u'. exact W.
    + intros u u' W H. apply Ok_inj in H. subst u'. exact W.
Qed.
Lemma suffix_thm l m x0 n h u0 u : Forall (sized g) h -> k_new no g k l m x0 n = Ok u0 -> run_sops so no e g k h u0 = Ok u ->
  exists older, since_reset u = older ++ u_tset u.
Proof.
  intros W1 H0 H. apply (suffix_ops h) in H as (_ & _ & A & _); auto.
  apply k_new_spec in H0 as (s & H0 & E1 & E2 & E3 & E4 & _). apply st_new_spec in H0 as (_ & s0 & H0 & ->). apply sol_new_spec in H0 as (L & ->).
  unfold suffix, cands_len, since_reset. rewrite E1, E3, E4. cbn. rewrite repeat_length. repeat (split; [auto|]); auto. exists []. auto.
Qed.
End Suffix.

(** Stopping criteria: every history, any configuration. *)
Section Flags.
Context {T N M : Type}.
Variable so : surrops T N M.
Variable no : numops T N.
Variable e : env T N.
Variable g : cfg T.
Variable k : kind.
Notation surr := (surr T N M).
Implicit Types (u : surr).
Lemma flag_other m a b c v : c <> a -> In (c, v) (set_criteria_active m a b) <-> In (c, v) m.
Proof.
  intros NE. unfold set_criteria_active. rewrite in_map_iff. split.
  - intros ([c' v'] & E & H). cbn in E. destruct (Z.eqb_spec c' a); [injection E as <- <-; congruence|]. now injection E as <- <-.
  - intros H. exists (c, v). cbn. destruct (Z.eqb_spec c a); [congruence|auto].
Qed.
Definition untouched c : Prop := c <> 6 /\ (k = Simple -> c <> 7 /\ c <> 10).
Definition flags_kept u : Prop := forall c v, untouched c -> In (c, v) (u_flags u) <-> In (c, v) (g_flags g).
Lemma eval_flags cols ph u u1 : k_eval so no e g k cols ph u = Ok u1 -> forall c v, untouched c -> In (c, v) (u_flags u1) <-> In (c, v) (u_flags u).
Proof.
  intros H c v [N6 NS]. destruct k as [|d]; cbn [k_eval] in H.
  - destruct (NS eq_refl) as [N7 N10]. unfold simple_eval in H. inv_do H. destruct (_ || _).
    + inv_do H. inv_do H. apply test_step_spec in H1 as (te & sm & ->).
      assert (Q : u_flags a1 = set_criteria_active (u_flags u) 10 true).
      { destruct (_ && _ && _) in H2; [inv_do H2|]; apply Ok_inj in H2; subst a1; reflexivity. }
      apply true_eval_spec in H as (s & _ & ->). ucbn. rewrite Q. now apply flag_other.
    + apply predict_cols_spec in H as (cs & -> & _). unfold with_cands. ucbn. now apply flag_other.
  - unfold acm_eval in H. destruct (_ && _).
    + apply pre_selection_spec in H as (test & err & sl & _ & B2 & _). destruct B2 as (_ & _ & _ & _ & _ & _ & -> & _). reflexivity.
    + inv_do H. apply test_step_spec in H0 as (te & sm & ->). apply true_eval_spec in H as (s & _ & ->). reflexivity.
Qed.
Lemma flags_ops h : forall u0 u, flags_kept u0 -> run_sops so no e g k h u0 = Ok u -> flags_kept u.
Proof.
  intros u0 u H0 H. refine (U_ops so no e g k flags_kept (fun _ _ => True) _ _ _ _ _ _ h u0 u _ H0 H); clear H0 H u0 u.
  - intros u pop u' W H. split; auto. intros c v Hc. destruct k as [|d]; cbn [k_ask] in H.
    + apply simple_ask_spec in H as (s & _ & ->). apply W; auto.
    + unfold acm_ask, lift_ask in H. inv_do H. apply Ok_inj in H. injection H as _ <-. ucbn.
      destruct (_ =? 0); [destruct (u_tset u)|]; apply W; auto.
  - intros u cols ph u1 u2 W _ HP H1 H2. intros c v Hc. pose proof (eval_flags _ _ _ _ H1 c v Hc) as E.
    assert (E2 : u_flags u2 = u_flags u1).
    { destruct k as [|d]; cbn [k_tell] in H2; [apply simple_tell_spec in H2 as (s & mm & _ & ->); reflexivity|].
      apply acm_tell_spec in H2 as (s1 & s2 & mm & te & _ & _ & _ & ->). reflexivity. }
    ucbn. rewrite E2, E. auto.
  - intros u b s W _. exact W.
  - intros u s W _. exact W.
  - intros u s W _ _. exact W.
  - intros u s1 rf fuel r s2 W _ _ _. exact W.
  - apply Forall_forall. intros o _. destruct o; cbn; auto; intros u u' W H; apply Ok_inj in H; subst u'; try exact W.
    unfold set_nsteps. destruct (_ <? 0); exact W.
Qed.
Lemma flags_thm l m x0 n h u0 u : k_new no g k l m x0 n = Ok u0 -> run_sops so no e g k h u0 = Ok u -> flags_kept u.
Proof.
  intros H0 H. eapply flags_ops; [|exact H]. intros c v [N6 NS]. destruct k; cbn [k_new] in H0.
  - destruct (NS eq_refl) as [N7 N10]. unfold simple_new in H0. inv_do H0. apply Ok_inj in H0. subst u0. cbn. now rewrite !flag_other.
  - unfold acm_new in H0. inv_do H0. apply Ok_inj in H0. subst u0. cbn. now rewrite !flag_other.
Qed.
End Flags.

Section GenBest.
Context {T N M : Type}.
Variable so : surrops T N M.
Variable no : numops T N.
Variable e : env T N.
Variable g : cfg T.
Notation surr := (surr T N M).
Implicit Types (u : surr).
Lemma acm_ends cols ph u : cand_sort_ok so -> (forall x, e_pheno e x <> Fault Diverges) -> u_exploit u && full u = true ->
  (g_lambda g <= length cols)%nat -> u_lambdap u <= Z.of_nat (Nat.max 1 (g_lambda g)) ->
  fair (length cols) (p_draw0 so) -> fair (Nat.max 1 (g_lambda g)) (p_draw1 so) ->
  exists d r, r <> Fault Diverges /\ forall d', (d <= d')%nat -> acm_eval so no e g d' cols ph u = r.
Proof. intros. unfold acm_eval. rewrite H1. apply preselection_ends; auto. Qed.
Lemma acm_sizes d cols ph u u' : cand_sort_ok so -> u_exploit u && full u = true -> acm_eval so no e g d cols ph u = Ok u' ->
  (g_lambda g <= length cols)%nat /\ u_lambdap u <= Z.of_nat (Nat.max 1 (g_lambda g)).
Proof. intros CS Q H. unfold acm_eval in H. rewrite Q in H. eapply preselection_sizes; eauto. Qed.

Hypothesis HE : no_elitism g.
Hypothesis HU : g_uh g = false.
Hypothesis CS : cand_sort_ok so.
Lemma gen_best d cols ph u u1 u2 : (1 <= g_lambda g)%nat -> length (s_cands (t_sol (u_st u))) = g_lambda g -> (length cols = g_lambda g \/ u_exploit u && full u = true) ->
  mapM (e_pheno e) cols = Ok ph -> 1 <= s_maxhist (t_sol (u_st u)) ->
  acm_eval so no e g d cols ph u = Ok u1 -> acm_tell so no u1 = Ok u2 ->
  (u_exploit u = false \/ full u = true \/ full u1 = false) ->
  exists test, t_gens (u_st u2) = t_gens (u_st u) ++ [test] /\ test <> [] /\
    forall b, In b test -> dlt (c_f b) (c_f (best_candidate no (t_sol (u_st u2)))) = false.
Proof.
  intros HL CL SZ HP MH H1 H2 C.
  assert (LP : lam_or_pre g (ACM d) u cols) by (destruct SZ; [left; auto|right; eauto]).
  pose proof (eval_gen so no e g (ACM d) cols ph u u1 HE HU HL CS CL LP HP H1) as (test & GE & CL1 & K & _ & _ & X1 & _ & T0).
  destruct (T0 d eq_refl) as [T1 T2]. destruct GE as (lg & _ & _ & _ & GG & _).
  assert (EG : t_gens (u_st u1) = t_gens (u_st u) ++ [test]) by (destruct GG as [|[-> _]]; auto; cbn in T1; lia).
  assert (NE : test <> []) by (intros ->; cbn in T1; lia).
  exists test. assert (EG2 : t_gens (u_st u2) = t_gens (u_st u1)).
  { apply (tell_gen so no e g (ACM d)) in H2 as (_ & _ & Q & _); auto. }
  split; [congruence|]. split; auto. intros b Hb.
  assert (MX : s_maxhist (t_sol (u_st u1)) = s_maxhist (t_sol (u_st u))) by (unfold keep in K; now injection K).
  assert (CO : u_exploit u1 && full u1 = false -> compares_ok (s_cands (t_sol (u_st u1))) = true).
  { intros Q. unfold acm_tell in H2. rewrite <- negb_andb, Q in H2. cbn [negb] in H2. unfold sort_candidates in H2.
    destruct (compares_ok _); [auto|discriminate]. }
  apply acm_tell_spec in H2 as (s1 & s2 & mm & te & Es1 & Es2 & _ & ->). ucbn. cbn [t_sol set_t_sol].
  assert (MX1 : s_maxhist s1 = s_maxhist (t_sol (u_st u1))) by (rewrite Es1; destruct (u_exploit u1 && full u1); reflexivity).
  apply ubc_spec in Es2 as (_ & c0 & ck & cl & mm' & rest & U1 & _ & _ & _ & U5 & _).
  assert (BC : best_candidate no (set_s_num (n_update no (s_niter s2) (map c_x (s_cands s2)) (s_num s2)) s2) = c0).
  { unfold best_candidate. cbn [s_hist set_s_num]. rewrite U5. unfold drop_if. rewrite app_length. cbn [length].
    set (ov := _ <? _). assert (Hov : s_hist s1 = [] -> ov = false) by (intros E; unfold ov; rewrite E; apply Z.ltb_ge; cbn [length]; lia).
    clearbody ov. destruct ov; [|now rewrite rev_app_distr]. destruct (s_hist s1) as [|h hs]; [now specialize (Hov eq_refl)|].
    change (tl ((h :: hs) ++ [c0])) with (hs ++ [c0]). now rewrite rev_app_distr. }
  rewrite BC. destruct (u_exploit u && full u) eqn:Q.
  - destruct T2 as [F1 _]. unfold acm_eval in H1. rewrite Q in H1. apply pre_best in H1 as (test' & c & Q1 & Q2 & Q3); auto.
    rewrite X1, F1 in Es1. apply andb_true_iff in Q as [Q _]. rewrite Q in Es1. cbn [andb] in Es1. subst s1.
    rewrite Q1 in EG. apply app_inj_tail in EG as [_ <-]. rewrite U1 in Q2. injection Q2 as ->. now apply Q3.
  - assert (F : u_exploit u1 && full u1 = false).
    { rewrite X1. destruct C as [->|[F|F]]; [reflexivity| |rewrite F; apply andb_false_r]. rewrite F, andb_true_r in Q. now rewrite Q. }
    rewrite F in Es1. subst s1. subst test. cbn [s_cands set_s_cands] in U1.
    assert (FM : first_min (s_cands (t_sol (u_st u1))) = Some c0) by (rewrite <- sort_first_min; destruct (sort_cands _); [discriminate|exact U1]).
    specialize (CO F). unfold compares_ok in CO. apply negb_true_iff, andb_false_iff in CO as [CO|CO].
    + assert (NN : nonan (s_cands (t_sol (u_st u1)))).
      { intros c Hc E. assert (existsb (fun c => is_nan (c_f c)) (s_cands (t_sol (u_st u1))) = true); [|congruence].
        apply existsb_exists. exists c. split; auto. now rewrite E. }
      apply dle_lt_false. eapply first_min_le; eauto.
    + destruct (dlt (c_f b) (c_f c0)) eqn:D; auto. exfalso.
      assert (existsb (fun a => existsb (fun b => dlt (c_f a) (c_f b)) (s_cands (t_sol (u_st u1)))) (s_cands (t_sol (u_st u1))) = true); [|congruence].
      apply existsb_exists. exists b. split; auto. apply existsb_exists. exists c0. split; auto. now apply first_min_in.
Qed.
End GenBest.
