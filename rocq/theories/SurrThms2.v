(** Reported candidates, errors and termination with a surrogate. *)
From Coq Require Import Permutation QArith Lqa.
From Verif Require Import Base Dbl DblProofs Config Search SpecSearch SortProofs SearchInv CounterProofs StopProofs LogProofs SpecUh Surr SpecSurr SurrInv SurrProofs SurrThms.
Local Open Scope Z_scope.

Section Truth.
Context {T N M : Type}.
Variable so : surrops T N M.
Variable no : numops T N.
Variable e : env T N.
Variable g : cfg T.
Variable k : kind.
Notation surr := (surr T N M).
Implicit Types (u : surr).
Hypothesis HE : no_elitism g.
Hypothesis HU : g_uh g = false.
Hypothesis HS : samples_ok no.
Hypothesis CS : cand_sort_ok so.

Definition or_none u (c : cand T) : Prop := c = cand0 \/ evaluated e u c.
Definition plain u : Prop := k = Simple -> u_nsteps u = 1 /\ u_auto u = false.
Definition truth u : Prop :=
  cands_len g u /\ (1 <= g_lambda g)%nat /\ (forall c, In c (s_hist (t_sol (u_st u))) -> evaluated e u c) /\
  or_none u (s_best (t_sol (u_st u))) /\ or_none u (s_init (t_sol (u_st u))) /\ plain u.
Lemma or_none_log u u' c : (exists lg, t_log (u_st u') = t_log (u_st u) ++ lg) -> or_none u c -> or_none u' c.
Proof. intros L [H|H]; [left; auto|right; eapply evaluated_log; eauto]. Qed.

Lemma simple_real cols ph u u1 : u_nsteps u = 1 -> u_auto u = false -> simple_eval so no e g cols ph u = Ok u1 ->
  real_eval no e g cols ph u u1 /\ u_nsteps u1 = 1 /\ u_auto u1 = false.
Proof.
  intros E1 E2 H. unfold simple_eval in H. inv_do H. assert (a = true).
  { destruct (u_exploit u); [|now apply Ok_inj in H0]. unfold every in H0. rewrite E1 in H0. cbn in H0. apply Ok_inj in H0. rewrite <- H0. now rewrite Z.rem_1_r. }
  subst a. cbn [orb] in H. inv_do H. inv_do H. apply test_step_spec in H1 as (te & sm & ->). ucbn. rewrite E2, andb_false_r in H2. apply Ok_inj in H2. subst a0.
  apply true_eval_spec in H as (s & E & ->). ucbn. split; [|auto].
  exists (set_criteria_active (u_flags u) 10 true), (u_nsteps u), te, sm, s. split; [exact E|]. destruct u; reflexivity.
Qed.
Lemma truth_log u s : truth u -> keep s = keep (u_st u) -> s_cands (t_sol s) = s_cands (t_sol (u_st u)) -> (exists lg, t_log s = t_log (u_st u) ++ lg) ->
  truth (set_u_st s u).
Proof.
  intros (A1 & A2 & A3 & A4 & A5 & A6) K C L. unfold keep in K. injection K as K1 K2 K3 K4 K5 K6 K7 K8 _. unfold truth, cands_len in *. ucbn. rewrite K1, K5, K8, C.
  split; auto. split; auto. split; [intros c Hc; eapply evaluated_log; [exact L|auto]|].
  split; [eapply or_none_log; [exact L|auto]|]. split; [eapply or_none_log; [exact L|auto]|exact A6].
Qed.
(** Histories after tell *)
Lemma best_step (s1 s2 : sol T N) u : update_best_candidates no s1 = Ok s2 ->
  (forall c, nth_error (s_cands s1) 0 = Some c -> evaluated e u c) ->
  (forall c, In c (s_hist s1) -> evaluated e u c) -> or_none u (s_best s1) -> or_none u (s_init s1) ->
  (forall c, In c (s_hist s2) -> evaluated e u c) /\ or_none u (s_best s2) /\ or_none u (s_init s2).
Proof.
  intros H H0 H1 H2 H3. apply ubc_spec in H as (K & c0 & ck & cl & mm & rest & U1 & _ & _ & _ & U5 & _ & _ & _ & U9 & _).
  unfold kept_by_tell in K. injection K as _ K2 _. split; [|split].
  - intros c Hc. rewrite U5 in Hc. assert (Q : In c (s_hist s1 ++ [c0])).
    { unfold drop_if in Hc. destruct (_ <? _); auto. destruct (s_hist s1 ++ [c0]); cbn in *; auto. }
    apply in_app_iff in Q as [Q|[<-|[]]]; auto.
  - rewrite U9. destruct (best_take s1 c0); auto. right; auto.
  - now rewrite K2.
Qed.
Lemma truth_ops h : below_max e \/ k = Simple -> Forall (sized g) h -> (k = Simple -> Forall keeps_nsteps h) ->
  forall u0 u, truth u0 -> run_sops so no e g k h u0 = Ok u -> truth u.
Proof.
  intros BM W1 W2 u0 u H0 H. refine (U_ops so no e g k truth (lam_or_pre g k) _ _ _ _ _ _ h u0 u _ H0 H); clear H0 H u0 u.
  - intros u pop u' W H. pose proof H as H'. apply ask_gen in H as (B1 & K & B2 & B3 & B4 & B5 & _ & B6 & lg & B7 & B8); auto. split; auto.
    destruct W as (A1 & A2 & A3 & A4 & A5 & A6). unfold keep in K. injection K as K1 K2 K3 K4 K5 K6 K7 K8 _. unfold truth, cands_len in *.
    rewrite K1, K5, K8, B3. assert (L : exists lg, t_log (u_st u') = t_log (u_st u) ++ lg) by eauto.
    split; auto. split; auto. split; [intros c Hc; eapply evaluated_log; [exact L|auto]|].
    split; [eapply or_none_log; [exact L|auto]|]. split; [eapply or_none_log; [exact L|auto]|].
    intros Ek. unfold plain in A6. rewrite Ek in H'. cbn [k_ask] in H'. apply simple_ask_spec in H' as (s & _ & ->). ucbn. auto.
  - intros u cols ph u1 u2 (A1 & A2 & A3 & A4 & A5 & A6) OC HP H1 H2. pose proof H1 as H1'. pose proof H2 as H2'.
    apply eval_gen in H1 as (test & GE & CL & K & L1 & S1 & X1 & _ & T0); auto.
    apply tell_gen in H2 as (CL2 & T1 & T2 & T3 & T4 & T5 & _); auto.
    pose proof GE as GE'. destruct GE as (lg & B1 & B2 & B3 & B4 & B5).
    unfold keep in K. injection K as K1 K2 K3 K4 K5 K6 K7 K8 _.
    assert (C3 : forall c, In c (s_hist (t_sol (u_st u1))) -> evaluated e u1 c) by (rewrite K1; intros c Hc; eapply evaluated_log; eauto).
    assert (C4 : or_none u1 (s_best (t_sol (u_st u1)))) by (rewrite K5; eapply or_none_log; eauto).
    assert (C5 : or_none u1 (s_init (t_sol (u_st u1)))) by (rewrite K8; eapply or_none_log; eauto).
    assert (F : (forall c, In c (s_hist (t_sol (u_st u2))) -> evaluated e u1 c) /\ or_none u1 (s_best (t_sol (u_st u2))) /\ or_none u1 (s_init (t_sol (u_st u2))) /\ plain u2).
    { clear W1 W2. destruct k as [|d] eqn:Ek; cbn [k_eval k_tell] in *.
      - destruct (A6 Ek) as [P1 P2]. apply simple_real in H1' as (R & P1' & P2'); auto.
        assert (TC : forall c, In c (s_cands (t_sol (u_st u1))) -> evaluated e u1 c).
        { assert (LC : length cols = length (s_cands (t_sol (u_st u)))).
          { destruct OC as [OC|(d & Q & _)]; [|congruence]. unfold cands_len in A1. congruence. }
          intros c Hc. destruct (real_eval_gen no e g cols ph u u1 HE HU HP R LC) as [GE2 _]. eapply gen_evaluated; eauto. }
        apply simple_tell_spec in H2' as (s & mm & H2' & ->). ucbn. apply tell_spec in H2' as (s1 & s2 & s3 & n4 & R1 & R2 & R3 & -> & _).
        destruct R1 as [(_ & _ & ->)|(Q & _)]; [|change (g_uh (with_flags g u1)) with (g_uh g) in Q; congruence].
        cbn [t_sol set_t_sol s_hist s_best s_init set_s_num]. 
        assert (EQ : s_cands s2 = sort_cands (s_cands (t_sol (u_st u1))) /\ s_hist s2 = s_hist (t_sol (u_st u1)) /\ s_best s2 = s_best (t_sol (u_st u1)) /\ s_init s2 = s_init (t_sol (u_st u1)))
          by (rewrite R2; destruct (_ =? 2); destruct (0 <? _); cbn [andb]; auto).
        destruct EQ as (Q1 & Q2 & Q3 & Q4). apply (best_step s2 s3 u1) in R3; rewrite ?Q1, ?Q2, ?Q3, ?Q4; auto.
        + destruct R3 as (R4 & R5 & R6). split; auto. split; auto. split; auto. intros _. auto.
        + intros c Hc. apply TC. apply sort_in. eapply nth_error_In; eauto.
      - apply acm_tell_spec in H2' as (s1 & s2 & mm & te & Es1 & Es2 & _ & ->). ucbn. cbn [t_sol set_t_sol s_hist s_best s_init set_s_num].
        destruct (T0 d eq_refl) as [_ T0']. destruct BM as [BM|]; [|discriminate].
        assert (R : (forall c, In c (s_hist s2) -> evaluated e u1 c) /\ or_none u1 (s_best s2) /\ or_none u1 (s_init s2)).
        { apply (best_step s1); auto; rewrite Es1.
          2-4: destruct (u_exploit u1 && full u1); auto.
          destruct (u_exploit u && full u) eqn:Ef.
          - destruct T0' as [T8 T9]. rewrite T8, X1. apply andb_true_iff in Ef as [-> _]. cbn [andb]. destruct (T9 BM) as (c & Hc & Hv).
            intros c' Hc'. rewrite Hc in Hc'. injection Hc' as <-. auto.
          - intros c Hc. eapply gen_evaluated; eauto. rewrite T0'. destruct (u_exploit u1 && full u1).
            + eapply nth_error_In; eauto.
            + cbn [s_cands set_s_cands] in Hc. apply sort_in. eapply nth_error_In; eauto. }
        destruct R as (R4 & R5 & R6). split; auto. split; auto. split; auto. intros Q; congruence. }
    destruct F as (F1 & F2 & F3 & F4). unfold truth, cands_len in *. ucbn. unfold inc_iter. cbn [t_gens t_log t_initel set_t_sol set_t_niter t_sol s_cands set_s_niter s_hist s_best s_init].
    assert (L : exists lg, t_log (u_st (set_u_st (inc_iter (u_st u2)) u2)) = t_log (u_st u1) ++ lg) by (exists []; rewrite app_nil_r; exact T1).
    split; auto. split; auto. split; [intros c Hc; eapply evaluated_log; [exact L|auto]|].
    split; [eapply or_none_log; [exact L|auto]|]. split; [eapply or_none_log; [exact L|auto]|exact F4].
  - intros u b s W H. apply stop_spec in H as [(_ & -> & _)|(_ & _ & [(_ & _ & ->)|(_ & r & _ & _ & ->)])]; [exact W|exact W|].
    destruct W as (A1 & A2 & A3 & A4 & A5 & A6). repeat (split; [assumption|]). exact A6.
  - intros u s W H. apply eval_initial_spec in H as [(_ & ->)|(_ & y & Hy & ->)]; auto. destruct W as (A1 & A2 & A3 & A4 & A5 & A6).
    set (v := e_f e _ y). set (c := cand_of v _). set (s' := set_t_log _ _).
    assert (L : exists lg, t_log (u_st (set_u_st s' u)) = t_log (u_st u) ++ lg) by (eexists; reflexivity).
    assert (EV : evaluated e (set_u_st s' u) c).
    { exists (length (t_log (u_st u))), y. split; [|split; [exact Hy|reflexivity]]. unfold s'. ucbn. cbn [t_log set_t_log]. rewrite nth_error_app2, Nat.sub_diag by lia. reflexivity. }
    unfold truth. split; [exact A1|]. split; auto. split; [intros d Hd; eapply evaluated_log; [exact L|auto]|]. split; [right; exact EV|]. split; [right; exact EV|exact A6].
  - intros u s W _ H. apply edm_spec in H as ((K & G & C & lg & L & _) & _). apply truth_log; eauto.
  - intros u s1 rf fuel r s2 W H _ _. now apply (no_restart no g HE) in H.
  - rewrite Forall_forall in *. intros o Ho. specialize (W1 o Ho). assert (W3 : k = Simple -> keeps_nsteps o) by (intros Q; apply (W2 Q); auto).
    destruct o; cbn in *; auto; try contradiction.
    + intros u _. left. auto.
    + intros u u' W H. apply Ok_inj in H. subst u'. exact W.
    + intros u u' W H. apply Ok_inj in H. subst u'. exact W.
    + intros u u' W H. apply Ok_inj in H. subst u'. destruct W as (A1 & A2 & A3 & A4 & A5 & A6).
      assert (NK : k <> Simple) by auto. unfold set_nsteps. destruct (_ <? 0); repeat (split; [assumption|]); intros Q; contradiction.
    + intros u u' W H. apply Ok_inj in H. subst u'. exact W.
    + intros u u' W H. apply Ok_inj in H. subst u'. exact W.
Qed.
Lemma truth_thm l m x0 n h u0 u : below_max e \/ k = Simple -> Forall (sized g) h -> (k = Simple -> Forall keeps_nsteps h) ->
  k_new no g k l m x0 n = Ok u0 -> run_sops so no e g k h u0 = Ok u ->
  (forall c, In c (s_hist (t_sol (u_st u))) -> evaluated e u c) /\
  (s_hist (t_sol (u_st u)) <> [] -> evaluated e u (best_candidate no (t_sol (u_st u)))) /\
  (s_best (t_sol (u_st u)) <> cand0 -> evaluated e u (s_best (t_sol (u_st u)))).
Proof.
  intros BM W1 W2 H0 H. assert (TR : truth u).
  { eapply truth_ops; [exact BM|exact W1|exact W2| |exact H].
    assert (PL : plain u0).
    { intros Ek. rewrite Ek in H0. unfold k_new, simple_new in H0. inv_do H0. apply Ok_inj in H0. subst u0. split; reflexivity. }
    apply k_new_spec in H0 as (s & H0 & E1 & _). apply st_new_spec in H0 as (_ & s0 & H0 & ->). apply sol_new_spec in H0 as (L & ->).
    unfold truth, cands_len, or_none. rewrite E1. cbn. rewrite repeat_length. split; auto. split; [lia|]. split; [intros c []|]. split; auto. }
  destruct TR as (_ & _ & A3 & A4 & _). split; auto. split.
  - intros NE. unfold best_candidate. destruct (rev (s_hist (t_sol (u_st u)))) as [|c r] eqn:E.
    + exfalso. apply NE. rewrite <- (rev_involutive (s_hist _)), E. reflexivity.
    + apply A3. apply in_rev. rewrite E. cbn; auto.
  - intros NE. destruct A4; [contradiction|auto].
Qed.
End Truth.

(** * Errors *)
Section Errors.
Context {T N M : Type}.
Variable so : surrops T N M.
Variable no : numops T N.
Variable e : env T N.
Variable g : cfg T.
Variable k : kind.
Notation surr := (surr T N M).
Implicit Types (u : surr).
Hypothesis HE : no_elitism g.
Hypothesis HU : g_uh g = false.
Hypothesis HS : samples_ok no.
Hypothesis CS : cand_sort_ok so.

Definition errs u : Prop := unit_error (u_test_err u) /\ unit_error (u_smooth u).
Definition err_ok u : Prop :=
  cands_len g u /\ (2 <= g_lambda g)%nat /\ 2 <= u_l u /\ (k = Simple \/ 2 <= u_lambdap u) /\ errs u /\ unit_error (u_train_err u).
Lemma smooth_unit err u : unit_error err -> unit_error (u_smooth u) -> errs (set_test_error err u).
Proof.
  intros (x & -> & X1 & X2) (y & Ey & Y1 & Y2). unfold errs, set_test_error. ucbn. split; [exists x; auto|].
  rewrite Ey. eexists. split; [reflexivity|]. split; lra.
Qed.
Lemma error_unit test u err : (2 <= length test)%nat -> compute_error so test u = Ok err -> unit_error err.
Proof. intros L H. apply compute_error_nan in H as [(Q & _)|(_ & Q)]; auto. lia. Qed.
Lemma test_step_errs u u' : (2 <= length (s_cands (t_sol (u_st u))))%nat -> errs u -> test_step so u = Ok u' -> errs u'.
Proof.
  intros L [E1 E2] H. unfold test_step in H. destruct (_ && _).
  - inv_do H. apply Ok_inj in H. subst u'. apply smooth_unit; auto. eapply error_unit; eauto.
  - apply Ok_inj in H. subst u'. split; auto.
Qed.
Lemma eval_errs cols ph u u1 : err_ok u -> k_eval so no e g k cols ph u = Ok u1 -> errs u1 /\ u_train_err u1 = u_train_err u.
Proof.
  intros (A1 & A2 & A3 & A4 & A5 & A6) H. unfold cands_len in A1. destruct k as [|d]; cbn [k_eval] in H.
  - unfold simple_eval in H. inv_do H. destruct (_ || _).
    + inv_do H. inv_do H. pose proof H1 as H1'. apply test_step_spec in H1' as (te & sm & E).
      apply test_step_errs in H1; [|ucbn; lia|exact A5].
      assert (Q : errs a1 /\ u_train_err a1 = u_train_err u).
      { destruct (_ && _ && _) in H2.
        - inv_do H2. apply Ok_inj in H2. subst a1. split; [exact H1|subst a0; reflexivity].
        - apply Ok_inj in H2. subst a1. split; [exact H1|subst a0; reflexivity]. }
      apply true_eval_spec in H as (s & _ & ->). exact Q.
    + apply predict_cols_spec in H as (cs & -> & _). split; [exact A5|reflexivity].
  - unfold acm_eval in H. destruct (_ && _).
    + apply pre_selection_spec in H as (test & err & sl & B1 & B2 & B3 & B4 & B5 & B6 & B7 & _).
      destruct B2 as (_ & _ & _ & B2 & _). split; auto. destruct A4 as [Q|A4]; [discriminate|].
      apply error_unit in B5; [|lia]. unfold errs. rewrite B6, B7. apply smooth_unit; auto. apply A5.
    + inv_do H. pose proof H0 as H0'. apply test_step_spec in H0' as (te & sm & E). apply test_step_errs in H0; [|lia|auto].
      apply true_eval_spec in H as (s & _ & ->). split; [exact H0|subst a; reflexivity].
Qed.
Lemma errors_ops h : Forall (sized g) h -> Forall (error_op k) h -> forall u0 u, err_ok u0 -> run_sops so no e g k h u0 = Ok u -> err_ok u.
Proof.
  intros W1 W2 u0 u H0 H. refine (U_ops so no e g k err_ok (lam_or_pre g k) _ _ _ _ _ _ h u0 u _ H0 H); clear H0 H u0 u.
  - intros u pop u' (A1 & A2 & A3 & A4 & A5 & A6) H. apply ask_gen in H as (B1 & K & B2 & B3 & B4 & B5 & B6 & B7 & _); auto. split; auto.
    unfold err_ok, cands_len, errs in *. rewrite B3, B4, B6. repeat (split; [assumption|]).
    destruct B7 as [(_ & _ & -> & -> & ->)|(_ & _ & _ & -> & -> & ->)]; [auto|].
    split; [split; (eexists; split; [reflexivity|split; lra])|]. eexists; split; [reflexivity|split; lra].
  - intros u cols ph u1 u2 W OC HP H1 H2. pose proof W as (A1 & A2 & A3 & A4 & A5 & A6).
    pose proof H1 as H1'. apply eval_errs in H1' as [E1 E2]; auto. pose proof H2 as H2'.
    apply eval_gen in H1 as (test & GE & CL & _ & L1 & S1 & _ & LP & _); auto; [|lia].
    apply tell_gen in H2 as (CL2 & T1 & T2 & T3 & T4 & T5 & _ & _ & LP2 & TE & TS); auto.
    unfold err_ok, cands_len, errs in *. ucbn. unfold inc_iter. cbn [t_sol set_t_sol s_cands set_s_niter].
    rewrite TE, TS, LP2, LP, T4, L1. repeat (split; [assumption|]).
    destruct k as [|d]; cbn [k_tell] in H2'.
    + apply simple_tell_spec in H2' as (s & mm & _ & ->). ucbn. rewrite E2. exact A6.
    + apply acm_tell_spec in H2' as (s1 & s2 & mm & te & _ & _ & [->|(Fu & v & _ & Et)] & ->); ucbn; [rewrite E2; exact A6|].
      eapply error_unit; [|exact Et]. unfold full in Fu. apply Z.leb_le in Fu. rewrite L1 in Fu. lia.
  - intros u b s W H. apply stop_spec in H as [(_ & -> & _)|(_ & _ & [(_ & _ & ->)|(_ & r & _ & _ & ->)])]; exact W.
  - intros u s W H. apply eval_initial_spec in H as [(_ & ->)|(_ & y & _ & ->)]; exact W.
  - intros u s W _ H. apply edm_spec in H as ((K & G & C & _) & _). unfold err_ok, cands_len in *. ucbn. rewrite C. exact W.
  - intros u s1 rf fuel r s2 W H _ _. now apply (no_restart no g HE) in H.
  - rewrite Forall_forall in *. intros o Ho. specialize (W1 o Ho). specialize (W2 o Ho). destruct o; cbn in *; auto; try contradiction.
    + intros u _. left. auto.
    + intros u u' W H. apply Ok_inj in H. subst u'. destruct W as (A1 & A2 & A3 & A4 & A5 & A6). repeat (split; [assumption|]). auto.
    + intros u u' W H. apply Ok_inj in H. subst u'. exact W.
    + intros u u' W H. apply Ok_inj in H. subst u'. unfold set_nsteps. destruct (_ <? 0); exact W.
    + intros u u' W H. apply Ok_inj in H. subst u'. destruct W as (A1 & A2 & A3 & A4 & A5 & A6). repeat (split; [assumption|]).
      split; [|split; auto]. ucbn. destruct k; auto.
    + intros u u' W H. apply Ok_inj in H. subst u'. exact W.
Qed.
Lemma errors_thm l m x0 n h u0 u : (match k with Simple => 2 | ACM _ => 6 end <= g_lambda g)%nat -> 2 <= l -> Forall (sized g) h -> Forall (error_op k) h ->
  k_new no g k l m x0 n = Ok u0 -> run_sops so no e g k h u0 = Ok u ->
  unit_error (u_train_err u) /\ unit_error (u_test_err u) /\ unit_error (u_smooth u).
Proof.
  intros HL Hl W1 W2 H0 H. assert (I : err_ok u).
  { eapply errors_ops; [exact W1|exact W2| |exact H].
    apply k_new_spec in H0 as (s & H0 & E1 & E2 & _ & _ & _ & E3 & E4 & E5 & E6). apply st_new_spec in H0 as (_ & s0 & H0 & ->). apply sol_new_spec in H0 as (L & ->).
    unfold err_ok, cands_len, errs. rewrite E1, E2, E3, E4, E5, E6. cbn. rewrite repeat_length. split; auto. split; [destruct k; lia|]. split; auto.
    split. { destruct k; auto. right. apply Z.div_le_lower_bound; lia. }
    split; [split; (eexists; split; [reflexivity|split; lra])|]. eexists; split; [reflexivity|split; lra]. }
  destruct I as (_ & _ & _ & _ & [I1 I2] & I3). auto.
Qed.
End Errors.
