(** Training set, reported candidates, errors and termination. *)
From Coq Require Import Permutation QArith Lqa.
From Verif Require Import Base Dbl DblProofs Config Search SpecSearch SortProofs SearchInv CounterProofs StopProofs LogProofs SpecUh Surr SpecSurr SurrInv SurrProofs.
Local Open Scope Z_scope.

Lemma skipn_snoc {A} n (l : list A) x : (n <= length l)%nat -> skipn n (l ++ [x]) = skipn n l ++ [x].
Proof. intros H. rewrite skipn_app. replace (n - length l)%nat with 0%nat by lia. reflexivity. Qed.
Lemma concat_snoc {A} (l : list (list A)) x : concat (l ++ [x]) = concat l ++ x.
Proof. rewrite concat_app. cbn. now rewrite app_nil_r. Qed.
Lemma lastn_in {A} n (l : list A) x : In x (lastn n l) -> In x l.
Proof. unfold lastn. intros H. rewrite <- (firstn_skipn (length l - n) l). apply in_app_iff. auto. Qed.
Lemma lastn_length {A} n (l : list A) : length (lastn n l) = Nat.min n (length l).
Proof. unfold lastn. rewrite skipn_length. lia. Qed.
Lemma mapM_skipn {A B} (f : A -> res B) n : forall l l', mapM f l = Ok l' -> mapM f (skipn n l) = Ok (skipn n l').
Proof.
  induction n as [|n IH]; intros l l' H; [exact H|]. destruct l as [|a l]; cbn [mapM] in H.
  - apply Ok_inj in H. subst. reflexivity.
  - inv_do H. inv_do H. apply Ok_inj in H. subst l'. cbn [skipn]. auto.
Qed.

Section Thms.
Context {T N M : Type}.
Variable so : surrops T N M.
Variable no : numops T N.
Variable e : env T N.
Variable g : cfg T.
Variable k : kind.
Notation surr := (surr T N M).
Implicit Types (u : surr).
Hypothesis HE : no_elitism g.
Hypothesis HU : g_uh g = false.
Hypothesis HS : samples_ok no.
Hypothesis CS : cand_sort_ok so.

Lemma keep_initel (s s' : st T N) : keep s' = keep s -> t_initel s' = t_initel s.
Proof. unfold keep. intros H. injection H. auto. Qed.
Lemma no_restart u : restart_wanted no (with_flags g u) (u_st u) = Ok true -> False.
Proof. unfold restart_wanted. change (g_elit (with_flags g u)) with (g_elit g). rewrite HE. discriminate. Qed.
Lemma gen_evaluated u test u1 c : gen_evals e u test u1 -> In c test -> evaluated e u1 c.
Proof.
  intros (lg & A1 & A2 & A3 & _) Hc. apply In_nth_error in Hc as [i Hi].
  destruct (mapM_nth _ _ _ A1 _ _ Hi) as ([y v] & H1 & H2). inv_do H2. apply Ok_inj in H2. injection H2 as -> <-.
  exists (length (t_log (u_st u)) + i)%nat, y. split; [|split; [auto|eauto]].
  rewrite A3, nth_error_app2 by lia. rewrite <- H1. f_equal. lia.
Qed.
Lemma evaluated_log u u' c : (exists lg, t_log (u_st u') = t_log (u_st u) ++ lg) -> evaluated e u c -> evaluated e u' c.
Proof. intros [lg L]. eapply evaluated_mono; eauto. Qed.

(** * The training set *)
Definition window l u : Prop :=
  cands_len g u /\ u_l u = l /\ (u_since u <= length (t_gens (u_st u)))%nat /\ u_tset u = lastn (Z.to_nat l) (since_reset u) /\
  (forall c, In c (concat (t_gens (u_st u))) -> evaluated e u c) /\ (k = Simple -> u_since u = 0%nat) /\ (1 <= g_lambda g)%nat.
Lemma window_log l u s : window l u -> t_gens s = t_gens (u_st u) -> s_cands (t_sol s) = s_cands (t_sol (u_st u)) -> (exists lg, t_log s = t_log (u_st u) ++ lg) ->
  window l (set_u_st s u).
Proof.
  intros (A1 & A2 & A3 & A4 & A5 & A6) G C L. unfold window, cands_len, since_reset in *. ucbn. rewrite G, C.
  repeat (split; [assumption|]). split; [|exact A6]. intros c Hc. eapply evaluated_log; [|apply A5; exact Hc]. exact L.
Qed.
Lemma window_ops l h : Forall (sized g) h -> Forall keeps_l h ->
  forall u0 u, window l u0 -> run_sops so no e g k h u0 = Ok u -> window l u.
Proof.
  intros W1 W2 u0 u H0 H. refine (U_ops so no e g k (window l) (lam_or_pre g k) _ _ _ _ _ _ h u0 u _ H0 H); clear H0 H u0 u.
  - intros u pop u' (A1 & A2 & A3 & A4 & A5 & A6 & A7) H. apply ask_gen in H as (B1 & _ & B2 & B3 & B4 & _ & _ & B5 & lg & B6 & _); auto. split; auto.
    unfold window, cands_len, since_reset in *. rewrite B2, B3, B4. split; auto. split; auto.
    assert (EV : forall c, In c (concat (t_gens (u_st u))) -> evaluated e u' c) by (intros c Hc; eapply evaluated_log; [eauto|apply A5; auto]).
    destruct B5 as [(-> & -> & _)|(NS & -> & -> & _)]; [repeat (split; [assumption|]); exact A7|].
    split; [lia|]. rewrite skipn_all. split; [now destruct (Z.to_nat l)|]. split; auto. split; auto. intros E. contradiction.
  - intros u cols ph u1 u2 (A1 & A2 & A3 & A4 & A5 & A6 & A7) OC HP H1 H2.
    apply eval_gen in H1 as (test & GE & CL & _ & L1 & S1 & _ & _ & _); auto.
    apply tell_gen in H2 as (CL2 & T1 & T2 & T3 & T4 & T5 & _); auto.
    pose proof GE as GE'. destruct GE as (lg & B1 & B2 & B3 & B4 & B5).
    unfold window, since_reset in *. ucbn. unfold inc_iter. cbn [t_gens set_t_sol set_t_niter]. unfold cands_len in *. ucbn. cbn [t_sol set_t_sol s_cands set_s_niter].
    split; [exact CL2|]. split; [congruence|]. rewrite T2, T3, T5, S1, B5, A4, A2.
    assert (EV : forall c, In c (concat (t_gens (u_st u))) \/ In c test -> evaluated e (set_u_st (inc_iter (u_st u2)) u2) c).
    { intros c Hc. apply (evaluated_log u1); [exists []; rewrite app_nil_r; exact T1|].
      destruct Hc as [Hc|Hc]; [eapply evaluated_log; [eauto|apply A5; auto]|eapply gen_evaluated; eauto]. }
    rewrite pushes_lastn.
    destruct B4 as [->|[-> ->]].
    + rewrite skipn_snoc, !concat_snoc by auto. rewrite app_length. split; [lia|]. split; auto. split; auto.
      intros c Hc. apply in_app_iff in Hc. auto.
    + rewrite app_nil_r. split; [lia|]. split; auto.
  - intros u b s W H. apply stop_spec in H as [(_ & -> & _)|(_ & _ & [(_ & _ & ->)|(_ & r & _ & _ & ->)])]; apply window_log; auto; exists []; now rewrite app_nil_r.
  - intros u s W H. apply eval_initial_spec in H as [(_ & ->)|(_ & y & _ & ->)]; apply window_log; auto; [exists []; now rewrite app_nil_r|cbn; eauto].
  - intros u s W _ H. apply edm_spec in H as ((K & G & C & lg & L & _) & _). apply window_log; eauto.
  - intros u s1 rf fuel r s2 W H _ _. now apply no_restart in H.
  - rewrite Forall_forall in *. intros o Ho. specialize (W1 o Ho). specialize (W2 o Ho). destruct o; cbn in *; auto; try contradiction.
    + intros u _. left. auto.
    + intros u u' W H. apply Ok_inj in H. subst u'. exact W.
    + intros u u' W H. apply Ok_inj in H. subst u'. unfold set_nsteps. destruct (_ <? 0); exact W.
    + intros u u' W H. apply Ok_inj in H. subst u'. exact W.
    + intros u u' W H. apply Ok_inj in H. subst u'. exact W.
Qed.
Lemma new_window l m x0 n u : k_new no g k l m x0 n = Ok u -> window l u.
Proof.
  intros H. apply k_new_spec in H as (s & H & E1 & E2 & E3 & E4 & _). apply st_new_spec in H as (_ & s0 & H & ->). apply sol_new_spec in H as (L & ->).
  unfold window, cands_len, since_reset. rewrite E1, E2, E3, E4. cbn. rewrite repeat_length. repeat (split; [auto; try (intros c [])|]); auto.
Qed.
Lemma window_thm l m x0 n h u0 u : Forall (sized g) h -> Forall keeps_l h -> k_new no g k l m x0 n = Ok u0 -> run_sops so no e g k h u0 = Ok u ->
  u_tset u = lastn (Z.to_nat l) (since_reset u) /\ (length (u_tset u) <= Z.to_nat l)%nat /\
  Forall (evaluated e u) (u_tset u) /\ (k = Simple -> since_reset u = concat (t_gens (u_st u))).
Proof.
  intros W1 W2 H0 H. apply new_window in H0. apply (window_ops l h) in H as (A1 & A2 & A3 & A4 & A5 & A6 & A7); auto.
  split; auto. split; [rewrite A4, lastn_length; lia|]. split.
  - apply Forall_forall. intros c Hc. apply A5. rewrite A4 in Hc. apply lastn_in in Hc. unfold since_reset in Hc.
    rewrite <- (firstn_skipn (u_since u) (t_gens (u_st u))), concat_app. apply in_app_iff. auto.
  - intros E. unfold since_reset. rewrite (A6 E). reflexivity.
Qed.

(** When nothing but populations is evaluated, the generations are the log. *)
Hypothesis HG : g_gradient g = false.
Hypothesis HI : g_init_fvalue g = false.
Hypothesis HM : g_edm g = false.
Definition all_logged u : Prop := cands_len g u /\ as_calls e (concat (t_gens (u_st u))) = Ok (t_log (u_st u)) /\ t_initel (u_st u) = false /\ (1 <= g_lambda g)%nat.
Lemma all_logged_ops h : Forall (sized g) h -> forall u0 u, all_logged u0 -> run_sops so no e g k h u0 = Ok u -> all_logged u.
Proof.
  intros W1 u0 u H0 H. refine (U_ops so no e g k all_logged (lam_or_pre g k) _ _ _ _ _ _ h u0 u _ H0 H); clear H0 H u0 u.
  - intros u pop u' (A1 & A2 & A3 & A4) H. apply ask_gen in H as (B1 & K & B2 & B3 & B4 & _ & _ & _ & lg & B6 & B7); auto. split; auto.
    unfold all_logged, cands_len in *. rewrite B2, B3. apply keep_initel in K. unfold grad_cost in B7. rewrite HG in B7. cbn in B7.
    destruct lg; [|discriminate]. rewrite app_nil_r in B6. rewrite B6. split; auto. split; auto. split; [congruence|auto].
  - intros u cols ph u1 u2 (A1 & A2 & A3 & A4) OC HP H1 H2.
    apply eval_gen in H1 as (test & GE & CL & K & L1 & S1 & _ & _ & _); auto.
    apply tell_gen in H2 as (CL2 & T1 & T2 & T3 & T4 & T5 & T6 & _); auto.
    destruct GE as (lg & B1 & B2 & B3 & B4 & B5). apply keep_initel in K.
    unfold all_logged, cands_len in *. ucbn. unfold inc_iter. cbn [t_gens t_log t_initel set_t_sol set_t_niter t_sol s_cands set_s_niter].
    split; [exact CL2|]. split; [|split; [congruence|auto]]. rewrite T1, T2, B3. destruct B4 as [->|[-> ->]].
    + rewrite concat_snoc. now apply as_calls_app.
    + apply Ok_inj in B1. subst lg. now rewrite app_nil_r.
  - intros u b s W H. apply stop_spec in H as [(_ & -> & _)|(_ & _ & [(_ & _ & ->)|(_ & r & _ & _ & ->)])]; auto.
  - intros u s W H. apply eval_initial_spec in H as [(_ & ->)|(Q & _)]; auto. exfalso. unfold wants_init in Q.
    change (g_elit (with_flags g u)) with (g_elit g) in Q. change (g_init_fvalue (with_flags g u)) with (g_init_fvalue g) in Q.
    rewrite HE, HI in Q. destruct W as (_ & _ & W & _). rewrite W in Q. discriminate.
  - intros u s W Q _. congruence.
  - intros u s1 rf fuel r s2 W H _ _. now apply no_restart in H.
  - rewrite Forall_forall in *. intros o Ho. specialize (W1 o Ho). destruct o; cbn in *; auto; try contradiction.
    + intros u _. left. auto.
    + intros u u' W H. apply Ok_inj in H. subst u'. exact W.
    + intros u u' W H. apply Ok_inj in H. subst u'. exact W.
    + intros u u' W H. apply Ok_inj in H. subst u'. unfold set_nsteps. destruct (_ <? 0); exact W.
    + intros u u' W H. apply Ok_inj in H. subst u'. exact W.
    + intros u u' W H. apply Ok_inj in H. subst u'. exact W.
Qed.
Lemma recent_thm l m x0 n h u0 u : Forall (sized g) h -> Forall keeps_l h -> k_new no g k l m x0 n = Ok u0 -> run_sops so no e g k h u0 = Ok u ->
  as_calls e (u_tset u) = Ok (lastn (length (u_tset u)) (t_log (u_st u))) /\
  (k = Simple -> length (u_tset u) = Nat.min (Z.to_nat l) (length (t_log (u_st u)))).
Proof.
  intros W1 W2 H0 H.
  assert (AL : all_logged u).
  { eapply all_logged_ops; [exact W1| |exact H]. apply k_new_spec in H0 as (s & H0 & E1 & _). apply st_new_spec in H0 as (_ & s0 & H0 & ->).
    apply sol_new_spec in H0 as (L & ->). unfold all_logged, cands_len. rewrite E1. cbn. rewrite repeat_length. auto. }
  destruct (window_thm l m x0 n h u0 u W1 W2 H0 H) as (B1 & _ & _ & B2). destruct AL as (_ & A & _ & _).
  pose proof (as_calls_length _ _ _ A) as AL.
  split.
  - assert (E : u_tset u = lastn (length (u_tset u)) (concat (t_gens (u_st u)))).
    { rewrite B1 at 1. unfold since_reset in *. rewrite <- (firstn_skipn (u_since u) (t_gens (u_st u))) at 2. rewrite concat_app.
      set (a := concat (firstn _ _)). set (b := concat (skipn _ _)) in *. rewrite B1, lastn_length. unfold lastn. rewrite app_length.
      destruct (Nat.le_gt_cases (Z.to_nat l) (length b)).
      - rewrite skipn_app. replace (Nat.min (Z.to_nat l) (length b)) with (Z.to_nat l) by lia.
        rewrite (skipn_all2 a) by lia. cbn [app]. f_equal. lia.
      - replace (length b - Z.to_nat l)%nat with 0%nat by lia. rewrite skipn_app. replace (Nat.min (Z.to_nat l) (length b)) with (length b) by lia.
        rewrite (skipn_all2 a) by lia. replace (length a + length b - length b - length a)%nat with 0%nat by lia. reflexivity. }
    rewrite E at 1. unfold lastn. rewrite AL. unfold as_calls. now apply mapM_skipn.
  - intros Ek. rewrite B1, lastn_length, (B2 Ek), AL. reflexivity.
Qed.
End Thms.
