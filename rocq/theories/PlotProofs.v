(** What the plot function is given. *)
From Verif Require Import Base Dbl Config Search SpecSearch SpecSafe SearchInv CounterProofs StopProofs RunProofs NumInv Plot SpecPlot.
Local Open Scope Z_scope.

Section PlotP.
Context {T N : Type}.
Variable no : numops T N.
Variable e : env T N.
Variable g : cfg T.
Notation st := (st T N).
Notation sol := (sol T N).

Section Writer.
Context {L : Type}.
Variable w : sol -> res (list L).
Lemma loop_erase body fuel : forall s s' ls, loop_p no e g w body fuel s = Ok (s', ls) -> loop no e g body fuel s = Ok s'.
Proof.
  induction fuel as [|fuel IH]; intros s s' ls H; cbn [loop_p loop] in *; [discriminate|].
  apply bind_ok in H as (l1 & _ & H). destruct (stop no e g s) as [[b s1]|]; [|discriminate]. cbn [bind fst snd] in *.
  destruct b; [apply Ok_inj in H; congruence|]. destruct (body s1) as [s2|]; [|discriminate]. cbn [bind] in *.
  apply bind_ok in H as ([s3 l3] & H2 & H). apply Ok_inj in H. injection H as <- _. eapply IH; eauto.
Qed.
Lemma optimize_erase rf : forall body fuel s c s' ls, optimize_p no e g w body rf fuel s = Ok (c, s', ls) -> optimize no e g body rf fuel s = Ok (c, s').
Proof.
  induction rf as [|rf IH]; intros body fuel s c s' ls H; cbn [optimize_p optimize] in *;
    (destruct (eval_initial no e g s) as [s1|]; [|discriminate]); cbn [bind] in *;
    (destruct (loop_p no e g w body fuel s1) as [[s2 l2]|] eqn:E2; [|discriminate]); apply loop_erase in E2; rewrite E2; cbn [bind fst snd] in *;
    (destruct (if g_edm g then edm no e g s2 else Ok s2) as [s3|]; [|discriminate]); cbn [bind] in *;
    (destruct (restart_wanted no g s3) as [[|]|]; [| |discriminate]); cbn [bind fst snd] in *; try discriminate.
  - apply Ok_inj in H. congruence.
  - destruct (reinit no g s3) as [s4|]; [|discriminate]. cbn [bind] in *.
    destruct (optimize_p no e g w (round no e g) rf fuel s4) as [[[c5 s5] l5]|] eqn:E5; [|discriminate]. apply IH in E5. rewrite E5. cbn [bind fst snd] in *.
    apply Ok_inj in H. congruence.
  - apply Ok_inj in H. congruence.
Qed.
Hypothesis HT : forall so, exists ls, w so = Ok ls.
Lemma plot_stop_ok s : exists ls, plot_stop e w s = Ok ls.
Proof. unfold plot_stop. destruct (_ <? 0); [eauto|]. destruct (negb _); eauto. Qed.
Lemma loop_total body fuel : forall s, loop no e g body fuel s = match loop_p no e g w body fuel s with Ok r => Ok (fst r) | Fault f => Fault f end.
Proof.
  induction fuel as [|fuel IH]; intros s; cbn [loop_p loop]; [reflexivity|]. destruct (plot_stop_ok s) as [ls ->]. cbn [bind].
  destruct (stop no e g s) as [[b s1]|]; cbn [bind fst snd]; [|reflexivity]. destruct b; [reflexivity|]. destruct (body s1) as [s2|]; cbn [bind]; [|reflexivity].
  rewrite IH. destruct (loop_p no e g w body fuel s2) as [[s3 l3]|]; reflexivity.
Qed.
Lemma optimize_total rf : forall body fuel s, optimize no e g body rf fuel s = match optimize_p no e g w body rf fuel s with Ok r => Ok (fst r) | Fault f => Fault f end.
Proof.
  induction rf as [|rf IH]; intros body fuel s; cbn [optimize_p optimize]; (destruct (eval_initial no e g s) as [s1|]; [|reflexivity]); cbn [bind]; rewrite loop_total;
    (destruct (loop_p no e g w body fuel s1) as [[s2 l2]|]; [|reflexivity]); cbn [bind fst snd];
    (destruct (if g_edm g then edm no e g s2 else Ok s2) as [s3|]; [|reflexivity]); cbn [bind];
    (destruct (restart_wanted no g s3) as [[|]|]; [| |reflexivity]); cbn [bind fst snd]; try reflexivity.
  destruct (reinit no g s3) as [s4|]; [|reflexivity]. cbn [bind]. rewrite IH.
  destruct (optimize_p no e g w (round no e g) rf fuel s4) as [[[c5 s5] l5]|]; reflexivity.
Qed.
End Writer.

Lemma written_nil {L} (w : sol -> res (list L)) : written w [] [].
Proof. exists []. auto. Qed.
Lemma mapM_app {A B} (f : A -> res B) l1 l2 r1 r2 : mapM f l1 = Ok r1 -> mapM f l2 = Ok r2 -> mapM f (l1 ++ l2) = Ok (r1 ++ r2).
Proof.
  revert r1. induction l1 as [|a l1 IH]; intros r1 H1 H2; cbn [mapM app] in *; [injection H1 as <-; exact H2|].
  destruct (f a) as [b|]; [|discriminate]. cbn [bind] in *. destruct (mapM f l1) as [bs|]; [|discriminate]. cbn [bind] in *. injection H1 as <-. rewrite (IH bs eq_refl H2). reflexivity.
Qed.
Lemma written_app {L} (w : sol -> res (list L)) s1 s2 l1 l2 : written w s1 l1 -> written w s2 l2 -> written w (s1 ++ s2) (l1 ++ l2).
Proof. intros (a & A1 & ->) (b & B1 & ->). exists (a ++ b). split; [apply mapM_app; auto|symmetry; apply concat_app]. Qed.
Lemma written_stop {L} (w : sol -> res (list L)) s ls : plot_stop e w s = Ok ls -> exists sols, plot_stop e seen_by_plot s = Ok sols /\ written w sols ls.
Proof.
  unfold plot_stop. destruct (_ <? 0); [intros H; injection H as <-; eauto using written_nil|]. destruct (negb _); [intros H; injection H as <-; eauto using written_nil|].
  intros H. exists [t_sol s]. split; [reflexivity|]. exists [ls]. cbn. rewrite H. cbn. rewrite app_nil_r. auto.
Qed.
Lemma loop_written {L} (w : sol -> res (list L)) body fuel : forall s s' ls, loop_p no e g w body fuel s = Ok (s', ls) ->
  exists sols, loop_p no e g seen_by_plot body fuel s = Ok (s', sols) /\ written w sols ls.
Proof.
  induction fuel as [|fuel IH]; intros s s' ls H; cbn [loop_p] in *; [discriminate|].
  apply bind_ok in H as (l1 & H1 & H). apply written_stop in H1 as (so1 & -> & W1). cbn [bind].
  destruct (stop no e g s) as [[b s1]|]; [|discriminate]. cbn [bind fst snd] in *.
  destruct b; [apply Ok_inj in H; injection H as <- <-; eauto|]. destruct (body s1) as [s2|]; [|discriminate]. cbn [bind] in *.
  apply bind_ok in H as ([s3 l3] & H2 & H). apply Ok_inj in H. injection H as <- <-. destruct (IH _ _ _ H2) as (so3 & -> & W3). cbn [bind fst snd].
  eexists. split; [reflexivity|]. apply written_app; auto.
Qed.
Lemma optimize_written {L} (w : sol -> res (list L)) rf : forall body fuel s c s' ls, optimize_p no e g w body rf fuel s = Ok (c, s', ls) ->
  exists sols, optimize_p no e g seen_by_plot body rf fuel s = Ok (c, s', sols) /\ written w sols ls.
Proof.
  induction rf as [|rf IH]; intros body fuel s c s' ls H; cbn [optimize_p] in *;
    (destruct (eval_initial no e g s) as [s1|]; [|discriminate]); cbn [bind] in *;
    (destruct (loop_p no e g w body fuel s1) as [[s2 l2]|] eqn:E2; [|discriminate]); apply loop_written in E2 as (so2 & -> & W2); cbn [bind fst snd] in *;
    (destruct (if g_edm g then edm no e g s2 else Ok s2) as [s3|]; [|discriminate]); cbn [bind] in *;
    (destruct (restart_wanted no g s3) as [[|]|]; [| |discriminate]); cbn [bind fst snd] in *; try discriminate.
  - apply Ok_inj in H. injection H as <- <- <-. eauto.
  - destruct (reinit no g s3) as [s4|]; [|discriminate]. cbn [bind] in *.
    destruct (optimize_p no e g w (round no e g) rf fuel s4) as [[[c5 s5] l5]|] eqn:E5; [|discriminate]. apply IH in E5 as (so5 & -> & W5). cbn [bind fst snd] in *.
    apply Ok_inj in H. injection H as <- <- <-. eexists. split; [reflexivity|]. apply written_app; auto.
  - apply Ok_inj in H. injection H as <- <- <-. eauto.
Qed.

(** * Which solutions are seen *)
Lemma but_status_set (s s' : sol) r : s' = set_s_status r s -> but_status s s'.
Proof. intros ->. unfold but_status. destruct s. reflexivity. Qed.
Notation step := (step no e g).
Notation chained := (chained no e g).
Notation ends_at := (ends_at e).
Hypothesis HS : samples_ok no.
Lemma loop_rows fuel : forall s s' sols, 0 <= s_status (t_sol s) -> loop_p no e g seen_by_plot (round no e g) fuel s = Ok (s', sols) ->
  chained sols /\ consecutive (s_niter (t_sol s)) sols /\ ends_at s s' sols /\ (forall so, nth_error sols 0 = Some so -> so = t_sol s).
Proof.
  induction fuel as [|fuel IH]; intros s s' sols H0 H; cbn [loop_p] in H; [discriminate|]. unfold plot_stop in H.
  destruct (Z.ltb_spec (s_status (t_sol s)) 0) as [Q|_]; [lia|]. destruct (Z.eqb_spec (e_progress e (t_sol s)) 0) as [Q|Q]; cbn [negb] in H.
  - cbn [seen_by_plot bind] in H. apply bind_ok in H as ([b s1] & H1 & H). cbn [fst snd] in H.
    destruct (stop_same no e g s b s1 H1) as [r E1]. assert (S1 : but_status (t_sol s) (t_sol s1)) by (apply (but_status_set _ _ r); rewrite E1; reflexivity).
    assert (I1 : s_niter (t_sol s1) = s_niter (t_sol s)) by (rewrite E1; reflexivity). destruct b.
    + apply Ok_inj in H. injection H as <- <-. unfold ends_at. rewrite I1, Z.sub_diag. repeat split.
      * intros [|k] so so' A B; discriminate.
      * intros [|k] so A; [injection A as <-; cbn; lia|destruct k; discriminate].
      * lia.
      * right. split; [reflexivity|]. exists (t_sol s). auto.
      * intros so A. injection A as <-. reflexivity.
    + assert (P1 : 0 <= s_status (t_sol s1)).
      { apply stop_spec in H1 as [(E & _)|(_ & _ & [(_ & _ & ->)|(_ & r' & _ & Hr & ->)])]; [discriminate|exact H0|]. symmetry in Hr. apply negb_false_iff, Z.eqb_eq in Hr. subst r'. cbn. lia. }
      apply bind_ok in H as (s2 & H2 & H). apply bind_ok in H as ([s3 l3] & H3 & H). apply Ok_inj in H. injection H as <- <-. cbn [fst snd app].
      pose proof (round_counts no e g _ _ HS H2) as (R1 & _ & _ & _ & _ & R6 & _).
      destruct (IH s2 s3 l3 ltac:(lia) H3) as (A1 & A2 & (A3 & A4) & A5). repeat split.
      * intros [|k] so so' A B; cbn [nth_error] in A, B; [|eapply A1; eauto]. injection A as <-. apply A5 in B. subst so'. exists s1, s2. auto.
      * intros [|k] so A; [injection A as <-; cbn; lia|]. apply A2 in A. lia.
      * lia.
      * rewrite R1, I1 in A3, A4. replace (Z.to_nat (s_niter (t_sol s3) - s_niter (t_sol s))) with (S (Z.to_nat (s_niter (t_sol s3) - (s_niter (t_sol s) + 1)))) by lia.
        cbv zeta in A4. destruct A4 as [[B1 B2]|[B1 (so & B2 & B3)]]; [left; split; [exact B1|cbn; congruence]|right; split; [cbn; congruence|]]. exists so. auto.
      * intros so A. injection A as <-. reflexivity.
  - cbn [bind] in H. apply bind_ok in H as ([b s1] & H1 & H). cbn [fst snd] in H. unfold stop in H1.
    destruct (Z.ltb_spec (s_status (t_sol s)) 0) as [Q'|_]; [lia|]. apply Z.eqb_neq in Q. rewrite Q in H1. cbn [negb] in H1. injection H1 as <- <-. apply Ok_inj in H. injection H as <- <-.
    unfold ends_at. rewrite Z.sub_diag. repeat split.
    + intros [|k] so so' A; discriminate.
    + intros [|k] so A; discriminate.
    + lia.
    + left. split; [now apply Z.eqb_neq|reflexivity].
    + intros so A. discriminate.
Qed.
Lemma init_keeps s s1 : eval_initial no e g s = Ok s1 -> s_status (t_sol s1) = s_status (t_sol s) /\ s_niter (t_sol s1) = s_niter (t_sol s).
Proof. intros H. apply eval_initial_spec in H as [(_ & ->)|(_ & y & _ & ->)]; auto. Qed.
Lemma optimize_rows rf fuel s c s' sols : 0 <= s_status (t_sol s) -> e_restart (g_elit g) = false -> g_edm g = false ->
  optimize_p no e g seen_by_plot (round no e g) rf fuel s = Ok (c, s', sols) ->
  chained sols /\ consecutive (s_niter (t_sol s)) sols /\ ends_at s s' sols.
Proof.
  intros H0 HR HE H. assert (X : exists s1, eval_initial no e g s = Ok s1 /\ loop_p no e g seen_by_plot (round no e g) fuel s1 = Ok (s', sols)).
  { destruct rf as [|rf]; cbn [optimize_p] in H; rewrite HE in H; unfold restart_wanted in H; rewrite HR in H; cbn [andb] in H;
      apply bind_ok in H as (s1 & H1 & H); apply bind_ok in H as ([s2 l2] & H2 & H); cbn [bind fst snd] in H; apply Ok_inj in H; injection H as _ <- <-; eauto. }
  destruct X as (s1 & H1 & H2). destruct (init_keeps _ _ H1) as [K1 K2]. apply loop_rows in H2; [|lia]. unfold ends_at in *. rewrite K2 in H2. tauto.
Qed.
(** With elitist restarts: one block for each run. *)
Lemma optimize_blocks fuel rf : forall s c s' sols, 0 <= s_status (t_sol s) ->
  optimize_p no e g seen_by_plot (round no e g) rf fuel s = Ok (c, s', sols) ->
  exists b0 bs, sols = b0 ++ concat bs /\ consecutive (s_niter (t_sol s)) b0 /\ Forall (consecutive 0) bs /\ Forall chained (b0 :: bs).
Proof.
  induction rf as [|rf IH]; intros s c s' sols H0 H; cbn [optimize_p] in H; apply bind_ok in H as (s1 & H1 & H); apply bind_ok in H as ([s2 l2] & H2 & H);
    cbn [fst snd] in H; apply bind_ok in H as (s3 & H3 & H); apply bind_ok in H as (b & H4 & H); destruct (init_keeps _ _ H1) as [K1 K2];
    apply loop_rows in H2 as (A1 & A2 & _); try lia; rewrite K2 in A2; destruct b; cbn [bind] in H.
  - discriminate.
  - apply Ok_inj in H. injection H as _ _ <-. exists l2, []. cbn [concat]. rewrite app_nil_r. auto.
  - apply bind_ok in H as ([s5 l5] & H5 & H). apply bind_ok in H5 as (s4 & H5 & H6). apply bind_ok in H6 as ([[c6 s6] l6] & H6 & H7).
    apply Ok_inj in H. injection H as _ _ <-. apply Ok_inj in H7. cbn [fst snd] in *. injection H7 as _ <-.
    apply reinit_spec in H5 as (so & H5 & ->). apply sol_new_spec in H5 as (_ & ->). apply IH in H6 as (b0 & bs & -> & B1 & B2 & B3); [|cbn; lia].
    exists l2, (b0 :: bs). cbn [concat]. split; [reflexivity|]. split; [exact A2|]. split; [constructor; [exact B1|exact B2]|constructor; auto].
  - apply Ok_inj in H. injection H as _ _ <-. exists l2, []. cbn [concat]. rewrite app_nil_r. auto.
Qed.
(** Evaluations between two lines. *)
Lemma step_evals so so' : step so so' -> s_nevals so + Z.of_nat (g_lambda g) <= s_nevals so' <= s_nevals so + generation_calls e g.
Proof.
  intros (s & s2 & S1 & _ & R & <-). apply round_counts in R as (_ & _ & _ & R4 & R5 & _); auto.
  assert (s_nevals (t_sol s) = s_nevals so) by (rewrite S1; destruct so; reflexivity). lia.
Qed.
Lemma step_evals_exact so so' : step so so' -> s_nevals so + Z.of_nat (g_lambda g) <= s_nevals so' <= s_nevals so + generation_calls e g /\
  (g_uh g = false -> g_gradient g = false -> s_nevals so' = s_nevals so + Z.of_nat (g_lambda g)).
Proof. intros H. apply step_evals in H. split; [exact H|]. intros U G. unfold generation_calls in H. rewrite U, G in H. lia. Qed.
End PlotP.
