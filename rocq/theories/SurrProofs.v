(** Invariants of histories with a surrogate. *)
From Coq Require Import Permutation QArith Lqa.
From Verif Require Import Base Dbl DblProofs Config Search SpecSearch SortProofs SearchInv CounterProofs StopProofs LogProofs SpecUh Surr SpecSurr SurrInv.
Local Open Scope Z_scope.

Section Principle.
Context {T N M : Type}.
Variable so : surrops T N M.
Variable no : numops T N.
Variable e : env T N.
Variable g : cfg T.
Variable k : kind.
Notation surr := (surr T N M).
Implicit Types (u : surr).
Variable P : surr -> Prop.
Variable okc : surr -> list (list T) -> Prop.
Hypothesis H_ask : forall u pop u', P u -> k_ask no e g k u = Ok (pop, u') -> P u' /\ okc u' pop.
Hypothesis H_gen : forall u cols ph u1 u2, P u -> okc u cols -> mapM (e_pheno e) cols = Ok ph ->
  k_eval so no e g k cols ph u = Ok u1 -> k_tell so no e g k u1 = Ok u2 -> P (set_u_st (inc_iter (u_st u2)) u2).
Hypothesis H_stop : forall u b s, P u -> stop no e (with_flags g u) (u_st u) = Ok (b, s) -> P (set_u_st s u).
Hypothesis H_init : forall u s, P u -> eval_initial no e (with_flags g u) (u_st u) = Ok s -> P (set_u_st s u).
Hypothesis H_edm : forall u s, P u -> g_edm g = true -> edm no e (with_flags g u) (u_st u) = Ok s -> P (set_u_st s u).
Hypothesis H_restart : forall u s1 rf fuel r s2, P u -> restart_wanted no (with_flags g u) (u_st u) = Ok true ->
  reinit no (with_flags g u) (u_st u) = Ok s1 ->
  optimize no e (with_flags g u) (round no e (with_flags g u)) rf fuel s1 = Ok (r, s2) -> P (set_u_st s2 u).

Definition okop (o : sop T) : Prop :=
  match o with
  | SGen cols => forall u, P u -> okc u cols
  | SAsk | SRound | SStop | SOptimize _ _ => True
  | o => forall u u', P u -> do_sop so no e g k o u = Ok u' -> P u'
  end.
Lemma U_round u u' : P u -> k_round so no e g k u = Ok u' -> P u'.
Proof.
  intros HP H. destruct k as [|d] eqn:Ek; unfold k_round in H; [unfold simple_round in H|unfold acm_round in H].
  all: inv_do H; rename a into q, H0 into H1; inv_do H; rename a into ph, H0 into H2; inv_do H; rename a into u1, H0 into H3;
       inv_do H; rename a into u2, H0 into H4; apply Ok_inj in H; subst u'; destruct q as [pop u0]; cbn [fst snd] in *.
  all: destruct (H_ask _ _ _ HP H1) as [P0 O0]; apply (H_gen u0 pop ph u1 u2); auto.
Qed.
Lemma U_loop fuel : forall u u', P u -> surr_loop no e g (k_round so no e g k) fuel u = Ok u' -> P u'.
Proof.
  induction fuel as [|fuel IH]; intros u u' HP H; cbn [surr_loop] in H; [discriminate|].
  inv_do H. destruct a as [b s]. cbn [fst snd] in H. apply H_stop in H0; auto. destruct b; [apply Ok_inj in H; subst; auto|].
  inv_do H. apply (IH a); auto. eapply U_round; [exact H0|]. auto.
Qed.
Lemma U_optimize rf fuel u r u' : P u -> surr_optimize no e g (k_round so no e g k) rf fuel u = Ok (r, u') -> P u'.
Proof.
  unfold surr_optimize, lift. intros HP H. inv_do H. inv_do H0. apply Ok_inj in H0. subst a. apply H_init in H1; auto.
  inv_do H. apply U_loop in H0; auto. rename a into u2. inv_do H. rename a into u3.
  assert (P3 : P u3). { destruct (g_edm g) eqn:Ed; [|apply Ok_inj in H2; subst; auto]. inv_do H2. apply Ok_inj in H2. subst u3. auto. }
  inv_do H. rename a into w. inv_do H. rename a into u4. apply Ok_inj in H. injection H as _ <-.
  destruct w; [|apply Ok_inj in H4; subst; auto]. destruct rf as [|rf]; [discriminate|]. inv_do H4. apply Ok_inj in H4. subst u4.
  inv_do H. inv_do H. apply Ok_inj in H. subst a. destruct a2 as [r1 s2]. eapply H_restart; eauto.
Qed.
Lemma U_op o u u' : okop o -> P u -> do_sop so no e g k o u = Ok u' -> P u'.
Proof.
  intros W HP H. destruct o; cbn [okop] in W; try (eapply W; eauto; fail); cbn [do_sop] in H.
  - inv_do H. destruct a. apply Ok_inj in H. subst u'. eapply H_ask; eauto.
  - inv_do H. inv_do H. inv_do H. apply Ok_inj in H. subst u'. eapply H_gen; eauto.
  - eapply U_round; eauto.
  - inv_do H. destruct a. apply Ok_inj in H. subst u'. eapply H_stop; eauto.
  - inv_do H. destruct a. apply Ok_inj in H. subst u'. eapply U_optimize; eauto.
Qed.
Lemma U_ops h : forall u u', Forall okop h -> P u -> run_sops so no e g k h u = Ok u' -> P u'.
Proof.
  induction h as [|o h IH]; intros u u' W HP H; cbn [run_sops] in H; [apply Ok_inj in H; subst; auto|].
  inversion W; subst. inv_do H. apply (IH a); auto. eapply U_op; eauto.
Qed.
End Principle.

Section Hist.
Context {T N M : Type}.
Variable so : surrops T N M.
Variable no : numops T N.
Variable e : env T N.
Variable g : cfg T.
Variable k : kind.
Notation surr := (surr T N M).
Implicit Types (u : surr).

Lemma k_new_spec l m x0 n u : k_new no g k l m x0 n = Ok u ->
  exists s, st_new no g x0 n = Ok s /\ u_st u = s /\ u_l u = l /\ u_tset u = [] /\ u_since u = 0%nat /\ u_exploit u = true /\
    u_train_err u = Some 0%Q /\ u_test_err u = Some 0%Q /\ u_smooth u = Some (1 # 2) /\
    u_lambdap u = (match k with Simple => 0 | ACM _ => Z.of_nat (g_lambda g) / 3 end).
Proof.
  unfold k_new, simple_new, acm_new. destruct k; intros H; inv_do H; apply Ok_inj in H; subst u; exists a; repeat split; auto.
Qed.

(** What an evaluation does to the log, the generations and the training set. *)
Lemma as_calls_new_gen cols : forall r kk phen old, mapM (e_pheno e) cols = Ok (skipn r phen) ->
  as_calls e (new_gen e r kk cols phen old) = Ok (eval_from e kk (skipn r phen)) /\ new_points r cols phen = skipn r phen.
Proof.
  induction cols as [|x cols IH]; intros r kk phen old H; cbn [mapM] in H.
  - apply Ok_inj in H. rewrite <- H. split; reflexivity.
  - inv_do H. inv_do H. apply Ok_inj in H. cbn [new_gen new_points].
    assert (E : phen_at phen r x = a /\ a0 = skipn (S r) phen).
    { clear - H. unfold phen_at. destruct phen as [|p0 phen]; [destruct r; discriminate|]. revert H. generalize (p0 :: phen). intros l. clear p0 phen.
      revert l. induction r as [|r IHr]; intros [|y l] H; try discriminate; cbn [skipn nth] in *; [injection H as -> ->; auto|].
      apply IHr in H. auto. }
    destruct E as [-> ->]. destruct (IH (S r) (S kk) phen old H1) as [E1 E2]. rewrite <- H.
    rewrite eval_from_cons. unfold as_calls in *. cbn [mapM c_x c_f]. rewrite H0. cbn [bind]. rewrite E1. cbn [bind]. rewrite E2. auto.
Qed.
Lemma pop_log e' (s : st T N) cols ph old : e' = e -> mapM (e_pheno e) cols = Ok ph ->
  as_calls e (new_gen e' 0 (length (t_log s)) cols ph old) = Ok (eval_from e' (length (t_log s)) ph) /\ new_points 0 cols ph = ph.
Proof. intros -> H. now apply (as_calls_new_gen cols 0). Qed.

(** One generation of either strategy: [test] lists the candidates evaluated on
    the objective, none if the surrogate alone was used. *)
Definition gen_evals u test u1 : Prop :=
  exists lg, as_calls e test = Ok lg /\
    (forall i y v, nth_error lg i = Some (y, v) -> v = e_f e (length (t_log (u_st u)) + i) y) /\
    t_log (u_st u1) = t_log (u_st u) ++ lg /\
    (t_gens (u_st u1) = t_gens (u_st u) ++ [test] \/ test = [] /\ t_gens (u_st u1) = t_gens (u_st u)) /\
    u_tset u1 = pushes (u_l u) test (u_tset u).
Definition lam_or_pre u (cols : list (list T)) : Prop :=
  length cols = g_lambda g \/ exists d, k = ACM d /\ u_exploit u && full u = true.

Lemma real_eval_gen cols ph u u1 : no_elitism g -> g_uh g = false -> mapM (e_pheno e) cols = Ok ph ->
  real_eval no e g cols ph u u1 -> length cols = length (s_cands (t_sol (u_st u))) ->
  gen_evals u (s_cands (t_sol (u_st u1))) u1 /\ length (s_cands (t_sol (u_st u1))) = length (s_cands (t_sol (u_st u))) /\
  keep (u_st u1) = keep (u_st u) /\ s_num (t_sol (u_st u1)) = s_num (t_sol (u_st u)).
Proof.
  intros HE HU HP (fl & ns & te & sm & s & E & ->) L. ucbn. set (g' := with_flags g _) in *.
  assert (HE' : no_elitism g') by exact HE. assert (HU' : g_uh g' = false) by exact HU.
  apply eval_spec in E as (_ & _ & K & G & Lc & _ & _ & Nm & (ys & Lg & Y & _) & Cs & _).
  rewrite Y in Lg by auto. rewrite app_nil_r in Lg.
  destruct (pop_log e (u_st u) cols ph (s_cands (t_sol (u_st u))) eq_refl HP) as [Q1 Q2]. rewrite Q2 in Lg.
  assert (EC : s_cands (t_sol s) = new_gen e 0 (length (t_log (u_st u))) cols ph (s_cands (t_sol (u_st u)))).
  { destruct Cs as [[-> _]|[Q _]].
    - unfold mid_cands. rewrite L, skipn_all. now rewrite app_nil_r.
    - unfold elit_on in Q. rewrite HE' in Q. cbn in Q. rewrite andb_false_r in Q. now rewrite andb_false_r in Q. }
  split; [|split; [auto|split; auto]].
  exists (eval_from e (length (t_log (u_st u))) ph). rewrite EC. split; [exact Q1|]. split; [|split; [exact Lg|split; [left; exact G|ucbn; reflexivity]]].
  intros i y v H. now apply eval_from_nth in H.
Qed.
Lemma evals_gen u test u1 : evals e u test u1 -> t_gens (u_st u1) = t_gens (u_st u) ++ [test] -> gen_evals u test u1.
Proof. intros (lg & A1 & A2 & A3 & A4 & A5 & A6) G. exists lg. repeat (split; [auto|]). auto. Qed.

Definition cands_len u : Prop := length (s_cands (t_sol (u_st u))) = g_lambda g.
Lemma eval_gen cols ph u u1 : no_elitism g -> g_uh g = false -> (1 <= g_lambda g)%nat -> cand_sort_ok so -> cands_len u -> lam_or_pre u cols ->
  mapM (e_pheno e) cols = Ok ph -> k_eval so no e g k cols ph u = Ok u1 ->
  exists test, gen_evals u test u1 /\ cands_len u1 /\ keep (u_st u1) = keep (u_st u) /\
    u_l u1 = u_l u /\ u_since u1 = u_since u /\ u_exploit u1 = u_exploit u /\ u_lambdap u1 = u_lambdap u /\
    (forall d, k = ACM d -> (1 <= length test)%nat /\
      if u_exploit u && full u then full u1 = true /\ (below_max e -> exists c, nth_error (s_cands (t_sol (u_st u1))) 0 = Some c /\ evaluated e u1 c)
      else test = s_cands (t_sol (u_st u1))).
Proof.
  intros HE HU H1 CS HL HC HP H. unfold cands_len in *.
  assert (R : real_eval no e g cols ph u u1 -> length cols = g_lambda g ->
    gen_evals u (s_cands (t_sol (u_st u1))) u1 /\ length (s_cands (t_sol (u_st u1))) = g_lambda g /\ keep (u_st u1) = keep (u_st u) /\
    u_l u1 = u_l u /\ u_since u1 = u_since u /\ u_exploit u1 = u_exploit u /\ u_lambdap u1 = u_lambdap u).
  { intros R L. pose proof R as R'. apply real_eval_gen in R' as (A & B & C & D); auto; [|congruence].
    destruct R as (fl & ns & te & sm & s & E & ->). ucbn. split; auto. split; [congruence|]. repeat split; auto. }
  destruct k as [|d] eqn:Ek; cbn [k_eval] in H.
  - assert (L : length cols = g_lambda g) by (destruct HC as [|(d & Q & _)]; [auto|congruence]).
    apply simple_eval_spec in H as [H|(Ex & Fu & cs & Lc & ->)].
    + exists (s_cands (t_sol (u_st u1))). destruct (R H L) as (A1 & A2 & A3 & A4 & A5 & A6 & A7). repeat (split; [assumption|]). discriminate.
    + exists []. unfold with_cands. ucbn. cbn [t_sol set_t_sol s_cands set_s_cands]. split.
      { exists []. cbn. rewrite app_nil_r. repeat split; auto. intros [|i]; discriminate. }
      repeat (split; [auto; congruence|]). discriminate.
  - apply acm_eval_spec in H as [(Ef & H)|(Ef & H)].
    + assert (L : length cols = g_lambda g) by (destruct HC as [|(d' & _ & Q)]; [auto|congruence]).
      exists (s_cands (t_sol (u_st u1))). destruct (R H L) as (A1 & A2 & A3 & A4 & A5 & A6 & A7). repeat (split; [assumption|]).
      intros d' _. rewrite Ef. split; [lia|reflexivity].
    + apply pre_selection_spec in H as (test & err & sl & B1 & B2 & B3 & B4 & B5 & B6 & B7 & B8). destruct (B8 CS) as [B9 B10].
      exists test. split; [apply evals_gen; auto|]. split; [rewrite B9; lia|].
      destruct B2 as (C1 & C2 & C3 & C4 & C5 & C6 & C7 & C8 & C9 & C10 & C11 & C12).
      repeat (split; [assumption|]). intros d' _. rewrite Ef. split; [lia|]. split; auto.
      unfold full. rewrite C1. destruct B1 as (lg & _ & _ & _ & _ & _ & ->).
      apply andb_true_iff in Ef as [_ Ef]. unfold full in Ef. rewrite pushes_full; auto. now apply Z.leb_le.
Qed.
(** tell *)
Lemma tell_gen u1 u2 : g_uh g = false -> cands_len u1 -> k_tell so no e g k u1 = Ok u2 ->
  cands_len u2 /\ t_log (u_st u2) = t_log (u_st u1) /\ t_gens (u_st u2) = t_gens (u_st u1) /\ u_tset u2 = u_tset u1 /\ u_l u2 = u_l u1 /\
  u_since u2 = u_since u1 /\ t_initel (u_st u2) = t_initel (u_st u1) /\ u_exploit u2 = u_exploit u1 /\ u_lambdap u2 = u_lambdap u1 /\
  u_test_err u2 = u_test_err u1 /\ u_smooth u2 = u_smooth u1.
Proof.
  intros HU HL H. unfold cands_len in *. destruct k; cbn [k_tell] in H.
  - apply simple_tell_spec in H as (s & m & H & ->). ucbn. apply tell_effect in H.
    destruct H as (E1 & E2 & E3 & E4 & E5 & E6 & E7 & E8 & E9 & E10 & E11 & E12 & E13 & _). destruct (E13 HU) as [-> _].
    rewrite sort_length. repeat (split; [assumption|]). repeat split; auto.
  - apply acm_tell_spec in H as (s1 & s2 & m & te & E1 & E2 & _ & ->). apply ubc_spec in E2 as (K & _). unfold kept_by_tell in K. injection K as K1.
    ucbn. cbn [t_sol set_t_sol s_cands set_s_num]. rewrite K1, E1. split; [|repeat split; auto].
    destruct (u_exploit u1 && full u1); auto. cbn [s_cands set_s_cands]. now rewrite sort_length.
Qed.
Lemma ask_gen u pop u' : samples_ok no -> k_ask no e g k u = Ok (pop, u') ->
  lam_or_pre u' pop /\ keep (u_st u') = keep (u_st u) /\ t_gens (u_st u') = t_gens (u_st u) /\ s_cands (t_sol (u_st u')) = s_cands (t_sol (u_st u)) /\
  u_l u' = u_l u /\ u_exploit u' = u_exploit u /\ u_lambdap u' = u_lambdap u /\
  (u_tset u' = u_tset u /\ u_since u' = u_since u /\ u_test_err u' = u_test_err u /\ u_smooth u' = u_smooth u /\ u_train_err u' = u_train_err u \/
   k <> Simple /\ u_tset u' = [] /\ u_since u' = length (t_gens (u_st u)) /\ u_test_err u' = Some 0%Q /\ u_smooth u' = Some (1 # 2) /\ u_train_err u' = Some 0%Q) /\
  exists lg, t_log (u_st u') = t_log (u_st u) ++ lg /\ length lg = grad_cost e g.
Proof.
  intros HS H. destruct k as [|d] eqn:Ek; cbn [k_ask] in H.
  - apply simple_ask_spec in H as (s & E & ->). ucbn. apply ask_spec in E as ((K & G & C & lg & Lg & _) & L & LL).
    split; [left; now apply L|]. do 6 (split; [solve [auto]|]). split; [left; repeat split|].
    exists lg. split; auto. rewrite Lg, app_length in LL. change (grad_cost e (with_flags g u)) with (grad_cost e g) in LL. lia.
  - apply acm_ask_spec in H as (u1 & lam & s & E1 & -> & E2 & ->). ucbn. apply ask_spec in E2 as ((K & G & C & lg & Lg & _) & L & LL).
    assert (Q : u_st u1 = u_st u /\ u_l u1 = u_l u /\ u_exploit u1 = u_exploit u /\ u_lambdap u1 = u_lambdap u /\
      (u_tset u1 = u_tset u /\ u_since u1 = u_since u /\ u_test_err u1 = u_test_err u /\ u_smooth u1 = u_smooth u /\ u_train_err u1 = u_train_err u \/
       u_tset u1 = [] /\ u_since u1 = length (t_gens (u_st u)) /\ u_test_err u1 = Some 0%Q /\ u_smooth u1 = Some (1 # 2) /\ u_train_err u1 = Some 0%Q)).
    { destruct (t_niter (u_st u) =? 0); [destruct E1 as [p ->]|subst u1]; unfold reset_training_set; ucbn; do 4 (split; [reflexivity|]); [right|left]; repeat split. }
    destruct Q as (Q1 & Q2 & Q3 & Q4 & Q5). rewrite Q1 in *.
    split. { specialize (L HS). cbn [g_lambda set_g_lambda] in L. unfold lam_or_pre. ucbn.
             destruct (u_exploit u1 && full u1) eqn:Ef; [right; exists d; split; auto|left; auto]. }
    do 6 (split; [assumption|]). split; [destruct Q5 as [Q5|Q5]; [left; exact Q5|right; split; [congruence|exact Q5]]|].
    exists lg. split; auto. rewrite Lg, app_length in LL. change (grad_cost e _) with (grad_cost e g) in LL at 1. lia.
Qed.

(** * Counters and log, for every history *)
Definition logged u : Prop := counted (u_st u) /\ call_log e (u_st u).
Lemma counted_keep (s s' : st T N) : t_nevals s' = t_nevals s -> s_nevals (t_sol s') = s_nevals (t_sol s) -> t_log s' = t_log s -> counted s -> counted s'.
Proof. unfold counted. intros -> -> ->. auto. Qed.
Lemma evals_logged u test u' : evals e u test u' -> logged u -> logged u'.
Proof.
  intros (lg & A1 & A2 & A3 & A4 & A5 & _) [[C1 C2] C3]. pose proof (as_calls_length _ _ _ A1) as L. split.
  - unfold counted. rewrite A3, A4, A5, app_length. lia.
  - intros i y v H. rewrite A3 in H. destruct (Nat.lt_ge_cases i (length (t_log (u_st u)))).
    + rewrite nth_error_app1 in H by auto. auto.
    + rewrite nth_error_app2 in H by auto. apply A2 in H. rewrite H. f_equal. lia.
Qed.
Lemma logged_ops h l m x0 n u0 u : k_new no g k l m x0 n = Ok u0 -> run_sops so no e g k h u0 = Ok u -> logged u.
Proof.
  intros H0 H. refine (U_ops so no e g k logged (fun _ _ => True) _ _ _ _ _ _ h u0 u _ _ H).
  - intros v pop v' [C1 C2] E. split; [|auto]. destruct k as [|d]; cbn [k_ask] in E.
    + apply simple_ask_spec in E as (s & E & ->). split; ucbn; [|eapply ask_log; eauto]. apply ask_spec in E as (O & _). eapply only_calls_counted; eauto.
    + apply acm_ask_spec in E as (v1 & lam & s & E1 & _ & E2 & ->).
      assert (Q : u_st v1 = u_st v) by (destruct (t_niter (u_st v) =? 0); [destruct E1 as [p ->]; reflexivity|subst; auto]). rewrite Q in E2.
      split; ucbn; [|eapply ask_log; eauto]. apply ask_spec in E2 as (O & _). eapply only_calls_counted; eauto.
  - intros v cols ph u1 u2 HL _ _ E1 E2.
    assert (L1 : logged u1).
    { assert (R : real_eval no e g cols ph v u1 -> logged u1).
      { intros (fl & ns & te & sm & s & E & ->). destruct HL as [C1 C2]. split; ucbn; [eapply eval_counted; eauto|eapply eval_log; eauto]. }
      destruct k as [|d]; cbn [k_eval] in E1.
      - apply simple_eval_spec in E1 as [|(_ & _ & cs & _ & ->)]; [auto|exact HL].
      - apply acm_eval_spec in E1 as [(_ & E1)|(_ & E1)]; auto. apply pre_selection_spec in E1 as (test & err & sl & B1 & _).
        eapply evals_logged; eauto. }
    assert (L2 : logged u2); [|destruct L2 as [[C1 C2] C3]; split; [split|]; auto].
    destruct k as [|d]; cbn [k_tell] in E2.
    + apply simple_tell_spec in E2 as (s & mm & E2 & ->). destruct L1 as [C1 C2]. split; ucbn; [eapply tell_counted; eauto|eapply tell_log; eauto].
    + apply acm_tell_spec in E2 as (s1 & s2 & mm & te & Es1 & Es2 & _ & ->). apply ubc_spec in Es2 as (K & _). unfold kept_by_tell in K. injection K as K1 K2 K3 K4.
      destruct L1 as [[C1 C2] C3]. split; [split|]; ucbn; cbn [t_nevals set_t_sol t_log t_sol s_nevals set_s_num]; auto.
      rewrite K4, Es1. destruct (u_exploit u1 && full u1); auto.
  - intros v b s [C1 C2] E. split; ucbn; [eapply stop_counted; eauto|eapply stop_log; eauto].
  - intros v s [C1 C2] E. split; ucbn; [eapply init_counted; eauto|eapply init_log; eauto].
  - intros v s [C1 C2] _ E. split; ucbn; [|eapply edm_log; eauto]. apply edm_spec in E as (O & _). eapply only_calls_counted; eauto.
  - intros v s1 rf fuel r s2 [C1 C2] _ E1 E2. split; ucbn.
    + eapply optimize_counted; [exact E2|]. eapply reinit_counted; eauto.
    + eapply opt_log; [exact E2|]. eapply reinit_log; eauto.
  - apply Forall_forall. intros [] _; cbn [okop]; auto; intros v v' L E; cbn [do_sop] in E; apply Ok_inj in E; subst v'; auto.
    unfold set_nsteps. destruct (_ <? 0); exact L.
  - apply k_new_spec in H0 as (s & H0 & E & _). unfold logged. rewrite E. apply st_new_spec in H0 as (_ & so' & E' & ->). apply sol_new_spec in E' as (_ & ->).
    split; [split; reflexivity|]. intros [|i] y v Q; discriminate.
Qed.
End Hist.
