(** Consequences of the search invariants in the form used by the property
    theorems. *)
From Coq Require Import Permutation.
From Verif Require Import Base Dbl DblProofs Config ConfigProofs Search SpecSearch SortProofs SearchInv CounterProofs HistProofs SpecStop StopProofs SpecSafe SafeProofs ElitProofs SpecUh UhProofs.
Local Open Scope Z_scope.

Section Thms.
Context {T N : Type}.
Variable no : numops T N.
Variable e : env T N.
Variable g : cfg T.
Notation st := (st T N).
Implicit Types (s : st).

(** Ranking *)
Lemma tell_ranks s s' : g_uh g = false -> (forall c, In c (s_cands (t_sol s)) -> c_f c <> NaN) -> tell no e g s = Ok s' ->
  Permutation (s_cands (t_sol s')) (s_cands (t_sol s)) /\ ascending (s_cands (t_sol s')) /\ stable (s_cands (t_sol s)) (s_cands (t_sol s')).
Proof.
  intros HU HN H. apply tell_effect in H as (_ & _ & _ & _ & _ & _ & _ & _ & _ & _ & _ & _ & C & _). destruct (C HU) as [-> _].
  split; [apply sort_perm|]. split; [apply sort_asc; exact HN|apply sort_stable; exact HN].
Qed.
Lemma hd_ascending (l : list (cand T)) c0 c : ascending (c0 :: l) -> In c (c0 :: l) -> c_f c0 <> NaN -> dle (c_f c0) (c_f c) = true.
Proof.
  revert c0. induction l as [|d l IH]; intros c0 A Hc Hn.
  - destruct Hc as [<-|[]]. apply dle_refl; auto.
  - destruct Hc as [<-|Hc]; [apply dle_refl; auto|]. destruct A as [A1 A2].
    assert (c_f d <> NaN) by (intros Q; rewrite Q in A1; unfold dle in A1; destruct (c_f c0); discriminate).
    eapply dle_trans; [exact A1|]. apply IH; auto.
Qed.
(** best_candidate after tell is the first of the least candidates told. *)
Lemma tell_best s s' : g_uh g = false -> (forall c, In c (s_cands (t_sol s)) -> c_f c <> NaN) -> 1 <= s_maxhist (t_sol s) -> (0 < length (s_cands (t_sol s)))%nat ->
  tell no e g s = Ok s' -> Some (best_candidate no (t_sol s')) = first_min (s_cands (t_sol s)).
Proof.
  intros HU HN HM HL H. pose proof H as H'. apply tell_effect in H as (_ & _ & _ & _ & _ & _ & _ & _ & _ & _ & _ & _ & C & c0 & ck & cl & m & rest & lim & E0 & _ & _ & _ & EH & _).
  destruct (C HU) as [Ec _]. clear C.
  unfold best_candidate. rewrite EH. rewrite last_of_hist.
  2:{ destruct (s_hist (t_sol s)); [right|left; discriminate]. cbn. destruct (Z.ltb_spec (s_maxhist (t_sol s)) 1); auto. lia. }
  rewrite <- E0, Ec. rewrite <- sort_first_min. destruct (sort_cands (s_cands (t_sol s))); reflexivity.
Qed.

(** Histories of generations: the statements of [hinv] one by one. *)
Section Gens.
Hypothesis HS : samples_ok no.
Hypothesis HN : no_nan e.
Hypothesis HU : g_uh g = false.
Hypothesis HE : no_elitism g.
Variables (h : list (op T)) (x0 : list T) (n : N) (s0 s : st).
Hypothesis H0 : st_new no g x0 n = Ok s0.
Hypothesis HG : Forall (whole_gen g) h.
Hypothesis H1 : single_start g h.
Hypothesis HR : run_ops no e g h s0 = Ok s.

Lemma best_seen_min : t_gens s <> [] ->
  (forall gen c, In gen (t_gens s) -> In c gen -> dle (c_f (s_best (t_sol s))) (c_f c) = true) /\
  ((exists gen, In gen (t_gens s) /\ In (s_best (t_sol s)) gen) \/ s_best (t_sol s) = s_init (t_sol s)) /\
  (forall gen c, In gen (t_gens s) -> In c gen -> exists y, In (y, c_f c) (t_log s)).
Proof.
  intros HT. destruct (hinv_run no e g HS HN HU HE h x0 n s0 s H0 HG H1 HR) as (_ & _ & _ & L & B & F & _).
  destruct B as [[B _]|(_ & _ & B)]; [contradiction|]. split; [exact B|]. split; [destruct F; auto|exact L].
Qed.
Lemma worst_seen_max : t_gens s <> [] ->
  (forall gen c, In gen (t_gens s) -> In c gen -> dle (c_f c) (c_f (s_worst (t_sol s))) = true) /\
  (exists gen, In gen (t_gens s) /\ In (s_worst (t_sol s)) gen).
Proof.
  intros HT. destruct (hinv_run no e g HS HN HU HE h x0 n s0 s H0 HG H1 HR) as (_ & _ & _ & _ & _ & _ & W).
  destruct W as [[W _]|(_ & _ & W1 & W2)]; [contradiction|]. auto.
Qed.
Lemma best_is_last gen before : t_gens s = before ++ [gen] -> Some (best_candidate no (t_sol s)) = first_min gen.
Proof.
  intros E. destruct (hinv_run no e g HS HN HU HE h x0 n s0 s H0 HG H1 HR) as ((bests & kths & meds & older & B1 & B2 & _) & (_ & _ & _ & _ & _ & Bg) & _).
  rewrite E in B1. rewrite map_app in B1. cbn [map] in B1.
  assert (HL : (0 < Z.to_nat (hist_len g))%nat) by (pose proof (hist_len_pos g); lia).
  destruct (exists_last (l := bests)) as (bs & b & ->). { intros ->. cbn in B1. destruct (map first_min before); discriminate. }
  rewrite map_app in B1. cbn [map] in B1. apply app_inj_tail in B1 as [_ B1].
  unfold best_candidate. rewrite B2. unfold lastn. rewrite skipn_snoc by (rewrite app_length; cbn; lia).
  rewrite rev_app_distr. cbn. exact B1.
Qed.
Lemma best_before : t_gens s = [] -> best_candidate no (t_sol s) = match c_x (s_init (t_sol s)) with [] => cand_of NaN (n_xmean no (s_num (t_sol s))) | _ => s_init (t_sol s) end.
Proof.
  intros E. destruct (hinv_run no e g HS HN HU HE h x0 n s0 s H0 HG H1 HR) as ((bests & kths & meds & older & B1 & B2 & _) & _).
  rewrite E in B1. destruct bests; [|discriminate]. unfold best_candidate. rewrite B2. reflexivity.
Qed.
(** Windows *)
Lemma windows : exists bests kths meds older,
  map Some bests = map first_min (t_gens s) /\
  s_hist (t_sol s) = lastn (Z.to_nat (if 0 <? g_max_hist g then g_max_hist g else 10 + 30 * Z.of_nat (g_dim g) / Z.of_nat (g_lambda g))) bests /\
  length kths = length (t_gens s) /\
  (forall i gen c, nth_error (t_gens s) i = Some gen -> nth_error kths i = Some c ->
     In c gen /\ order_stat (Z.to_nat (Z.min (Z.of_nat (g_lambda g) - 1) (1 + cdiv (2 + 5 * Z.of_nat (g_lambda g)) 20))) (map c_f gen) (c_f c)) /\
  s_khist (t_sol s) = lastn (Z.to_nat (if 0 <? g_max_hist g then g_max_hist g else 10 + 30 * Z.of_nat (g_dim g) / Z.of_nat (g_lambda g))) kths /\
  s_bf (t_sol s) = lastn 20 (map c_f bests) /\
  length meds = length (t_gens s) /\
  (forall i gen m, nth_error (t_gens s) i = Some gen -> nth_error meds i = Some m -> is_median (map c_f gen) m) /\
  meds = older ++ s_med (t_sol s).
Proof. destruct (hinv_run no e g HS HN HU HE h x0 n s0 s H0 HG H1 HR) as (H & _). exact H. Qed.
End Gens.

(** Every reported candidate comes from a call. *)
Definition logged s (c : cand T) : Prop := c = cand0 \/ exists y, In (y, c_f c) (t_log s).
Definition init_inv s : Prop := logged s (s_init (t_sol s)).
Lemma logged_more s s' c l : t_log s' = t_log s ++ l -> logged s c -> logged s' c.
Proof. intros E [->|[y Hy]]; [left; auto|right; exists y; rewrite E; apply in_or_app; auto]. Qed.
Lemma keep_init s s' : keep s' = keep s -> s_init (t_sol s') = s_init (t_sol s).
Proof. unfold keep. intros H; injection H; auto. Qed.
Lemma init_logged_opt rf fuel s r s' : init_inv s -> optimize no e g (round no e g) rf fuel s = Ok (r, s') -> init_inv s'.
Proof.
  intros C H. refine (P_optimize no e g init_inv (fun _ => True) _ _ _ _ _ _ _ rf fuel s r s' C H); auto; clear; unfold init_inv; intros.
  - apply ask_spec in H0 as ((K & _ & _ & l & L & _) & _). rewrite (keep_init _ _ K). eapply logged_more; eauto.
  - apply eval_spec in H1 as (_ & _ & K & _ & _ & _ & _ & _ & (ys & L & _) & _). apply tell_effect in H2 as (L2 & _ & _ & _ & _ & _ & _ & _ & I2 & _).
    cbn. rewrite I2, (keep_init _ _ K). eapply logged_more; [|exact H]. cbn. rewrite L2, L. reflexivity.
  - apply stop_spec in H0 as [(_ & -> & _)|(_ & _ & [(_ & _ & ->)|(_ & r & _ & _ & ->)])]; auto.
  - apply eval_initial_spec in H0 as [(_ & ->)|(_ & y & _ & ->)]; auto. right. exists y. cbn. apply in_or_app; right; left; reflexivity.
  - apply edm_spec in H0 as ((K & _ & _ & l & L & _) & _). rewrite (keep_init _ _ K). eapply logged_more; eauto.
  - apply reinit_spec in H1 as (so & E & ->). apply sol_new_spec in E as (_ & ->). left. reflexivity.
Qed.
Lemma init_logged h : forall s s', init_inv s -> run_ops no e g h s = Ok s' -> init_inv s'.
Proof.
  induction h as [|o h IH]; cbn [run_ops]; intros s s' I H; [apply Ok_inj in H; subst; auto|].
  apply bind_ok in H as (s1 & E & H). eapply IH; [|exact H]. clear IH H. unfold init_inv in *. destruct o; cbn [do_op] in E.
  - apply bind_ok in E as ([pop s2] & E & Q). apply Ok_inj in Q. subst s1. apply ask_spec in E as ((K & _ & _ & l & L & _) & _). cbn. rewrite (keep_init _ _ K). eapply logged_more; eauto.
  - apply eval_spec in E as (_ & _ & K & _ & _ & _ & _ & _ & (ys & L & _) & _). rewrite (keep_init _ _ K). eapply logged_more; eauto.
  - apply tell_effect in E as (L2 & _ & _ & _ & _ & _ & _ & _ & I2 & _). rewrite I2. eapply (logged_more _ _ _ []); [rewrite L2; now rewrite app_nil_r|auto].
  - apply Ok_inj in E. subst s1. exact I.
  - apply bind_ok in E as ([b s2] & E & Q). apply Ok_inj in Q. subst s1. cbn. apply stop_spec in E as [(_ & -> & _)|(_ & _ & [(_ & _ & ->)|(_ & r & _ & _ & ->)])]; auto.
  - apply bind_ok in E as (s2 & E & Q). apply bind_ok in Q as (s3 & E3 & Q). apply Ok_inj in Q. subst s1.
    apply eval_spec in E as (_ & _ & K & _ & _ & _ & _ & _ & (ys & L & _) & _). apply tell_effect in E3 as (L2 & _ & _ & _ & _ & _ & _ & _ & I2 & _).
    cbn. rewrite I2, (keep_init _ _ K). eapply logged_more; [|exact I]. cbn. rewrite L2, L. reflexivity.
  - apply bind_ok in E as ([r s2] & E & Q). apply Ok_inj in Q. subst s1. eapply (init_logged_opt _ _ _ _ _ I E).
Qed.

(** When nothing but the populations is evaluated, the generations are exactly
    the calls of the objective. *)
Definition populations_only : Prop :=
  g_uh g = false /\ no_elitism g /\ g_init_fvalue g = false /\ (e_gfunc e = true \/ (g_gradient g = false /\ g_edm g = false)).
Definition log_inv s : Prop := map snd (t_log s) = concat (map (map c_f) (t_gens s)) /\ t_initel s = false.
Hypothesis HP : populations_only.
Lemma keep_initel s s' : keep s' = keep s -> t_initel s' = t_initel s.
Proof. unfold keep. intros H; injection H; auto. Qed.
Lemma log_calls s s' : only_calls s s' -> length (t_log s') = length (t_log s) -> log_inv s -> log_inv s'.
Proof.
  intros (K & G & _ & l & L & _) E [I1 I2]. rewrite L, app_length in E. destruct l; [|cbn in E; lia]. rewrite app_nil_r in L. unfold log_inv. rewrite L, G, (keep_initel _ _ K). auto.
Qed.
Lemma grad_free : grad_cost e g = 0%nat /\ (g_edm g = true -> edm_cost e g = 0%nat).
Proof.
  destruct HP as (_ & _ & _ & [E|[E1 E2]]); unfold grad_cost, edm_cost.
  - rewrite E. now rewrite andb_false_r.
  - rewrite E1, E2. split; [auto|discriminate].
Qed.
Lemma log_ask s pop s' : log_inv s -> ask no e g s = Ok (pop, s') -> log_inv s'.
Proof. intros I H. apply ask_spec in H as (O & _ & L). eapply log_calls; eauto. rewrite L, (proj1 grad_free). lia. Qed.
Lemma log_eval s cols phen s' : log_inv s -> eval no e g cols phen s = Ok s' -> log_inv s'.
Proof.
  intros [I1 I2] H. apply eval_spec in H as (_ & _ & K & G & _ & _ & _ & _ & (ys & L & Y & _) & _). rewrite (Y (proj1 HP)), app_nil_r in L.
  unfold log_inv. rewrite L, G, (keep_initel _ _ K), !map_app, concat_app, I1. split; auto. cbn. now rewrite app_nil_r, new_gen_f.
Qed.
Lemma log_tell s s' : log_inv s -> tell no e g s = Ok s' -> log_inv s'.
Proof. intros [I1 I2] H. apply tell_effect in H as (L & G & _ & _ & T1 & _). unfold log_inv. rewrite L, G, T1. auto. Qed.
Lemma log_stop s b s' : log_inv s -> stop no e g s = Ok (b, s') -> log_inv s'.
Proof. intros I E. apply stop_spec in E as [(_ & -> & _)|(_ & _ & [(_ & _ & ->)|(_ & r & _ & _ & ->)])]; auto. Qed.
Lemma log_init s s' : log_inv s -> eval_initial no e g s = Ok s' -> log_inv s'.
Proof.
  intros [I1 I2] H. apply eval_initial_spec in H as [(_ & ->)|(W & _)]; [split; auto|]. unfold wants_init in W. destruct HP as (_ & E & E2 & _). rewrite I2, E, E2 in W. discriminate.
Qed.
Lemma log_edm s s' : g_edm g = true -> log_inv s -> edm no e g s = Ok s' -> log_inv s'.
Proof. intros E I H. apply edm_spec in H as (O & L). eapply log_calls; eauto. rewrite L, (proj2 grad_free E). lia. Qed.
Lemma log_round s s' : log_inv s -> round no e g s = Ok s' -> log_inv s'.
Proof.
  intros I H. unfold round in H. apply bind_ok in H as ([pop s1] & E1 & H). apply bind_ok in H as (ph & E2 & H). apply bind_ok in H as (s2 & E3 & H). apply bind_ok in H as (s3 & E4 & H). apply Ok_inj in H. subst s'.
  apply (log_tell s2 s3); auto. eapply log_eval; [|exact E3]. eapply log_ask; eauto.
Qed.
Lemma log_loop fuel : forall s s', log_inv s -> loop no e g (round no e g) fuel s = Ok s' -> log_inv s'.
Proof.
  induction fuel as [|fuel IH]; intros s s' I H; cbn [loop] in H; [discriminate|]. apply bind_ok in H as ([b s1] & E1 & H). cbn [fst snd] in H.
  pose proof (log_stop _ _ _ I E1) as I1. destruct b; [apply Ok_inj in H; subst; auto|]. apply bind_ok in H as (s2 & E2 & H). eapply IH; [|exact H]. eapply log_round; eauto.
Qed.
Lemma log_opt rf fuel s r s' : log_inv s -> optimize no e g (round no e g) rf fuel s = Ok (r, s') -> log_inv s'.
Proof.
  intros I H. apply optimize_unfold in H as (s1 & s2 & s3 & w & H1 & H2 & H3 & H4 & H5 & _).
  assert (I3 : log_inv s3). { pose proof (log_loop _ _ _ (log_init _ _ I H1) H2) as I2. destruct (g_edm g) eqn:E; [eapply log_edm; eauto|subst; auto]. }
  unfold restart_wanted in H4. rewrite (proj1 (proj2 HP)) in H4. cbn in H4. apply Ok_inj in H4. subst w.
  destruct H5 as [[_ ->]|[Q _]]; [auto|discriminate].
Qed.
Lemma log_ops h : forall s s', log_inv s -> run_ops no e g h s = Ok s' -> log_inv s'.
Proof.
  induction h as [|o h IH]; cbn [run_ops]; intros s s' I H; [apply Ok_inj in H; subst; auto|].
  apply bind_ok in H as (s1 & E & H). eapply IH; [|exact H]. clear IH H. destruct o; cbn [do_op] in E.
  - apply bind_ok in E as ([pop s2] & E & Q). apply Ok_inj in Q. subst s1. eapply log_ask; eauto.
  - eapply log_eval; eauto.
  - eapply log_tell; eauto.
  - apply Ok_inj in E. subst s1. exact I.
  - apply bind_ok in E as ([b s2] & E & Q). apply Ok_inj in Q. subst s1. eapply log_stop; eauto.
  - apply bind_ok in E as (s2 & E & Q). apply bind_ok in Q as (s3 & E3 & Q). apply Ok_inj in Q. subst s1. apply (log_tell s2 s3); auto. eapply log_eval; eauto.
  - apply bind_ok in E as ([r s2] & E & Q). apply Ok_inj in Q. subst s1. eapply log_opt; eauto.
Qed.
Lemma calls_are_generations h x0 n s0 s : st_new no g x0 n = Ok s0 -> run_ops no e g h s0 = Ok s -> map snd (t_log s) = concat (map (map c_f) (t_gens s)).
Proof. intros H0 H. eapply log_ops; [|exact H]. apply st_new_spec in H0 as (_ & so & _ & ->). split; reflexivity. Qed.
(** Best and worst over all calls. *)
Lemma best_over_calls h x0 n s0 s : samples_ok no -> no_nan e -> st_new no g x0 n = Ok s0 -> Forall (whole_gen g) h -> run_ops no e g h s0 = Ok s ->
  (exists y v, In (y, v) (t_log s)) ->
  (exists y, In (y, c_f (s_best (t_sol s))) (t_log s)) /\ (exists y, In (y, c_f (s_worst (t_sol s))) (t_log s)) /\
  (forall y v, In (y, v) (t_log s) -> dle (c_f (s_best (t_sol s))) v = true /\ dle v (c_f (s_worst (t_sol s))) = true).
Proof.
  intros HS HN H0 HG HR Hne. destruct HP as (HU & HE & HI & _).
  assert (H1 : single_start g h) by (left; auto).
  pose proof (calls_are_generations h x0 n s0 s H0 HR) as HL.
  assert (IN : forall y v, In (y, v) (t_log s) -> exists gen c, In gen (t_gens s) /\ In c gen /\ c_f c = v).
  { intros y v Hy. apply (in_map snd) in Hy. cbn in Hy. rewrite HL in Hy. apply in_concat in Hy as (l & Hl & Hv). apply in_map_iff in Hl as (gen & <- & Hg). apply in_map_iff in Hv as (c & <- & Hc). eauto. }
  assert (HT : t_gens s <> []). { destruct Hne as (y & v & Hy). destruct (IN y v Hy) as (gen & c & Hg & _). intros Q. rewrite Q in Hg. destruct Hg. }
  destruct (best_seen_min HS HN HU HE h x0 n s0 s H0 HG H1 HR HT) as (B1 & B2 & B3).
  destruct (worst_seen_max HS HN HU HE h x0 n s0 s H0 HG H1 HR HT) as (W1 & gw & W2 & W3).
  split; [|split].
  - destruct B2 as [(gen & Hg & Hc)|B2]; [eauto|].
    assert (I : init_inv s). { eapply init_logged; [|exact HR]. apply st_new_spec in H0 as (_ & so & E & ->). apply sol_new_spec in E as (_ & ->). left; reflexivity. }
    destruct I as [I|[y I]]; [|rewrite B2; eauto].
    exfalso. rewrite B2, I in B1. destruct Hne as (y & v & Hy). destruct (IN y v Hy) as (gen & c & Hg & Hc & _). specialize (B1 gen c Hg Hc). discriminate.
  - eauto.
  - intros y v Hy. destruct (IN y v Hy) as (gen & c & Hg & Hc & <-). split; eauto.
Qed.
End Thms.
