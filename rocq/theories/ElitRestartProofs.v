(** The elitist restart. *)
From Verif Require Import Base Dbl DblProofs Config Search SpecSearch SpecStop SpecSafe SpecElitRestart SortProofs SearchInv CounterProofs HistProofs StopProofs SafeProofs ElitProofs.
Local Open Scope Z_scope.

Section ElitRestart.
Context {T N : Type}.
Variable no : numops T N.
Variable e : env T N.
Variable g : cfg T.
Notation st := (st T N).
Implicit Types (s : st).

Lemma overtaken_wanted b w : e_restart (g_elit g) = true -> restart_wanted no g b = Ok w -> (w = true <-> overtaken no b).
Proof.
  intros E. unfold restart_wanted, overtaken. rewrite E. cbn [andb].
  destruct (dlt (c_f (s_best (t_sol b))) (c_f (best_candidate no (t_sol b)))) eqn:D; cbn [andb].
  - destruct (s_best_iter (t_sol b)) as [i|]; [|discriminate]. intros Q. apply Ok_inj in Q. subst w. rewrite Z.leb_le. split.
    + intros H. split; auto. exists i. auto.
    + intros (_ & j & Ej & H). injection Ej as <-. auto.
  - intros Q. apply Ok_inj in Q. subst w. split; [discriminate|intros [? _]; discriminate].
Qed.
Lemma reinit_again b c : reinit no g b = Ok c -> starts_again b c.
Proof.
  intros H. apply reinit_spec in H as (so & E & ->). apply sol_new_spec in E as (_ & ->).
  unfold starts_again. cbn. repeat (split; [reflexivity|]). reflexivity.
Qed.
Lemma reinit_num b c : reinit no g b = Ok c -> s_num (t_sol c) = n_new no (c_x (s_best (t_sol b))) (s_num (t_sol b)).
Proof. intros H. apply reinit_spec in H as (so & E & ->). apply sol_new_spec in E as (_ & ->). reflexivity. Qed.

Definition links (b c : st) : Prop := s_num (t_sol c) = n_new no (c_x (s_best (t_sol b))) (s_num (t_sol b)) /\
  length (s_cands (t_sol c)) = g_lambda g /\ s_maxhist (t_sol c) = hist_len g /\ c_x (s_best (t_sol c)) = [] /\ c_x (s_init (t_sol c)) = [].
Inductive runs' (fuel : nat) : st -> list (st * st) -> st -> Prop :=
| runs_last' a b : one_run no e g fuel a b -> ~ overtaken no b -> runs' fuel a [(a, b)] b
| runs_more' a b c l z : one_run no e g fuel a b -> overtaken no b -> starts_again b c -> links b c -> runs' fuel c l z ->
    runs' fuel a ((a, b) :: l) z.
Lemma runs'_runs fuel a l z : runs' fuel a l z -> runs no e g fuel a l z.
Proof. induction 1; [constructor 1|econstructor 2]; eauto. Qed.
Lemma runs_head fuel a l z : runs' fuel a l z -> exists b l', l = (a, b) :: l' /\ one_run no e g fuel a b.
Proof. destruct 1; eauto. Qed.

Theorem optimize_runs' fuel : e_restart (g_elit g) = true -> forall rf s r z,
  optimize no e g (round no e g) rf fuel s = Ok (r, z) -> exists l, runs' fuel s l z /\ (length l <= S rf)%nat.
Proof.
  intros E. induction rf as [|rf IH]; intros s r z H; apply optimize_unfold in H as (s1 & s2 & s3 & w & H1 & H2 & H3 & H4 & H5 & _).
  all: assert (O : one_run no e g fuel s s3) by (exists s1, s2; auto).
  all: pose proof (overtaken_wanted s3 w E H4) as W.
  - destruct H5 as [[-> ->]|(-> & rf' & s4 & r' & X & _)]; [|discriminate]. eexists. split; [constructor 1; eauto|cbn; lia].
    intros Q. apply W in Q. discriminate.
  - destruct H5 as [[-> ->]|(-> & rf' & s4 & r' & X & H5 & H6)].
    + eexists. split; [constructor 1; eauto|cbn; lia]. intros Q. apply W in Q. discriminate.
    + injection X as <-. destruct (IH _ _ _ H6) as (l & R & L). exists ((s, s3) :: l). split; [|cbn; lia].
      econstructor 2; [exact O|apply W; auto|apply reinit_again; eauto| |exact R].
      pose proof (reinit_num _ _ H5). apply reinit_spec in H5 as (so & F & ->). apply sol_new_spec in F as (_ & ->).
      unfold links. cbn in *. rewrite repeat_length. repeat (split; auto).
Qed.
Theorem optimize_runs fuel : e_restart (g_elit g) = true -> forall rf s r z,
  optimize no e g (round no e g) rf fuel s = Ok (r, z) -> exists l, runs no e g fuel s l z /\ (length l <= S rf)%nat.
Proof. intros E rf s r z H. destruct (optimize_runs' fuel E rf s r z H) as (l & R & L). exists l. split; auto. apply runs'_runs; auto. Qed.

(** * Points drawn *)
Lemma set_row_len i v d : forall (pop pop' : list (list T)), set_row i v pop = Ok pop' -> Forall (fun x => length x = d) pop -> Forall (fun x => length x = d) pop'.
Proof.
  unfold set_row. induction pop as [|x pop IH]; intros pop' H F; cbn in H; [apply Ok_inj in H; subst; auto|].
  inv_do H. inv_do H. apply Ok_inj in H. subst. inversion F; subst. constructor; [eapply upd_at_length; eauto|eauto].
Qed.
Lemma fix_rows_len d fx : forall (pop pop' : list (list T)), fix_rows fx pop = Ok pop' -> Forall (fun x => length x = d) pop -> Forall (fun x => length x = d) pop'.
Proof.
  induction fx as [|[i v] fx IH]; intros pop pop' H F; cbn in H; [apply Ok_inj in H; subst; auto|].
  inv_do H. eapply IH; eauto. eapply set_row_len; eauto.
Qed.
Lemma ask_len s pop s' : dims_ok no g -> ask no e g s = Ok (pop, s') -> Forall (fun x => length x = g_dim g) pop.
Proof.
  intros (D1 & D2 & D3 & D4 & D5) H. unfold ask in H.
  destruct (n_sample no (g_lambda g) (n_eigen no (t_niter s) (s_num (t_sol s)))) as [pop1 n2] eqn:Es.
  assert (P1 : Forall (fun x => length x = g_dim g) pop1).
  { apply Forall_forall. intros x Hx. apply (D2 (g_lambda g) (n_eigen no (t_niter s) (s_num (t_sol s)))). rewrite Es. auto. }
  clear Es. inv_do H. destruct a as [pop2 s2].
  assert (P2 : Forall (fun x => length x = g_dim g) pop2).
  { destruct (g_gradient g); [|apply Ok_inj in H0; injection H0 as <- _; auto].
    inv_do H0. match type of H0 with context [gradf no e g a ?q] => destruct (gradf no e g a q) as [gr s3] end.
    destruct (n_gradcol no gr (s_num (t_sol s3))) as [nx|] eqn:En; [|apply Ok_inj in H0; injection H0 as <- _; auto].
    inv_do H0. apply Ok_inj in H0. injection H0 as <- _. eapply upd_at_forall; [eauto|cbn; eauto|auto]. }
  clear H0. inv_do H. destruct a as [pop3 s3]. inv_do H. apply Ok_inj in H. injection H as <- <-.
  eapply fix_rows_len; eauto.
  destruct ((g_tpa g =? 2) && (0 <? t_niter s2)); [|apply Ok_inj in H0; injection H0 as <- _; auto].
  specialize (D5 (s_num (t_sol s2))). destruct (n_tpa_points no (s_num (t_sol s2))) as [[x1 x2] n3]. destruct D5 as [D5 D6].
  cbv zeta in H0. inv_do H0. inv_do H0. apply Ok_inj in H0. injection H0 as <- _.
  eapply upd_at_forall; [eauto|auto|]. eapply upd_at_forall; eauto.
Qed.

(** * A deterministic objective *)
Section Det.
Variable f : list T -> dbl.
Hypothesis HF : computes e f.
Hypothesis HN : no_nan e.
Hypothesis HD : dims_ok no g.
Hypothesis H1d : (1 <= g_dim g)%nat.
Hypothesis HL : (2 <= g_lambda g)%nat.
Hypothesis HU : g_uh g = false.
Hypothesis H3 : scheme3 g.

Definition good (c : cand T) : Prop := length (c_x c) = g_dim g /\ valued e f c.
Lemma good_nn c : good c -> c_f c <> NaN.
Proof. intros (_ & y & _ & ->). rewrite <- (HF 0%nat). apply HN. Qed.
Lemma good_ne c : good c -> c_x c <> [].
Proof. intros (L & _) Q. rewrite Q in L. cbn in L. lia. Qed.

Definition base s : Prop := length (s_cands (t_sol s)) = g_lambda g /\ s_maxhist (t_sol s) = hist_len g /\
  s_niter (t_sol s) = t_niter s /\ 0 <= t_niter s.
Definition fresh s : Prop := t_initel s = false -> (t_niter s = 0 /\ c_x (s_best (t_sol s)) = [] /\ s_best_iter (t_sol s) = None /\ c_x (s_init (t_sol s)) = []) \/ (s_best_iter (t_sol s) <> None /\ good (s_best (t_sol s))).
Definition again s : Prop := t_initel s = true ->
  good (s_init (t_sol s)) /\ good (s_best (t_sol s)) /\
  (s_best_iter (t_sol s) = None -> s_best (t_sol s) = s_init (t_sol s)) /\
  (s_best_iter (t_sol s) <> None -> dlt (c_f (s_best (t_sol s))) (c_f (s_init (t_sol s))) = true) /\
  (t_niter s <> 1 -> dle (c_f (best_candidate no (t_sol s))) (c_f (s_init (t_sol s))) = true).
Definition binv s : Prop := base s /\ fresh s /\ again s /\ (t_niter s = 0 -> s_hist (t_sol s) = []).

(* the best candidate of a solution in terms of what changes it *)
Definition same_best (so so' : sol T N) : Prop := s_hist so' = s_hist so /\ s_init so' = s_init so.
Lemma best_candidate_same (so so' : sol T N) i : same_best so so' -> s_hist so <> [] \/ (i = s_init so /\ c_x i <> []) ->
  best_candidate no so' = best_candidate no so.
Proof.
  intros [A B] H. unfold best_candidate. rewrite A, B. destruct (rev (s_hist so)) eqn:E; auto.
  destruct H as [H|[-> H]]; [|destruct (c_x (s_init so)); congruence].
  apply (f_equal (@rev _)) in E. rewrite rev_involutive in E. contradiction.
Qed.

Lemma new_gen_good ph : forall cols r k old, Forall (fun x => length x = g_dim g) cols ->
  (forall i x, nth_error cols i = Some x -> exists y, phen_at ph (r + i) x = y /\ e_pheno e x = Ok y) ->
  Forall good (new_gen e r k cols ph old).
Proof.
  induction cols as [|x cols IH]; intros r k old F H; cbn [new_gen]; constructor.
  - inversion F; subst. split; [auto|]. destruct (H 0%nat x eq_refl) as (y & A & B). rewrite Nat.add_0_r in A.
    exists y. cbn. split; auto. rewrite A. apply HF.
  - inversion F; subst. apply IH; auto. intros i z Hz. destruct (H (S i) z Hz) as (y & A & B). exists y. split; auto.
    rewrite <- A. f_equal. lia.
Qed.
Lemma phen_pop pop ph : mapM (e_pheno e) pop = Ok ph ->
  forall i x, nth_error pop i = Some x -> exists y, phen_at ph (0 + i) x = y /\ e_pheno e x = Ok y.
Proof.
  intros H i x Hx. destruct (mapM_nth _ _ _ H i x Hx) as (y & A & B). exists y. split; auto. cbn [Nat.add].
  unfold phen_at. destruct ph; [destruct i; discriminate|]. apply nth_error_nth. auto.
Qed.

Lemma keep_binv s s' : keep s' = keep s -> s_cands (t_sol s') = s_cands (t_sol s) -> binv s -> binv s'.
Proof.
  unfold keep. intros K C (B & F & A & Hh). injection K as K1 K2 K3 K4 K5 K6 K7 K8 K9 K10 K11 K12 K13 K14 K15.
  unfold binv, base, fresh, again. rewrite C, K1, K5, K6, K8, K9, K11, K13, K14.
  split; [exact B|]. split; [exact F|]. split; [|exact Hh].
  intros Q. specialize (A Q). destruct A as (A1 & A2 & A3 & A4 & A5). do 4 (split; auto). intros Q2.
  rewrite (best_candidate_same (t_sol s) (t_sol s') (s_init (t_sol s))); auto.
  - split; auto.
  - right. split; auto. apply good_ne; auto.
Qed.

Lemma round_binv s s' : binv s -> round no e g s = Ok s' -> binv s'.
Proof.
  intros HI H. unfold round in H. inv_do H. destruct a as [pop s1]. inv_do H. inv_do H. inv_do H. apply Ok_inj in H. subst s'.
  cbn [fst snd] in *. rename a into ph, a0 into s2, a1 into s3.
  pose proof (ask_len _ _ _ HD H0) as PL. apply ask_spec in H0 as ((K & _ & C & _) & PN & _). specialize (PN (proj1 HD)).
  assert (I1 : binv s1) by (eapply keep_binv; eauto). clear HI K C.
  pose proof H2 as HE.
  apply eval_spec in H2 as (E1 & E2 & K & _ & E5 & _ & _ & _ & _ & E8 & _).
  destruct H3 as [H3a H3b].
  destruct I1 as ((B1 & B2 & B3 & B4) & F & A & Hh).
  unfold keep in K. injection K as K1 K2 K3 K4 K5 K6 K7 K8 K9 K10 K11 K12 K13 K14 K15.
  assert (GM : Forall good (mid_cands e pop ph s1)).
  { unfold mid_cands. rewrite skipn_all2 by lia. rewrite app_nil_r. apply new_gen_good; auto. apply phen_pop; auto. }
  assert (GC : Forall good (s_cands (t_sol s2))).
  { destruct E8 as [[-> _]|(Eon & Eu & _)]; auto. eapply upd_at_forall; [exact Eu| |exact GM].
    unfold elit_on in Eon. unfold ref_cand. rewrite H3a in *. cbn in *. apply andb_true_iff in Eon as [_ Eon]. rewrite andb_true_r in Eon.
    apply (A Eon). }
  assert (NN : nonan (s_cands (t_sol s2))) by (intros c Hc; rewrite Forall_forall in GC; apply good_nn; auto).
  apply tell_effect in H4 as (_ & _ & _ & T1 & T2 & _ & _ & T3 & T4 & _ & T5 & _ & T6 & c0 & ck & cl & m & rest & lim & C1 & _ & _ & _ & C5 & _ & _ & _ & C9 & C10 & _).
  destruct (T6 HU) as [T7 _].
  assert (G0 : good c0).
  { rewrite Forall_forall in GC. apply GC. apply sort_in. rewrite <- T7. eapply nth_error_In; eauto. }
  assert (BC : best_candidate no (t_sol (inc_iter s3)) = c0).
  { unfold best_candidate. change (s_hist (t_sol (inc_iter s3))) with (s_hist (t_sol s3)). rewrite C5, last_of_hist; auto.
    destruct (s_hist (t_sol s2)) as [|]; [right|left; discriminate]. cbn [app length]. rewrite K11, B2. apply Z.ltb_ge. pose proof (hist_len_pos g). lia. }
  assert (E0 : 0 < t_niter s1 -> t_initel s1 = true -> dle (c_f c0) (c_f (s_init (t_sol s1))) = true).
  { intros P Q. destruct (eval_keeps_ref no e g s1 pop ph s2) as (c & Hc & Lc); auto; [|lia| |].
    - unfold elit_on. rewrite H3a, Q. cbn. rewrite andb_true_r. apply Z.ltb_lt; auto.
    - unfold ref_cand. rewrite H3a. cbn. apply good_nn. apply (A Q).
    - destruct (first_of_sorted _ c NN Hc) as (d & Ed & Ld). rewrite <- T7, C1 in Ed. injection Ed as <-.
      unfold ref_cand in Lc. rewrite H3a in Lc. cbn in Lc. eapply dle_trans; eauto. }
  unfold binv, base, fresh, again. rewrite BC.
  cbn [t_sol inc_iter set_t_sol set_s_niter s_cands s_maxhist s_hist s_init t_niter set_t_niter s_niter t_initel s_best s_best_iter].
  rewrite T1, T2, T3, T4, T5, K8, K9, K11, K13, K14, T7, sort_length.
  split; [lia|]. split; [|split; [|lia]].
  - intros Q. right. rewrite C9, C10. specialize (F Q). destruct (best_take (t_sol s2) c0) eqn:Et; [split; [discriminate|auto]|].
    rewrite K5, K6. destruct F as [(F1 & F2 & _)|F]; [|auto]. exfalso. unfold best_take in Et. rewrite K9, K5, B3, F1, F2 in Et. discriminate.
  - intros Q. destruct (A Q) as (A1 & A2 & A3 & A4 & A5). split; auto.
    assert (NE : best_take (t_sol s2) c0 = dlt (c_f c0) (c_f (s_best (t_sol s1)))).
    { unfold best_take. rewrite K5. apply good_ne in A2. destruct (c_x (s_best (t_sol s1))); [congruence|]. now rewrite andb_false_r. }
    rewrite C9, C10, NE, K5, K6. destruct (dlt (c_f c0) (c_f (s_best (t_sol s1)))) eqn:Ed.
    + split; auto. split; [discriminate|]. split.
      * intros _. destruct (s_best_iter (t_sol s1)) eqn:Eb; [eapply dlt_trans; [eauto|apply A4; discriminate]|].
        rewrite <- A3; auto.
      * intros P. apply E0; auto. lia.
    + split; auto. split; auto. split; auto. intros P. apply E0; auto. lia.
Qed.
Lemma stop_binv s b s' : binv s -> stop no e g s = Ok (b, s') -> binv s'.
Proof.
  intros H Q. apply stop_spec in Q as [(_ & -> & _)|(_ & _ & [(_ & _ & ->)|(_ & r & _ & _ & ->)])]; auto.
Qed.
Lemma loop_binv fuel : forall s s', binv s -> loop no e g (round no e g) fuel s = Ok s' -> binv s'.
Proof.
  induction fuel as [|fuel IH]; intros s s' HI H; cbn in H; [discriminate|].
  inv_do H. destruct a as [b s1]. cbn [fst snd] in H. apply stop_binv in H0; auto.
  destruct b; [apply Ok_inj in H; subst; auto|]. inv_do H. eapply IH; [|eauto]. eapply round_binv; eauto.
Qed.

(* the start of a run *)
Definition begin s : Prop := base s /\ t_niter s = 0 /\ s_hist (t_sol s) = [] /\ c_x (s_best (t_sol s)) = [] /\ s_best_iter (t_sol s) = None /\ c_x (s_init (t_sol s)) = [].
Lemma init_binv s s1 : begin s -> eval_initial no e g s = Ok s1 -> binv s1 /\ t_initel s1 = t_initel s /\
  (t_initel s = true -> exists y, e_pheno e (n_xmean no (s_num (t_sol s))) = Ok y /\ c_f (s_init (t_sol s1)) = f y /\
     t_log s1 = t_log s ++ [(y, f y)]).
Proof.
  intros (B & Z0 & Hh & X & Nn & Xi) H. destruct H3 as [H3a H3b].
  apply eval_initial_spec in H as [(W & ->)|(W & y & Hy & ->)]; unfold wants_init in W; rewrite H3a, H3b in W; cbn in W; rewrite !orb_false_r in W.
  - split; [|split; auto; congruence]. split; [auto|]. split; [left; auto|]. split; [|auto]. intros Q. congruence.
  - set (c := cand_of _ _).
    assert (G : good c).
    { split; [apply (proj1 (proj2 (proj2 HD)))|]. exists y. split; [exact Hy|]. cbn. apply HF. }
    split; [|split; [reflexivity|]].
    + split; [exact B|]. split; [intros Q; cbn in Q; congruence|]. split; [|intros _; exact Hh].
      intros _. cbn. do 3 (split; [auto|]). split; [cbn; congruence|]. intros _.
      unfold best_candidate. cbn. rewrite Hh. cbn [rev]. pose proof (good_ne _ G) as Ne. unfold c in Ne. cbn in Ne.
      destruct (n_xmean no (s_num (t_sol s))) eqn:Ex; [congruence|]. cbn. apply dle_refl. apply HN.
    + intros _. exists y. split; auto. cbn. rewrite HF. auto.
Qed.
Lemma run_binv fuel a b : begin a -> one_run no e g fuel a b -> binv b.
Proof.
  intros HB (s1 & s2 & E1 & E2 & E3). apply init_binv in E1 as (I1 & _); auto. apply loop_binv in E2; auto.
  destruct (g_edm g); [|subst; auto]. apply edm_spec in E3 as ((K & _ & C & _) & _). eapply keep_binv; eauto.
Qed.
(* what a run keeps of its start *)
Definition started s1 s : Prop := t_initel s = t_initel s1 /\ s_init (t_sol s) = s_init (t_sol s1) /\ exists l, t_log s = t_log s1 ++ l.
Lemma started_trans a b c : started a b -> started b c -> started a c.
Proof. intros (A1 & A2 & l & A3) (B1 & B2 & l' & B3). split; [congruence|]. split; [congruence|]. exists (l ++ l'). now rewrite B3, A3, app_assoc. Qed.
Lemma calls_started a b : only_calls a b -> started a b.
Proof. intros (K & _ & _ & l & L & _). unfold keep in K. injection K as K1 K2 K3 K4 K5 K6 K7 K8 K9 K10 K11 K12 K13 K14 K15. split; auto. split; auto. exists l; auto. Qed.
Lemma round_started s s' : round no e g s = Ok s' -> started s s'.
Proof.
  intros H. unfold round in H. inv_do H. destruct a as [pop s1]. inv_do H. inv_do H. inv_do H. apply Ok_inj in H. subst s'.
  apply ask_spec in H0 as (O & _). apply calls_started in O. cbn [fst snd] in *.
  apply eval_spec in H2 as (_ & _ & K & _ & _ & _ & _ & _ & (ys & L & _) & _).
  unfold keep in K. injection K as K1 K2 K3 K4 K5 K6 K7 K8 K9 K10 K11 K12 K13 K14 K15.
  apply tell_effect in H4 as (L1 & _ & _ & _ & T2 & _ & _ & _ & T4 & _).
  eapply started_trans; [exact O|]. split; [cbn; congruence|]. split; [cbn; congruence|]. cbn. rewrite L1, L. eauto.
Qed.
Lemma loop_started fuel : forall s s', loop no e g (round no e g) fuel s = Ok s' -> started s s'.
Proof.
  induction fuel as [|fuel IH]; intros s s' H; cbn in H; [discriminate|].
  inv_do H. destruct a as [b s1]. cbn [fst snd] in H.
  assert (Q : started s s1).
  { apply stop_spec in H0 as [(_ & -> & _)|(_ & _ & [(_ & _ & ->)|(_ & r & _ & _ & ->)])]; (split; [reflexivity|split; [reflexivity|exists []; now rewrite app_nil_r]]). }
  destruct b; [apply Ok_inj in H; subst; auto|]. inv_do H. eapply started_trans; [exact Q|]. eapply started_trans; [eapply round_started; eauto|eauto].
Qed.
Lemma run_started fuel a b : one_run no e g fuel a b -> exists s1, eval_initial no e g a = Ok s1 /\ started s1 b.
Proof.
  intros (s1 & s2 & E1 & E2 & E3). exists s1. split; auto. apply loop_started in E2. destruct (g_edm g); [|subst; auto].
  apply edm_spec in E3 as (O & _). eapply started_trans; [exact E2|apply calls_started; auto].
Qed.

Lemma again_begin b c : starts_again b c -> links b c -> begin c.
Proof.
  intros (A1 & A2 & A3 & A4 & A5 & A6 & A7 & A8 & A9 & A10) (L1 & L2 & L3 & L4 & L5).
  split; [split; [auto|split; [auto|lia]]|]. auto.
Qed.
Lemma new_begin x0 n s : st_new no g x0 n = Ok s -> begin s /\ t_initel s = false.
Proof.
  intros H. apply st_new_spec in H as (Hl & so & H & ->). apply sol_new_spec in H as (_ & ->). split; [|reflexivity].
  split; [|cbn; auto]. unfold base; cbn. rewrite repeat_length. auto with zarith.
Qed.

(** The point at which a run ends has its value; so the restart begins there. *)
Lemma overtaken_good b : binv b -> overtaken no b -> good (s_best (t_sol b)).
Proof.
  intros (_ & F & A & _) (_ & i & Ei & Li). destruct (t_initel b) eqn:Q; [apply A; auto|].
  destruct (F Q) as [(_ & _ & Q2 & _)|[_ G]]; auto. congruence.
Qed.
Hypothesis HX : starts_where_told no g.

(** One restart: from [b] to [c], and the run that follows. *)
Lemma restart_run fuel b c d : binv b -> overtaken no b -> starts_again b c -> links b c -> one_run no e g fuel c d ->
  binv d /\ t_initel d = true /\
  dle (c_f (s_best (t_sol d))) (c_f (s_best (t_sol b))) = true /\
  (s_best_iter (t_sol d) <> None -> dlt (c_f (s_best (t_sol d))) (c_f (s_best (t_sol b))) = true) /\
  (exists y l, e_pheno e (c_x (s_best (t_sol b))) = Ok y /\ t_log d = t_log b ++ (y, c_f (s_best (t_sol b))) :: l) /\
  (t_niter d <> 1 -> dle (c_f (best_candidate no (t_sol d))) (c_f (s_best (t_sol b))) = true).
Proof.
  intros Ib Ob Sb Lb Hr. pose proof (overtaken_good b Ib Ob) as (G1 & y & G2 & G3).
  pose proof (again_begin _ _ Sb Lb) as Bc. pose proof (run_binv _ _ _ Bc Hr) as Id.
  apply run_started in Hr as (s1 & E1 & S1 & S2 & l & S3).
  apply (init_binv _ _ Bc) in E1 as (I1 & T1 & J).
  destruct Sb as (_ & A2 & _ & _ & A5 & _). destruct (J A5) as (y' & J1 & J2 & J3).
  destruct Lb as (L1 & _). rewrite L1, HX in J1 by auto. rewrite G2 in J1. injection J1 as <-.
  assert (TI : t_initel d = true) by congruence.
  assert (FI : c_f (s_init (t_sol d)) = c_f (s_best (t_sol b))) by (rewrite S2, J2, G3; reflexivity).
  split; auto. split; auto.
  destruct Id as (_ & _ & A & _). specialize (A TI). destruct A as (Q1 & Q2 & Q3 & Q4 & Q5). rewrite <- FI.
  split.
  { destruct (s_best_iter (t_sol d)) eqn:Ei; [apply dlt_dle, Q4; discriminate|]. rewrite Q3 by auto. apply dle_refl, good_nn; auto. }
  split; [auto|]. split; [|auto].
  exists y, l. split; auto. rewrite S3, J3, A2, <- app_assoc, FI, G3. reflexivity.
Qed.

(** All the runs. *)
Lemma runs_inv fuel a l z : runs' fuel a l z -> begin a -> Forall (fun p => binv (snd p)) l.
Proof.
  induction 1 as [a b R NO|a b c l z R O Sa Li Rs IH]; intros B.
  - constructor; [|constructor]. eapply run_binv; eauto.
  - constructor; [eapply run_binv; eauto|]. apply IH. eapply again_begin; eauto.
Qed.
Lemma runs_next fuel a l z : runs' fuel a l z -> forall k a1 b c d, nth_error l k = Some (a1, b) -> nth_error l (S k) = Some (c, d) ->
  overtaken no b /\ starts_again b c /\ links b c /\ one_run no e g fuel c d.
Proof.
  induction 1 as [a b R NO|a b c l z R O Sa Li Rs IH]; intros k a1 b1 c1 d1 H1 H2.
  - destruct k; [discriminate|]. destruct k; discriminate.
  - destruct k as [|k]; cbn in H1, H2; [|eapply IH; eauto].
    injection H1 as <- <-. destruct (runs_head _ _ _ _ Rs) as (d & l' & -> & R'). cbn in H2. injection H2 as <- <-. auto.
Qed.
Lemma runs_end fuel a l z : runs' fuel a l z -> exists l' c, l = l' ++ [(c, z)].
Proof.
  induction 1 as [a b R NO|a b c l z R O Sa Li Rs (l' & c' & ->)]; [exists [], a; auto|].
  exists ((a, b) :: l'), c'. auto.
Qed.
Lemma runs_best fuel a l z : runs' fuel a l z -> begin a -> (1 < length l)%nat ->
  forall p, In p l -> dle (c_f (s_best (t_sol z))) (c_f (s_best (t_sol (snd p)))) = true.
Proof.
  induction 1 as [a b R NO|a b c l z R O Sa Li Rs IH]; intros B Hl p Hp; [cbn in Hl; lia|].
  pose proof (again_begin _ _ Sa Li) as Bc. pose proof (run_binv _ _ _ B R) as Ib.
  destruct (runs_head _ _ _ _ Rs) as (d & l' & E & R').
  pose proof (restart_run _ _ _ _ Ib O Sa Li R') as (Id & _ & D1 & _ & _).
  assert (Q : forall p, In p l -> dle (c_f (s_best (t_sol z))) (c_f (s_best (t_sol (snd p)))) = true).
  { subst l. destruct l' as [|q l']; [|apply IH; auto; cbn; lia].
    intros q [<-|[]]. inversion Rs; subst; [|match goal with Q : runs' _ _ [] _ |- _ => inversion Q end].
    cbn. apply dle_refl. intros Qn. apply dle_not_nan in D1. tauto. }
  destruct Hp as [<-|Hp]; [|apply Q; auto]. cbn [snd]. eapply dle_trans; [|exact D1].
  apply (Q (c, d)). rewrite E. left; auto.
Qed.

Section Whole.
Variables (x0 : list T) (n : N) (s0 : st).
Hypothesis H0 : st_new no g x0 n = Ok s0.

Theorem restart_facts rf fuel r z : optimize no e g (round no e g) rf fuel s0 = Ok (r, z) ->
  exists l, runs no e g fuel s0 l z /\ (length l <= S rf)%nat /\
  (forall k a b c d, nth_error l k = Some (a, b) -> nth_error l (S k) = Some (c, d) ->
     (exists y more, e_pheno e (c_x (s_best (t_sol b))) = Ok y /\ t_log d = t_log b ++ (y, c_f (s_best (t_sol b))) :: more) /\
     dle (c_f (s_best (t_sol d))) (c_f (s_best (t_sol b))) = true /\
     ((S (S k) < length l)%nat -> dlt (c_f (s_best (t_sol d))) (c_f (s_best (t_sol b))) = true)) /\
  (forall a b, In (a, b) l -> (1 < length l)%nat -> dle (c_f (s_best (t_sol z))) (c_f (s_best (t_sol b))) = true).
Proof.
  intros H. destruct (new_begin _ _ _ H0) as [B TI]. assert (E : e_restart (g_elit g) = true) by (destruct H3 as [-> _]; reflexivity).
  destruct (optimize_runs' fuel E _ _ _ _ H) as (l & R & L). exists l. split; [apply runs'_runs; auto|]. split; auto.
  pose proof (runs_inv _ _ _ _ R B) as FI. rewrite Forall_forall in FI.
  split.
  - intros k a b c d Hb Hd. destruct (runs_next _ _ _ _ R _ _ _ _ _ Hb Hd) as (O & Sa & Li & R1).
    pose proof (FI _ (nth_error_In _ _ Hb)) as Ib. cbn in Ib.
    destruct (restart_run _ _ _ _ Ib O Sa Li R1) as (_ & _ & D1 & D2 & D3 & _). split; auto. split; auto.
    intros Hk. destruct (nth_error l (S (S k))) as [[c2 d2]|] eqn:E2; [|apply nth_error_None in E2; lia].
    destruct (runs_next _ _ _ _ R _ _ _ _ _ Hd E2) as ((_ & i & Ei & _) & _). apply D2. rewrite Ei. discriminate.
  - intros a b Hp Hl. apply (runs_best _ _ _ _ R B Hl _ Hp).
Qed.

End Whole.

(** The test for a restart looks at an iteration that was recorded. *)
Lemma run_start_begin fuel x0 n a : run_start no e g fuel x0 n a -> begin a.
Proof.
  induction 1 as [a H|a b c R IH R1 O R2]; [apply (new_begin _ _ _ H)|].
  pose proof (reinit_again _ _ R2). pose proof (reinit_num _ _ R2). apply reinit_spec in R2 as (so & F & ->). apply sol_new_spec in F as (_ & ->).
  split; [|cbn; auto]. unfold base; cbn. rewrite repeat_length. auto with zarith.
Qed.
Theorem test_defined fuel x0 n a b : run_start no e g fuel x0 n a -> one_run no e g fuel a b -> t_niter b <> 1 \/ t_initel b = false ->
  exists w, restart_wanted no g b = Ok w.
Proof.
  intros Hs R Hn. apply run_start_begin in Hs. pose proof (run_binv _ _ _ Hs R) as (_ & F & A & Hh).
  unfold restart_wanted. destruct H3 as [H3a _]. rewrite H3a. cbn [e_restart andb].
  destruct (dlt _ _) eqn:D; [|eauto]. destruct (s_best_iter (t_sol b)) as [i|] eqn:Ei; [eauto|]. exfalso.
  destruct (t_initel b) eqn:Q.
  - destruct (A Q) as (A1 & A2 & A3 & A4 & A5). destruct Hn as [Hn|Hn]; [|congruence]. specialize (A5 Hn). rewrite A3 in D by auto.
    apply dle_lt_false in A5. congruence.
  - destruct (F Q) as [(Z0 & X & _ & Xi)|[Q2 _]]; [|congruence]. unfold best_candidate in D. rewrite (Hh Z0), Xi in D. cbn in D.
    destruct (c_f (s_best (t_sol b))); discriminate.
Qed.
End Det.
End ElitRestart.
