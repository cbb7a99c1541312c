(** Elitism. *)
From Verif Require Import Base Dbl DblProofs Config Search SpecSearch SpecStop SpecSafe SortProofs SearchInv CounterProofs HistProofs StopProofs SafeProofs.
Local Open Scope Z_scope.

Section Elit.
Context {T N : Type}.
Variable no : numops T N.
Variable e : env T N.
Variable g : cfg T.
Notation st := (st T N).
Implicit Types (s : st).

(** One evaluation with elitism on. *)
Lemma eval_keeps_ref s cols phen s' : elit_on g s = true -> (2 <= length cols)%nat -> c_f (ref_cand g s) <> NaN ->
  eval no e g cols phen s = Ok s' ->
  exists c, In c (s_cands (t_sol s')) /\ dle (c_f c) (c_f (ref_cand g s)) = true.
Proof.
  intros E Hc Hn H. apply eval_spec in H as (A1 & A2 & _ & _ & _ & _ & _ & _ & _ & A8 & _).
  destruct A8 as [[A8 A9]|(_ & A8 & _)].
  - specialize (A9 E). assert (1 <= length cols / 2)%nat by (apply Nat.div_le_lower_bound; lia).
    destruct (filter _ _) as [|c l] eqn:F in A9; [cbn [length] in A9; lia|].
    assert (In c (c :: l)) by (left; auto). rewrite <- F in H0. apply filter_In in H0 as [H0 H1].
    exists c. split; [|apply dlt_dle; auto]. rewrite A8. unfold mid_cands. apply in_app_iff; auto.
  - exists (ref_cand g s). split; [eapply upd_at_new; eauto|apply dle_refl; auto].
Qed.

Lemma first_of_sorted (l : list (cand T)) c : nonan l -> In c l -> exists c0, nth_error (sort_cands l) 0 = Some c0 /\ dle (c_f c0) (c_f c) = true.
Proof.
  intros Hn Hc. pose proof (sort_first_min l) as F.
  destruct (first_min_some l) as [c0 E]; [intros ->; destruct Hc|]. rewrite E in F.
  exists c0. split; [destruct (sort_cands l); [discriminate|]; injection F as ->; auto|]. eapply first_min_le; eauto.
Qed.

Lemma last_of_hist {A} (h : list A) b x : h <> [] \/ b = false -> rev (drop_if b (h ++ [x])) = x :: rev (drop_if b h).
Proof.
  intros H. destruct b; cbn [drop_if].
  - destruct h as [|y h]; [destruct H; congruence|]. cbn [tl app]. apply rev_unit.
  - apply rev_unit.
Qed.

Section Runs.
Hypothesis HV : real_values e.
Hypothesis HD : dims_ok no g.
Hypothesis HP : pheno_total e g.
Hypothesis HF : fixed_in_range g.
Hypothesis HR : room g.
Hypothesis HE : elitism_le1 g.
Hypothesis HU : g_uh g = false.
Hypothesis HB : e_best (g_elit g) = true.

Theorem elitism_keeps_best h x0 n s0 s cols phen s1 : st_new no g x0 n = Ok s0 -> Forall (proper_op g) h -> run_ops no e g h s0 = Ok s ->
  0 < t_niter s -> length cols = g_lambda g -> eval no e g cols phen s = Ok s1 ->
  (exists c, In c (s_cands (t_sol s1)) /\ dle (c_f c) (c_f (s_best (t_sol s))) = true) /\
  (forall s2, tell no e g s1 = Ok s2 -> dle (c_f (best_candidate no (t_sol s2))) (c_f (s_best (t_sol s))) = true).
Proof.
  intros H0 W H Ht Hc He. pose proof (sinv_new no g _ _ _ H0) as I0.
  destruct (ops_safe no e g HV HD HP HF HR HE HU h s0 W I0) as [(s' & E & I)|E]; [|congruence].
  rewrite H in E. injection E as <-.
  assert (Hr : ref_cand g s = s_best (t_sol s)) by (unfold ref_cand; destruct HE as [-> ->]; reflexivity).
  assert (Hbest : isreal (c_f (s_best (t_sol s)))).
  { destruct I as (_ & _ & _ & _ & _ & _ & _ & _ & B1 & B2 & _ & [[B3 _]|B3]); [lia|auto]. }
  assert (Hon : elit_on g s = true) by (unfold elit_on; rewrite HB; destruct (Z.ltb_spec 0 (t_niter s)); [reflexivity|lia]).
  destruct (eval_keeps_ref s cols phen s1 Hon) as (c & Hin & Hle); auto.
  { destruct HR; lia. } { rewrite Hr. apply isreal_nn; auto. }
  rewrite Hr in Hle. split; [eauto|].
  intros s2 Htell. destruct (eval_real no e g HV HE s cols phen s1 I Hc He) as [I1 F1].
  assert (Hnn : nonan (s_cands (t_sol s1))) by (intros d Hd; rewrite Forall_forall in F1; apply isreal_nn, (F1 d Hd)).
  destruct (first_of_sorted _ c Hnn Hin) as (c0 & E0 & L0).
  apply tell_effect in Htell as (_ & _ & _ & _ & _ & _ & _ & _ & _ & _ & T5 & _ & T6 & c0' & ck & cl & m & rest & lim & C1 & _ & _ & _ & C5 & _).
  destruct (T6 HU) as [T7 _]. rewrite T7, E0 in C1. injection C1 as <-.
  unfold best_candidate. rewrite C5. rewrite last_of_hist.
  - eapply dle_trans; eauto.
  - destruct (s_hist (t_sol s1)) as [|]; [right|left; discriminate].
    destruct I1 as (_ & _ & -> & _). cbn [app length]. apply Z.ltb_ge. pose proof (hist_len_pos g). lia.
Qed.
End Runs.
End Elit.
