(** The ghost log records the calls of the objective as they were made. *)
From Verif Require Import Base Dbl DblProofs Config Search SpecSearch SortProofs SearchInv CounterProofs StopProofs.
Local Open Scope Z_scope.

Section Log.
Context {T N : Type}.
Variable no : numops T N.
Variable e : env T N.
Variable g : cfg T.
Notation st := (st T N).
Implicit Types (s : st).

Definition call_log s : Prop := forall k y v, nth_error (t_log s) k = Some (y, v) -> v = e_f e k y.
Lemma eval_from_nth k ys i y v : nth_error (eval_from e k ys) i = Some (y, v) -> v = e_f e (k + i)%nat y.
Proof.
  revert k i; induction ys as [|z ys IH]; intros k [|i]; try discriminate.
  - rewrite eval_from_cons. cbn. intros H. injection H as <- <-. now rewrite Nat.add_0_r.
  - rewrite eval_from_cons. cbn. intros H. apply IH in H. rewrite H. f_equal. lia.
Qed.
Lemma log_more s s' ys : t_log s' = t_log s ++ eval_from e (length (t_log s)) ys -> call_log s -> call_log s'.
Proof.
  intros E C k y v H. rewrite E in H. destruct (Nat.lt_ge_cases k (length (t_log s))).
  - rewrite nth_error_app1 in H by auto. auto.
  - rewrite nth_error_app2 in H by auto. apply eval_from_nth in H. rewrite H. f_equal. lia.
Qed.
Lemma log_same s s' : t_log s' = t_log s -> call_log s -> call_log s'.
Proof. unfold call_log. intros ->. auto. Qed.
Lemma gradf_log x s r s' : gradf no e g x s = (r, s') -> call_log s -> call_log s'.
Proof. intros H C. apply gradf_spec in H as [(_ & _ & ->)|(_ & _ & ->)]; auto. eapply log_more; [|exact C]. reflexivity. Qed.
Lemma ask_log s pop s' : ask no e g s = Ok (pop, s') -> call_log s -> call_log s'.
Proof.
  unfold ask. destruct (n_sample no (g_lambda g) _) as [pop1 n2] eqn:Es. intros H C.
  apply bind_ok in H as ([pop2 s2] & H1 & H). apply bind_ok in H as ([pop3 s3] & H2 & H). apply bind_ok in H as (pop4 & H3 & H). apply Ok_inj in H. injection H as <- <-.
  assert (C2 : call_log s2).
  { destruct (g_gradient g).
    - apply bind_ok in H1 as (x & _ & H1). destruct (gradf no e g x _) as [gr s2'] eqn:Eg. apply gradf_log in Eg; [|apply (log_same s); auto].
      destruct (n_gradcol no gr _).
      + apply bind_ok in H1 as (pp & _ & H1). apply Ok_inj in H1. injection H1 as <- <-. auto.
      + apply Ok_inj in H1. injection H1 as <- <-. auto.
    - apply Ok_inj in H1. injection H1 as <- <-. apply (log_same s); auto. }
  destruct ((g_tpa g =? 2) && (0 <? t_niter s2)).
  - destruct (n_tpa_points no (s_num (t_sol s2))) as [[x1 x2] n3]. apply bind_ok in H2 as (pa & _ & H2). apply bind_ok in H2 as (pb & _ & H2). apply Ok_inj in H2. injection H2 as <- <-.
    apply (log_same s2); auto.
  - apply Ok_inj in H2. injection H2 as <- <-. auto.
Qed.
Lemma eval_log cols phen s s' : eval no e g cols phen s = Ok s' -> call_log s -> call_log s'.
Proof. intros H C. apply eval_spec in H as (_ & _ & _ & _ & _ & _ & _ & _ & (ys & L & _) & _). eapply log_more; eauto. Qed.
Lemma tell_log s s' : tell no e g s = Ok s' -> call_log s -> call_log s'.
Proof. intros H. apply tell_effect in H as (L & _). now apply log_same. Qed.
Lemma stop_log s b s' : stop no e g s = Ok (b, s') -> call_log s -> call_log s'.
Proof. intros E. apply stop_spec in E as [(_ & -> & _)|(_ & _ & [(_ & _ & ->)|(_ & r & _ & _ & ->)])]; auto. Qed.
Lemma init_log s s' : eval_initial no e g s = Ok s' -> call_log s -> call_log s'.
Proof.
  intros H C. apply eval_initial_spec in H as [(_ & ->)|(_ & y & _ & ->)]; auto.
  apply (log_more s _ [y]); auto.
Qed.
Lemma edm_log s s' : edm no e g s = Ok s' -> call_log s -> call_log s'.
Proof.
  unfold edm. intros H C. apply bind_ok in H as (x & _ & H). destruct (gradf no e g x s) as [gr s1] eqn:Eg. apply Ok_inj in H. subst s'.
  apply gradf_log in Eg; auto.
Qed.
Lemma reinit_log s s' : reinit no g s = Ok s' -> call_log s -> call_log s'.
Proof. intros H. apply reinit_spec in H as (so & _ & ->). auto. Qed.
Lemma opt_log rf fuel s r s' : optimize no e g (round no e g) rf fuel s = Ok (r, s') -> call_log s -> call_log s'.
Proof.
  intros H C. refine (P_optimize no e g call_log (fun _ => True) _ _ _ _ _ _ _ rf fuel s r s' C H); auto; intros.
  - eapply ask_log; eauto.
  - apply (tell_log s1 s2); auto. eapply eval_log; eauto.
  - eapply stop_log; eauto.
  - eapply init_log; eauto.
  - eapply edm_log; eauto.
  - eapply reinit_log; eauto.
Qed.
Lemma ops_log h : forall s s', run_ops no e g h s = Ok s' -> call_log s -> call_log s'.
Proof.
  induction h as [|o h IH]; cbn [run_ops]; intros s s' H I; [apply Ok_inj in H; subst; auto|].
  apply bind_ok in H as (s1 & E & H). apply (IH _ _ H). clear IH H. destruct o; cbn [do_op] in E.
  - apply bind_ok in E as ([pop s2] & E & Q). apply Ok_inj in Q. subst s1. eapply ask_log; eauto.
  - eapply eval_log; eauto.
  - eapply tell_log; eauto.
  - apply Ok_inj in E. subst s1. exact I.
  - apply bind_ok in E as ([b s2] & E & Q). apply Ok_inj in Q. subst s1. eapply stop_log; eauto.
  - apply bind_ok in E as (s2 & E & Q). apply bind_ok in Q as (s3 & E3 & Q). apply Ok_inj in Q. subst s1. apply (tell_log s2 s3); auto. eapply eval_log; eauto.
  - apply bind_ok in E as ([r s2] & E & Q). apply Ok_inj in Q. subst s1. eapply opt_log; eauto.
Qed.
Lemma call_log_run h x0 n s0 s : st_new no g x0 n = Ok s0 -> run_ops no e g h s0 = Ok s -> call_log s.
Proof. intros H0 H. eapply ops_log; [exact H|]. apply st_new_spec in H0 as (_ & so & _ & ->). intros [|k] y v; discriminate. Qed.
End Log.
