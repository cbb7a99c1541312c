(** Invariants of the numeric part of the state, along every history of calls. *)
From Verif Require Import Base Dbl Config Search SpecSearch SearchInv.
Local Open Scope Z_scope.

Section NumInv.
Context {T N : Type}.
Variable no : numops T N.
Variable e : env T N.
Variable g : cfg T.
Variable P : N -> Prop.
Hypothesis P_new : forall x0 n, P n -> P (n_new no x0 n).
Hypothesis P_eigen : forall i n, P n -> P (n_eigen no i n).
Hypothesis P_sample : forall k n, P n -> P (snd (n_sample no k n)).
Hypothesis P_tpa_points : forall n, P n -> P (snd (n_tpa_points no n)).
Hypothesis P_coin : forall n, P n -> P (snd (n_coin no n)).
Hypothesis P_mutate : forall l n, P n -> P (snd (n_mutate no l n)).
Hypothesis P_tpa : forall d n, P n -> P (n_tpa no d n).
Hypothesis P_update : forall i xs n, P n -> P (n_update no i xs n).
Hypothesis P_scale : forall n, P n -> P (n_uh_scale no n).
Hypothesis P_edm : forall v n, P n -> P (n_edm no v n).

Let Q (s : st T N) : Prop := P (s_num (t_sol s)).

Lemma calls_num xs : forall (s : st T N) vs s', calls e xs s = (vs, s') -> t_sol s' = t_sol s.
Proof using Type.
  induction xs as [|x xs IH]; intros s vs s' H; cbn in H; [injection H as <- <-; reflexivity|].
  destruct (calls e xs _) as [vs' s2] eqn:E. injection H as <- <-. apply IH in E. rewrite E. reflexivity.
Qed.
Lemma gradf_num x s r s' : gradf no e g x s = (r, s') -> s_num (t_sol s') = s_num (t_sol s).
Proof using Type.
  unfold gradf. destruct (e_gfunc e); [intros H; injection H as <- <-; reflexivity|].
  destruct (calls e _ s) as [vs s1] eqn:E. intros H; injection H as <- <-. apply calls_num in E. cbn. rewrite E. reflexivity.
Qed.
Lemma eval_cols_num r cols : forall phen (s : st T N) s', eval_cols e r cols phen s = Ok s' -> s_num (t_sol s') = s_num (t_sol s).
Proof using Type.
  revert r; induction cols as [|x cols IH]; intros r phen s s' H; cbn [eval_cols] in H; [injection H as <-; reflexivity|].
  inv_do H. inv_do H. destruct (call e a0 s) as [v s1] eqn:E. unfold call in E. injection E as <- <-.
  inv_do H. apply IH in H. rewrite H. reflexivity.
Qed.
Lemma eval_uh_num n : forall r muts (s : st T N) l s', eval_uh e r n muts s = Ok (l, s') -> t_sol s' = t_sol s.
Proof using Type.
  induction n as [|n IH]; intros r muts s l s' H; cbn [eval_uh] in H; [injection H as <- <-; reflexivity|].
  inv_do H. destruct (r <? _)%nat.
  - inv_do H. destruct (call e a0 s) as [v s1] eqn:E. unfold call in E. injection E as <- <-.
    inv_do H. destruct a1 as [l1 s2]. injection H as <- <-. apply IH in H2. rewrite H2. reflexivity.
  - inv_do H. destruct a0 as [l1 s2]. injection H as <- <-. apply IH in H1. exact H1.
Qed.
Lemma elitist_num n (s : st T N) s' : elitist g n s = Ok s' -> s_num (t_sol s') = s_num (t_sol s).
Proof using Type.
  unfold elitist. intros H.
  repeat match type of H with
  | (if ?b then _ else _) = _ => destruct b
  | bind _ _ = _ => inv_do H
  end; try discriminate; injection H as <-; reflexivity.
Qed.
Lemma eval_num cols phen s s' : Q s -> eval no e g cols phen s = Ok s' -> Q s'.
Proof using P_coin P_mutate.
  unfold Q. intros HP H. unfold eval in H. inv_do H. apply eval_cols_num in H0. inv_do H. inv_do H. injection H as <-.
  apply elitist_num in H2. cbn. rewrite H2. clear H2 a1.
  destruct (g_uh g).
  - unfold perform_uh in H1. destruct (n_coin no _) as [coin n1] eqn:E1.
    destruct (length _ <? _)%nat; [discriminate|]. destruct (n_mutate no _ n1) as [muts n2] eqn:E2.
    inv_do H1. destruct a1 as [l s2]. injection H1 as <-. apply eval_uh_num in H. cbn [fst snd set_t_sol t_sol set_s_cuh s_num]. rewrite H. cbn.
    change n2 with (snd (muts, n2)). rewrite <- E2. apply P_mutate. change n1 with (snd (coin, n1)). rewrite <- E1. apply P_coin. cbn. rewrite H0. exact HP.
  - injection H1 as <-. cbn. rewrite H0. exact HP.
Qed.
Lemma uh_num (s : sol T N) s' : uncertainty_handling e g s = Ok s' -> s_num s' = s_num s.
Proof using Type. intros H. unfold uncertainty_handling in H. repeat inv_do H. injection H as <-. reflexivity. Qed.
Lemma ubc_num s s' : update_best_candidates no s = Ok s' -> s_num s' = s_num s.
Proof using Type. intros H. apply ubc_spec in H as [H _]. unfold kept_by_tell in H. injection H; intros; assumption. Qed.
Lemma tell_num s s' : Q s -> tell no e g s = Ok s' -> Q s'.
Proof using P_tpa P_update P_scale.
  unfold Q. intros HP H. unfold tell in H. inv_do H. inv_do H. injection H as <-. cbn [t_sol set_t_sol].
  assert (A : P (s_num a)).
  { destruct (g_uh g); [apply uh_num in H0; rewrite H0; exact HP|].
    unfold sort_candidates in H0. destruct (compares_ok _); [|discriminate]. injection H0 as <-. exact HP. }
  assert (B : P (s_num a0)).
  { apply ubc_num in H1. rewrite H1. destruct (_ && _); [apply P_tpa|]; exact A. }
  destruct (g_uh g && _); cbn; auto.
Qed.
Lemma ask_num s pop s' : Q s -> ask no e g s = Ok (pop, s') -> Q s'.
Proof using P_eigen P_sample P_tpa_points.
  unfold Q. intros HP H. unfold ask in H. destruct (n_sample no _ _) as [pop0 n2] eqn:E.
  assert (A : P n2) by (change n2 with (snd (pop0, n2)); rewrite <- E; auto).
  inv_do H. destruct a as [pop2 s2].
  assert (B : P (s_num (t_sol s2))).
  { destruct (g_gradient g); [|injection H0 as <- <-; exact A]. inv_do H0.
    destruct (gradf no e g a _) as [gr s3] eqn:G. apply gradf_num in G.
    destruct (n_gradcol no gr _); [inv_do H0|]; injection H0 as <- <-; rewrite G; exact A. }
  inv_do H. destruct a as [pop3 s3]. inv_do H. injection H as <- <-.
  destruct (_ && _); [|injection H1 as <- <-; exact B].
  destruct (n_tpa_points no _) as [[x1 x2] n3] eqn:E3.
  assert (C : P n3) by (change n3 with (snd (x1, x2, n3)); rewrite <- E3; auto).
  inv_do H1. inv_do H1. injection H1 as <- <-. cbn. destruct (g_gradient g); exact C.
Qed.
Lemma edm_num_inv s s' : Q s -> edm no e g s = Ok s' -> Q s'.
Proof using P_edm.
  unfold Q. intros HP H. unfold edm in H. inv_do H. destruct (gradf no e g a s) as [gr s1] eqn:G. injection H as <-.
  apply gradf_num in G. cbn. apply P_edm. rewrite G. exact HP.
Qed.
Lemma stop_num s b s' : Q s -> stop no e g s = Ok (b, s') -> Q s'.
Proof using Type.
  unfold Q. intros HP H. unfold stop in H.
  repeat match type of H with
  | (if ?b then _ else _) = _ => destruct b
  | bind _ _ = _ => inv_do H
  end; try discriminate; injection H as <- <-; exact HP.
Qed.
Lemma eval_initial_num s s' : eval_initial no e g s = Ok s' -> s_num (t_sol s') = s_num (t_sol s).
Proof using Type.
  intros H. unfold eval_initial in H. destruct (_ || _ || _ || _); [|injection H as <-; reflexivity].
  inv_do H. destruct (call e a s) as [v s1] eqn:E. unfold call in E. injection E as <- <-. injection H as <-. reflexivity.
Qed.
Lemma sol_new_num x0 n so : sol_new no g x0 n = Ok so -> s_num so = n_new no x0 n.
Proof using Type. unfold sol_new. destruct (_ =? 0); [discriminate|]. intros H; injection H as <-. reflexivity. Qed.
Lemma st_new_num x0 n s : st_new no g x0 n = Ok s -> s_num (t_sol s) = n_new no x0 n.
Proof using Type. unfold st_new. intros H. inv_do H. injection H as <-. cbn. eapply sol_new_num; eauto. Qed.
Lemma reinit_num s s' : Q s -> reinit no g s = Ok s' -> Q s'.
Proof using P_new. unfold Q, reinit. intros HP H. inv_do H. injection H as <-. cbn. rewrite (sol_new_num _ _ _ H0). apply P_new, HP. Qed.

Lemma round_num s s' : Q s -> round no e g s = Ok s' -> Q s'.
Proof using P_eigen P_sample P_tpa_points P_coin P_mutate P_tpa P_update P_scale.
  intros HP H. unfold round in H. inv_do H. destruct a as [pop s1]. inv_do H. inv_do H. inv_do H. injection H as <-.
  change (Q a1). eapply tell_num; [|eauto]. eapply eval_num; [|eauto]. eapply ask_num; [|eauto]. exact HP.
Qed.
Lemma loop_num fuel : forall s s', Q s -> loop no e g (round no e g) fuel s = Ok s' -> Q s'.
Proof using P_eigen P_sample P_tpa_points P_coin P_mutate P_tpa P_update P_scale.
  induction fuel as [|fuel IH]; intros s s' HP H; cbn in H; [discriminate|].
  inv_do H. destruct a as [b s1]. cbn [fst snd] in H.
  assert (Q s1) by (eapply stop_num; eauto). destruct b; [injection H as <-; auto|].
  inv_do H. eapply IH; [|exact H]. eapply round_num; eauto.
Qed.
Lemma optimize_num rf fuel : forall s r s', Q s -> optimize no e g (round no e g) rf fuel s = Ok (r, s') -> Q s'.
Proof using P_new P_eigen P_sample P_tpa_points P_coin P_mutate P_tpa P_update P_scale P_edm.
  induction rf as [|rf IH]; intros s r s' HP H; apply optimize_unfold in H as (s1 & s2 & s3 & w & H1 & H2 & H3 & H4 & H5 & H6).
  all: assert (PA : Q s3).
  1,3: assert (Q s2) by (eapply loop_num; [|eauto]; unfold Q; rewrite (eval_initial_num _ _ H1); exact HP);
       destruct (g_edm g); [eapply edm_num_inv; eauto|subst; auto].
  - destruct H5 as [[-> ->]|(-> & rf' & s4 & r' & E & _)]; [auto|discriminate].
  - destruct H5 as [[-> ->]|(-> & rf' & s4 & r' & E & H5 & H7)]; [auto|]. injection E as <-.
    eapply IH; [|eauto]. eapply reinit_num; [|eauto]. exact PA.
Qed.
Lemma op_num o s s' : Q s -> do_op no e g o s = Ok s' -> Q s'.
Proof using P_new P_eigen P_sample P_tpa_points P_coin P_mutate P_tpa P_update P_scale P_edm.
  destruct o; cbn [do_op]; intros HP H.
  - inv_do H. destruct a. injection H as <-. eapply ask_num; eauto.
  - eapply eval_num; eauto.
  - eapply tell_num; eauto.
  - injection H as <-. exact HP.
  - inv_do H. destruct a. injection H as <-. eapply stop_num; eauto.
  - inv_do H. inv_do H. injection H as <-. change (Q a0). eapply tell_num; [|eauto]. eapply eval_num; eauto.
  - inv_do H. destruct a. injection H as <-. eapply optimize_num; eauto.
Qed.
Lemma ops_num h : forall s s', Q s -> run_ops no e g h s = Ok s' -> Q s'.
Proof using P_new P_eigen P_sample P_tpa_points P_coin P_mutate P_tpa P_update P_scale P_edm.
  induction h as [|o h IH]; intros s s' HP H; cbn in H; [injection H as <-; exact HP|].
  inv_do H. eapply IH; [|exact H]. eapply op_num; eauto.
Qed.
End NumInv.

(** Invariants indexed by the number of iterations done since the last (re)start. *)
Section NumIter.
Context {T N : Type}.
Variable no : numops T N.
Variable e : env T N.
Variable g : cfg T.
Variable P : Z -> N -> Prop.
Hypothesis P_new : forall x0 n, P 0 (n_new no x0 n).
Hypothesis P_eigen : forall t i n, P t n -> P t (n_eigen no i n).
Hypothesis P_sample : forall t k n, P t n -> P t (snd (n_sample no k n)).
Hypothesis P_tpa_points : forall t n, P t n -> P t (snd (n_tpa_points no n)).
Hypothesis P_coin : forall t n, P t n -> P t (snd (n_coin no n)).
Hypothesis P_mutate : forall t l n, P t n -> P t (snd (n_mutate no l n)).
Hypothesis P_tpa : forall t d n, P t n -> P t (n_tpa no d n).
Hypothesis P_update : forall t xs n, 0 <= t -> P t n -> P (t + 1) (n_update no t xs n).
Hypothesis P_scale : forall t n, P t n -> P t (n_uh_scale no n).
Hypothesis P_edm : forall t v n, P t n -> P t (n_edm no v n).

Let Q (s : st T N) : Prop := 0 <= s_niter (t_sol s) /\ P (s_niter (t_sol s)) (s_num (t_sol s)).

Lemma ranked_niter s s1 : ranked e g s s1 -> s_niter s1 = s_niter (t_sol s) /\ s_num s1 = s_num (t_sol s).
Proof using Type.
  intros [(_ & _ & ->)|(_ & H)]; [split; reflexivity|]. unfold uncertainty_handling in H. repeat inv_do H. injection H as <-. split; reflexivity.
Qed.
Lemma tell_iter s s' : Q s -> tell no e g s = Ok s' -> s_niter (t_sol s') = s_niter (t_sol s) /\ P (s_niter (t_sol s) + 1) (s_num (t_sol s')).
Proof using P_tpa P_update P_scale.
  unfold Q. intros [H0' HP] H. unfold tell in H. inv_do H. inv_do H. injection H as <-. cbn [t_sol set_t_sol].
  assert (A : s_niter a = s_niter (t_sol s) /\ s_num a = s_num (t_sol s)).
  { apply ranked_niter. unfold ranked. destruct (g_uh g); [auto|left]. unfold sort_candidates in H0.
    destruct (compares_ok _); [injection H0 as <-; auto|discriminate]. }
  destruct A as [A1 A2].
  assert (B : s_niter a0 = s_niter (t_sol s) /\ P (s_niter (t_sol s)) (s_num a0)).
  { apply ubc_spec in H1 as [H1 _]. unfold kept_by_tell in H1. injection H1 as _ _ K1 _ _ _ _ K2 _ _ _ _ _. destruct (_ && _); cbn in *.
    - split; [congruence|]. rewrite K2. apply P_tpa. rewrite A2. exact HP.
    - split; [congruence|]. rewrite K2, A2. exact HP. }
  destruct B as [B1 B2]. destruct (g_uh g && _); cbn; rewrite ?B1; (split; [auto|]); try apply P_scale; apply P_update; auto.
Qed.
Lemma iter_num_ops h s s' : Forall (okop (fun _ => True)) h -> Q s -> run_ops no e g h s = Ok s' -> Q s'.
Proof using P_new P_eigen P_sample P_tpa_points P_coin P_mutate P_tpa P_update P_scale P_edm.
  intros W HQ H. refine (P_ops no e g Q (fun _ => True) _ _ _ _ _ _ _ h s s' W HQ H); auto; clear h s s' W HQ H; intros.
  - destruct H as [H1 H2]. assert (K : s_niter (t_sol s') = s_niter (t_sol s)).
    { apply ask_spec in H0 as ((K & _) & _). unfold keep in K. injection K; intros; auto. }
    unfold Q. rewrite K. split; [auto|]. eapply (ask_num no e g (P (s_niter (t_sol s)))); eauto.
  - destruct H as [H3 H4].
    assert (K : s_niter (t_sol s1) = s_niter (t_sol s)).
    { apply eval_spec in H1 as (_ & _ & K & _). unfold keep in K. injection K; intros; auto. }
    assert (A : Q s1).
    { unfold Q. rewrite K. split; [auto|]. eapply (eval_num no e g (P (s_niter (t_sol s)))); eauto. }
    apply tell_iter in H2 as [H2 H5]; auto. unfold Q. cbn. rewrite H2, K in *. split; [lia|]. exact H5.
  - unfold Q in *. apply stop_spec in H0 as [(_ & -> & _)|(_ & _ & [(_ & _ & ->)|(_ & r & _ & _ & ->)])]; auto.
  - unfold Q in *. apply eval_initial_spec in H0 as [(_ & ->)|(_ & y & _ & ->)]; auto.
  - destruct H as [H1 H2]. assert (K : s_niter (t_sol s') = s_niter (t_sol s)).
    { apply edm_spec in H0 as ((K & _) & _). unfold keep in K. injection K; intros; auto. }
    unfold Q. rewrite K. split; [auto|]. eapply (edm_num_inv no e g (P (s_niter (t_sol s)))); eauto.
  - unfold Q, reinit in *. inv_do H1. injection H1 as <-. cbn. unfold sol_new in H2. destruct (_ =? 0); [discriminate|].
    injection H2 as <-. cbn. split; [lia|apply P_new].
Qed.
End NumIter.
