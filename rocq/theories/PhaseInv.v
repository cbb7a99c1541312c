(** Invariants of the numeric part of the state that hold in two phases: [P]
    between iterations, [A] from ask until the update. *)
From Coq Require Import Reals List.
From Verif Require Import Base Dbl Config Search SpecSearch SearchInv NumInv SpecUpdate.
Import ListNotations.
Local Open Scope Z_scope.

Section Phase.
Context {N : Type}.
Variable no : numops R N.
Variable e : env R N.
Variable g : cfg R.
Variables P A : N -> Prop.
Hypothesis A_P : forall n, A n -> P n.
Hypothesis P_new : forall x0 n, P (n_new no x0 n).
Hypothesis A_eigen : forall i n, P n -> A (n_eigen no i n).
Hypothesis A_sample : forall k n, A n -> A (snd (n_sample no k n)).
Hypothesis A_tpa_points : forall n, A n -> A (snd (n_tpa_points no n)).
Hypothesis A_coin : forall n, A n -> A (snd (n_coin no n)).
Hypothesis A_mutate : forall l n, A n -> A (snd (n_mutate no l n)).
Hypothesis A_tpa : forall d n, A n -> A (n_tpa no d n).
Hypothesis P_update : forall i xs n, A n -> P (n_update no i xs n).
Hypothesis P_scale : forall n, P n -> P (n_uh_scale no n).
Hypothesis P_edm : forall v n, P n -> P (n_edm no v n).

Let Q (s : st R N) : Prop := P (s_num (t_sol s)).
Let B (s : st R N) : Prop := A (s_num (t_sol s)).

Lemma ask_phase s pop s' : Q s -> ask no e g s = Ok (pop, s') -> B s'.
Proof using A_eigen A_sample A_tpa_points.
  unfold Q, B. intros HP H. unfold ask in H. destruct (n_sample no _ _) as [pop0 n2] eqn:E.
  assert (A1 : A n2) by (change n2 with (snd (pop0, n2)); rewrite <- E; auto).
  inv_do H. destruct a as [pop2 s2].
  assert (B1 : A (s_num (t_sol s2))).
  { destruct (g_gradient g); [|injection H0 as <- <-; exact A1]. inv_do H0.
    destruct (gradf no e g a _) as [gr s3] eqn:G. apply gradf_num in G.
    destruct (n_gradcol no gr _); [inv_do H0|]; injection H0 as <- <-; rewrite G; exact A1. }
  inv_do H. destruct a as [pop3 s3]. inv_do H. injection H as <- <-.
  destruct (_ && _); [|injection H1 as <- <-; exact B1].
  destruct (n_tpa_points no _) as [[x1 x2] n3] eqn:E3.
  assert (C : A n3) by (change n3 with (snd (x1, x2, n3)); rewrite <- E3; auto).
  inv_do H1. inv_do H1. injection H1 as <- <-. cbn. destruct (g_gradient g); exact C.
Qed.
Lemma tell_phase s s' : B s -> tell no e g s = Ok s' -> Q s'.
Proof using A_tpa P_update P_scale.
  unfold Q, B. intros HP H. unfold tell in H. inv_do H. inv_do H. injection H as <-. cbn [t_sol set_t_sol].
  assert (A1 : A (s_num a)).
  { destruct (g_uh g); [apply uh_num in H0; rewrite H0; exact HP|].
    unfold sort_candidates in H0. destruct (compares_ok _); [|discriminate]. injection H0 as <-. exact HP. }
  assert (B1 : A (s_num a0)).
  { apply ubc_num in H1. rewrite H1. destruct (_ && _); [apply A_tpa|]; exact A1. }
  destruct (g_uh g && _); cbn; auto.
Qed.
Lemma round_phase s s' : Q s -> round no e g s = Ok s' -> Q s'.
Proof using A_eigen A_sample A_tpa_points A_coin A_mutate A_tpa P_update P_scale.
  intros HP H. unfold round in H. inv_do H. destruct a as [pop s1]. inv_do H. inv_do H. inv_do H. injection H as <-.
  change (Q a1). eapply tell_phase; [|eauto]. eapply (eval_num no e g A); eauto. eapply ask_phase; [|eauto]. exact HP.
Qed.
Lemma loop_phase fuel : forall s s', Q s -> loop no e g (round no e g) fuel s = Ok s' -> Q s'.
Proof using A_eigen A_sample A_tpa_points A_coin A_mutate A_tpa P_update P_scale.
  induction fuel as [|fuel IH]; intros s s' HP H; cbn in H; [discriminate|].
  inv_do H. destruct a as [b s1]. cbn [fst snd] in H.
  assert (Q s1) by (eapply (stop_num no e g P); eauto). destruct b; [injection H as <-; auto|].
  inv_do H. eapply IH; [|exact H]. eapply round_phase; eauto.
Qed.
Lemma optimize_phase rf fuel : forall s r s', Q s -> optimize no e g (round no e g) rf fuel s = Ok (r, s') -> Q s'.
Proof using P_new A_eigen A_sample A_tpa_points A_coin A_mutate A_tpa P_update P_scale P_edm.
  induction rf as [|rf IH]; intros s r s' HP H; apply optimize_unfold in H as (s1 & s2 & s3 & w & H1 & H2 & H3 & H4 & H5 & H6).
  all: assert (PA : Q s3).
  1,3: assert (Q s2) by (eapply loop_phase; [|eauto]; unfold Q; rewrite (eval_initial_num _ _ _ _ _ H1); exact HP);
       destruct (g_edm g); [eapply (edm_num_inv no e g P); eauto|subst; auto].
  - destruct H5 as [[-> ->]|(-> & rf' & s4 & r' & E & _)]; [auto|discriminate].
  - destruct H5 as [[-> ->]|(-> & rf' & s4 & r' & E & H5 & H7)]; [auto|]. injection E as <-.
    eapply IH; [|eauto]. eapply (reinit_num no g P); eauto.
Qed.
Lemma ops_phase h : forall (b : bool) s s', asked b h -> (if b then B s else Q s) -> run_ops no e g h s = Ok s' -> Q s'.
Proof using A_P P_new A_eigen A_sample A_tpa_points A_coin A_mutate A_tpa P_update P_scale P_edm.
  induction h as [|o h IH]; intros b s s' W HP H; cbn [run_ops] in H; [injection H as <-; destruct b; [apply A_P|]; exact HP|].
  assert (HQ : Q s) by (destruct b; [apply A_P|]; exact HP).
  inv_do H. destruct o; cbn [asked] in W; try contradiction; cbn [do_op] in H0.
  - inv_do H0. destruct a0. injection H0 as <-. eapply (IH true); [exact W| |exact H]. eapply ask_phase; eauto.
  - inv_do H0. destruct a0. injection H0 as <-. eapply (IH b); [exact W| |exact H]. cbn [snd].
    destruct b; [eapply (stop_num no e g A)|eapply (stop_num no e g P)]; eauto.
  - destruct W as [-> W]. change (B s) in HP. inv_do H0. inv_do H0. injection H0 as <-. eapply (IH false); [exact W| |exact H].
    match goal with T : tell _ _ _ _ = Ok ?u |- _ => change (Q u) end. eapply tell_phase; [|eauto]. eapply (eval_num no e g A); eauto.
  - inv_do H0. destruct a0. injection H0 as <-. eapply (IH false); [exact W| |exact H]. eapply optimize_phase; eauto.
Qed.
End Phase.
