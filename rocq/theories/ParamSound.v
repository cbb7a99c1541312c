(** Parameters built by the constructor and the setters are sound. *)
From Coq Require Import Reals List Lia Lra.
From Verif Require Import Base Params SpecParams ParamsProofs AdaptProofs Vec Config Search SpecSearch Update SpecUpdate.
Import ListNotations.
Open Scope R_scope.

Lemma init_good_weights k : wf k -> good_weights (initialize k).
Proof.
  intros W. destruct (weights_ok k W) as (A & B & C & D & _ & E & _). unfold good_weights.
  split; [congruence|]. split; [exact C|]. split.
  - rewrite B. change (k_lambda (initialize k)) with (k_lambda k). pose proof (Nat.div2_odd (k_lambda k)). destruct (Nat.odd _); cbn in *; lia.
  - split; [|exact E]. intros w Hw. apply In_nth_error in Hw as [i Hi]. eauto.
Qed.
Lemma alphathuh_pos k : 0 < k_alphathuh (initialize k).
Proof. cbn. assert (0 <= INR (k_dim k)) by apply pos_INR. assert (0 < 2 / (INR (k_dim k) + 10)) by (apply Rdiv_lt_0_compat; lra). lra. Qed.

Definition fine (k : cpar) : Prop := wf k /\ good_weights k /\ 0 < k_alphathuh k.
Lemma init_fine k : wf k -> fine (initialize k).
Proof. intros W. split; [exact W|]. split; [apply init_good_weights; auto|apply alphathuh_pos]. Qed.
Lemma adapt_fine k a : fine k -> fine (do_adapt k a).
Proof.
  intros (W & G & A). destruct a as [| |b|i v|i]; cbn [do_adapt].
  - exact (conj W (conj G A)).
  - unfold set_noisy. match goal with |- context [initialize ?P] => set (p5 := P) end.
    assert (W5 : wf p5) by (destruct W; split; cbn; lia). destruct (init_fine p5 W5) as (W1 & G1 & A1).
    exact (conj W1 (conj G1 A1)).
  - unfold set_tpa. cbn zeta. destruct (b =? 2)%Z; exact (conj W (conj G A)).
  - exact (conj W (conj G A)).
  - exact (conj W (conj G A)).
Qed.
Lemma adapts_fine h : forall k, fine k -> fine (fold_left do_adapt h k).
Proof. induction h as [|a h IH]; intros k H; cbn; auto. apply IH, adapt_fine, H. Qed.
Lemma constructed_sound k : constructed k -> sound_params k.
Proof.
  intros (n & l & h & Hn & Hl & Hs & ->).
  assert (F : fine (fold_left do_adapt h (cma_params n l))) by (apply adapts_fine, init_fine; split; cbn; lia).
  destruct F as (W & G & A). split; [apply W|]. split; [apply adapted_admissible; auto|]. split; auto.
Qed.

Lemma configured_pos k : configured k -> (1 <= k_dim k)%nat /\ 0 < k_alphathuh k.
Proof.
  intros (n & l & h & Hn & ->).
  assert (G : forall k, (1 <= k_dim k)%nat /\ 0 < k_alphathuh k -> (1 <= k_dim (fold_left do_setting h k))%nat /\ 0 < k_alphathuh (fold_left do_setting h k)).
  { induction h as [|s h IH]; intros k H; cbn; auto. apply IH. clear IH h. destruct H as [H1 H2].
    destruct s as [a|a| |]; cbn [do_setting].
    - destruct a as [| |b|i v|i]; cbn [do_adapt]; auto.
      + split; [exact H1|]. apply (alphathuh_pos (mkPar (k_dim k) 0 0 [] 0 0 0 0 0 0 0 0 0 0 0 0 false false 0 0 [])).
      + unfold set_tpa. cbn zeta. destruct (b =? 2)%Z; auto.
    - auto.
    - unfold set_vd. destruct (_ || _ || _)%bool; auto.
    - split; [exact H1|apply alphathuh_pos]. }
  apply G. split; [exact Hn|apply alphathuh_pos].
Qed.
