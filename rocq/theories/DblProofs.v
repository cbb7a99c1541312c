From Coq Require Import ZArith Bool List Lia.
From Verif Require Import Dbl.
Open Scope Z_scope.

Ltac dcase := repeat match goal with x : dbl |- _ => destruct x end; cbn in *; try discriminate; try reflexivity; auto.
Ltac zb := repeat match goal with
  | H : (_ <? _) = true |- _ => apply Z.ltb_lt in H
  | H : (_ <? _) = false |- _ => apply Z.ltb_ge in H
  | H : (_ =? _) = true |- _ => apply Z.eqb_eq in H
  | H : (_ =? _) = false |- _ => apply Z.eqb_neq in H
  | |- (_ <? _) = true => apply Z.ltb_lt
  | |- (_ <? _) = false => apply Z.ltb_ge
  | |- (_ =? _) = true => apply Z.eqb_eq
  end.

Lemma dlt_irrefl a : dlt a a = false.
Proof. dcase. apply Z.ltb_irrefl. Qed.
Lemma dlt_trans a b c : dlt a b = true -> dlt b c = true -> dlt a c = true.
Proof. dcase. intros; zb; lia. Qed.
Lemma dlt_asym a b : dlt a b = true -> dlt b a = false.
Proof. dcase. intros; zb; lia. Qed.
Lemma deq_eq a b : deq a b = true -> a = b.
Proof. dcase. intros; zb; subst; reflexivity. Qed.
Lemma deq_refl a : a <> NaN -> deq a a = true.
Proof. dcase; try congruence. intros _; apply Z.eqb_refl. Qed.

Lemma dle_spec a b : a <> NaN -> b <> NaN -> (dle a b = true <-> dlt b a = false).
Proof.
  unfold dle. destruct a, b; cbn; try congruence; intros _ _; split; intros H; try reflexivity; try discriminate.
  - apply orb_true_iff in H. destruct H; zb; lia.
  - apply orb_true_iff. zb. destruct (Z.eq_dec z z0); [right|left]; zb; lia.
Qed.
Lemma dle_refl a : a <> NaN -> dle a a = true.
Proof. intros H. apply dle_spec; auto. apply dlt_irrefl. Qed.
Lemma dle_trans a b c : dle a b = true -> dle b c = true -> dle a c = true.
Proof.
  unfold dle; intros H1 H2. apply orb_true_iff in H1, H2. apply orb_true_iff.
  destruct H1 as [H1|H1], H2 as [H2|H2].
  - left; eapply dlt_trans; eauto.
  - apply deq_eq in H2; subst; auto.
  - apply deq_eq in H1; subst; auto.
  - apply deq_eq in H1; subst; auto.
Qed.
Lemma dle_not_nan a b : dle a b = true -> a <> NaN /\ b <> NaN.
Proof. dcase; split; congruence. Qed.
Lemma dlt_not_nan a b : dlt a b = true -> a <> NaN /\ b <> NaN.
Proof. dcase; split; congruence. Qed.
Lemma dlt_dle a b : dlt a b = true -> dle a b = true.
Proof. intros H; unfold dle; rewrite H; reflexivity. Qed.
Lemma dle_lt_trans a b c : dle a b = true -> dlt b c = true -> dlt a c = true.
Proof.
  unfold dle. intros H1 H2. apply orb_true_iff in H1. destruct H1 as [H1|H1].
  - eapply dlt_trans; eauto.
  - apply deq_eq in H1; subst; auto.
Qed.
Lemma dlt_le_trans a b c : dlt a b = true -> dle b c = true -> dlt a c = true.
Proof.
  unfold dle. intros H1 H2. apply orb_true_iff in H2. destruct H2 as [H2|H2].
  - eapply dlt_trans; eauto.
  - apply deq_eq in H2; subst; auto.
Qed.
Lemma dlt_false_le a b : a <> NaN -> b <> NaN -> dlt a b = false -> dle b a = true.
Proof. intros; apply dle_spec; auto. Qed.
Lemma dle_lt_false a b : dle a b = true -> dlt b a = false.
Proof. intros H. pose proof (dle_not_nan _ _ H) as [? ?]. apply dle_spec; auto. Qed.
Lemma dle_antisym a b : dle a b = true -> dle b a = true -> a = b.
Proof.
  intros H1 H2. unfold dle in H1. apply orb_true_iff in H1. destruct H1 as [H1|H1].
  - apply dle_lt_false in H2. congruence.
  - apply deq_eq; exact H1.
Qed.
Lemma dle_total a b : a <> NaN -> b <> NaN -> dle a b = true \/ dle b a = true.
Proof.
  intros Ha Hb. destruct (dlt b a) eqn:E; [right; apply dlt_dle; exact E|left; apply dle_spec; auto].
Qed.
Lemma is_nan_spec a : is_nan a = true <-> a = NaN.
Proof. destruct a; cbn; split; congruence. Qed.
Lemma is_nan_false a : is_nan a = false <-> a <> NaN.
Proof. destruct a; cbn; split; congruence. Qed.

Lemma dneg_invol a : dneg (dneg a) = a.
Proof. destruct a; cbn; auto. f_equal; lia. Qed.
Lemma dneg_lt a b : dlt (dneg a) (dneg b) = dlt b a.
Proof.
  destruct a, b; cbn; auto. destruct (Z.ltb_spec (- z) (- z0)), (Z.ltb_spec z0 z); auto; lia.
Qed.
Lemma dneg_nan a : dneg a = NaN <-> a = NaN.
Proof. destruct a; cbn; split; congruence. Qed.
Lemma dle_fin x y : dle (Fin x) (Fin y) = true <-> x <= y.
Proof. unfold dle. cbn. rewrite orb_true_iff, Z.ltb_lt, Z.eqb_eq. lia. Qed.
Lemma dlt_fin x y : dlt (Fin x) (Fin y) = true <-> x < y.
Proof. apply Z.ltb_lt. Qed.
