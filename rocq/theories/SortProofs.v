(** Proofs about ranking of candidates. *)
From Coq Require Import Permutation.
From Verif Require Import Base Dbl DblProofs Config Search SpecSearch.
Local Open Scope Z_scope.

Lemma nth_error_skipn' {A} k (l : list A) j : nth_error (skipn k l) j = nth_error l (k + j).
Proof. revert l; induction k as [|k IH]; intros [|x l]; cbn; auto. destruct j; auto. Qed.
Lemma nth_error_firstn' {A} k (l : list A) j : (j < k)%nat -> nth_error (firstn k l) j = nth_error l j.
Proof.
  revert l j; induction k as [|k IH]; intros l j Hj; [lia|].
  destruct l, j; cbn; auto. apply IH; lia.
Qed.

Section SortProofs.
Context {T : Type}.
Implicit Types (c d : cand T) (l : list (cand T)).

Lemma insert_perm c l : Permutation (insert_cand c l) (c :: l).
Proof.
  induction l as [|d l IH]; cbn; auto.
  destruct (dlt (c_f d) (c_f c)); auto.
  rewrite IH. apply perm_swap.
Qed.
Lemma sort_perm l : Permutation (sort_cands l) l.
Proof. induction l as [|c l IH]; cbn; auto. rewrite insert_perm, IH. auto. Qed.
Lemma sort_length l : length (sort_cands l) = length l.
Proof. apply Permutation_length, sort_perm. Qed.
Lemma sort_in l c : In c (sort_cands l) <-> In c l.
Proof. split; apply Permutation_in; [|symmetry]; apply sort_perm. Qed.

Definition nonan l := forall c, In c l -> c_f c <> NaN.
Lemma nonan_cons c l : nonan (c :: l) -> c_f c <> NaN /\ nonan l.
Proof. intros H; split; [apply H; left; auto|intros d Hd; apply H; right; auto]. Qed.
Lemma nonan_sort l : nonan l -> nonan (sort_cands l).
Proof. intros H c Hc; apply H, sort_in; auto. Qed.

Lemma insert_asc c l : nonan (c :: l) -> ascending l -> ascending (insert_cand c l).
Proof.
  induction l as [|d l IH]; cbn [insert_cand]; intros Hn Ha; [cbn; auto|].
  destruct (nonan_cons _ _ Hn) as [Hc Hl]. destruct (nonan_cons _ _ Hl) as [Hd Hl'].
  destruct (dlt (c_f d) (c_f c)) eqn:E.
  - assert (Hi : ascending (insert_cand c l)).
    { apply IH; [intros x [<-|Hx]; auto|destruct l; cbn in *; tauto]. }
    cbn. destruct (insert_cand c l) as [|x m] eqn:Em; auto.
    split; auto.
    assert (Hx : In x (c :: l)).
    { apply (Permutation_in (l := insert_cand c l)); [apply insert_perm|rewrite Em; left; auto]. }
    destruct l as [|y l]; cbn in Em.
    + injection Em as <- <-. apply dlt_dle; auto.
    + destruct (dlt (c_f y) (c_f c)); injection Em as <- <-; [apply Ha|apply dlt_dle; auto].
  - cbn. split; auto. apply dlt_false_le; auto.
Qed.
Lemma sort_asc l : nonan l -> ascending (sort_cands l).
Proof.
  induction l as [|c l IH]; intros Hn; cbn; auto.
  destruct (nonan_cons _ _ Hn). apply insert_asc; auto.
  intros x [<-|Hx]; auto. apply H0, sort_in; auto.
Qed.

Lemma asc_tl c l : ascending (c :: l) -> ascending l.
Proof. destruct l; cbn; tauto. Qed.
Lemma asc_hd c l : nonan (c :: l) -> ascending (c :: l) -> forall d, In d l -> dle (c_f c) (c_f d) = true.
Proof.
  revert c; induction l as [|x l IH]; intros c Hn Ha d Hd; [destruct Hd|].
  destruct Ha as [H1 H2]. destruct Hd as [<-|Hd]; auto.
  eapply dle_trans; [exact H1|]. apply IH; auto. eapply nonan_cons; eauto.
Qed.

Lemma insert_stable c l v : nonan (c :: l) ->
  filter (fun x => deq (c_f x) v) (insert_cand c l) = filter (fun x => deq (c_f x) v) (c :: l).
Proof.
  induction l as [|d l IH]; intros Hn; [reflexivity|]. cbn [insert_cand].
  destruct (nonan_cons _ _ Hn) as [Hc Hl]. destruct (nonan_cons _ _ Hl) as [Hd Hl'].
  destruct (dlt (c_f d) (c_f c)) eqn:E; [|reflexivity].
  cbn [filter]. rewrite IH by (intros x [<-|Hx]; auto). cbn [filter].
  destruct (deq (c_f d) v) eqn:E1, (deq (c_f c) v) eqn:E2; auto.
  apply deq_eq in E1, E2. rewrite E1, E2, dlt_irrefl in E. discriminate.
Qed.
Lemma sort_stable l : nonan l -> stable l (sort_cands l).
Proof.
  intros Hn v. induction l as [|c l IH]; cbn [sort_cands]; auto.
  destruct (nonan_cons _ _ Hn) as [H1 H2].
  rewrite insert_stable.
  - cbn [filter]. rewrite IH by auto. auto.
  - intros x [<-|Hx]; auto. apply H2, sort_in; auto.
Qed.

Lemma compares_ok_nonan l : nonan l -> compares_ok l = true.
Proof.
  intros Hn. unfold compares_ok.
  replace (existsb (fun c => is_nan (c_f c)) l) with false; auto.
  symmetry. apply Bool.not_true_iff_false. rewrite existsb_exists.
  intros (c & Hc & E). apply is_nan_spec in E. apply (Hn c Hc E).
Qed.

(** Head of the sorted list *)
Lemma sort_first_min l : hd_error (sort_cands l) = first_min l.
Proof.
  induction l as [|c l IH]; cbn; auto.
  destruct (sort_cands l) as [|d m]; cbn in *; rewrite <- IH; auto.
  destruct (dlt (c_f d) (c_f c)); auto.
Qed.
Lemma first_min_some l : l <> [] -> exists c, first_min l = Some c.
Proof. destruct l; [congruence|]; intros _; cbn. destruct (first_min l); eauto. Qed.
Lemma first_min_in l c : first_min l = Some c -> In c l.
Proof.
  rewrite <- sort_first_min. destruct (sort_cands l) eqn:E; cbn; [discriminate|].
  intros H; injection H as <-. apply sort_in. rewrite E. left; auto.
Qed.
Lemma first_min_le l c : nonan l -> first_min l = Some c -> forall d, In d l -> dle (c_f c) (c_f d) = true.
Proof.
  intros Hn. rewrite <- sort_first_min. destruct (sort_cands l) eqn:E; cbn; [discriminate|].
  intros H d Hd; injection H as <-.
  apply sort_in in Hd. rewrite E in Hd. destruct Hd as [<-|Hd].
  - apply dle_refl, Hn, sort_in. rewrite E; left; auto.
  - eapply asc_hd; eauto; [|rewrite <- E; apply sort_asc; auto].
    rewrite <- E. apply nonan_sort; auto.
Qed.

(** Position in the sorted list *)
Lemma filter_perm_length {A} (f : A -> bool) (l m : list A) :
  Permutation l m -> length (filter f l) = length (filter f m).
Proof.
  induction 1; cbn; auto; try lia.
  - destruct (f x); cbn; lia.
  - destruct (f x), (f y); cbn; lia.
Qed.
Lemma asc_nth_le l : nonan l -> ascending l -> forall i j c d, (i <= j)%nat ->
  nth_error l i = Some c -> nth_error l j = Some d -> dle (c_f c) (c_f d) = true.
Proof.
  induction l as [|x l IH]; intros Hn Ha i j c d Hij Hi Hj; [destruct i; discriminate|].
  destruct (nonan_cons _ _ Hn) as [Hx Hl].
  destruct i as [|i].
  - injection Hi as <-. destruct j as [|j]; [injection Hj as <-; apply dle_refl; auto|].
    eapply asc_hd; eauto. eapply nth_error_In; eauto.
  - destruct j as [|j]; [lia|]. eapply (IH Hl (asc_tl _ _ Ha) i j); eauto. lia.
Qed.
Lemma filter_all_false {A} (f : A -> bool) (l : list A) :
  (forall x, In x l -> f x = false) -> filter f l = [].
Proof.
  induction l as [|x l IH]; intros H; cbn; auto.
  rewrite (H x) by (left; auto). apply IH. intros y Hy; apply H; right; auto.
Qed.
Lemma filter_all_true {A} (f : A -> bool) (l : list A) :
  (forall x, In x l -> f x = true) -> filter f l = l.
Proof.
  induction l as [|x l IH]; intros H; cbn; auto.
  rewrite (H x) by (left; auto). f_equal. apply IH. intros y Hy; apply H; right; auto.
Qed.
Lemma filter_length_le {A} (f : A -> bool) (l : list A) : (length (filter f l) <= length l)%nat.
Proof. induction l as [|x l IH]; cbn; auto. destruct (f x); cbn; lia. Qed.

Lemma asc_order_stat l k c : nonan l -> ascending l -> nth_error l k = Some c ->
  order_stat k (map c_f l) (c_f c).
Proof.
  intros Hn Ha Hk. split; [apply in_map; eapply nth_error_In; eauto|].
  assert (Hlen : (k < length l)%nat) by (apply nth_error_Some; congruence).
  assert (Hs : forall P : dbl -> bool, length (filter P (map c_f l)) = length (filter (fun x : cand T => P (c_f x)) l)).
  { intros P. clear. induction l as [|x l IH]; cbn; auto. destruct (P (c_f x)); cbn; auto. }
  rewrite !Hs.
  split.
  - rewrite <- (firstn_skipn k l), filter_app, app_length. rewrite (filter_all_false _ (skipn k l)).
    + cbn. rewrite Nat.add_0_r. etransitivity; [apply filter_length_le|]. rewrite firstn_length. lia.
    + intros x Hx. apply In_nth_error in Hx as [j Hj]. rewrite nth_error_skipn' in Hj.
      apply dle_lt_false. eapply (asc_nth_le l Hn Ha k (k + j)); eauto. lia.
  - rewrite <- (firstn_skipn (S k) l), filter_app, app_length. rewrite (filter_all_true _ (firstn (S k) l)).
    + rewrite firstn_length. lia.
    + intros x Hx. apply In_nth_error in Hx as [j Hj].
      assert (j < S k)%nat. { assert (j < length (firstn (S k) l))%nat by (apply nth_error_Some; congruence). rewrite firstn_length in H. lia. }
      rewrite nth_error_firstn' in Hj by auto.
      eapply (asc_nth_le l Hn Ha j k); eauto. lia.
Qed.
End SortProofs.
