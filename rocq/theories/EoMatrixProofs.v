From Verif Require Import Base EoMatrix.

Lemma to_uint_small k : (0 <= k < 4294967296)%Z -> to_uint k = k.
Proof. intros H; unfold to_uint; apply Z.mod_small; exact H. Qed.

Lemma remove_at_length {A} k (v : list A) : k < length v -> length (remove_at k v) = length v - 1.
Proof.
  intros H; unfold remove_at; destruct (Nat.leb_spec (length v) k); [lia|].
  rewrite app_length, firstn_length, skipn_length; lia.
Qed.

Lemma insert_at_length {A} k (a : A) v : length (insert_at k a v) = S (length v).
Proof.
  unfold insert_at; rewrite app_length; cbn [length]; rewrite firstn_length, skipn_length.
  destruct (Nat.le_ge_cases k (length v)); lia.
Qed.

Lemma remove_insert {A} k (a : A) v : k <= length v -> remove_at k (insert_at k a v) = v.
Proof.
  intros H; unfold remove_at; rewrite insert_at_length.
  destruct (Nat.leb_spec (S (length v)) k); [lia|].
  unfold insert_at.
  rewrite firstn_app, firstn_firstn, firstn_length.
  replace (k - Nat.min k (length v)) with 0 by lia.
  rewrite Nat.min_id; cbn [firstn]; rewrite app_nil_r.
  rewrite skipn_app, firstn_length.
  replace (S k - Nat.min k (length v)) with 1 by lia.
  rewrite skipn_all2 by (rewrite firstn_length; lia).
  cbn [skipn app]. apply firstn_skipn.
Qed.

Lemma insert_remove {A} k (a : A) v : nth_error v k = Some a -> insert_at k a (remove_at k v) = v.
Proof.
  intros H.
  apply nth_error_split in H; destruct H as (l1 & l2 & -> & <-).
  unfold remove_at; rewrite app_length; cbn [length].
  destruct (Nat.leb_spec (length l1 + S (length l2)) (length l1)); [lia|].
  assert (E1 : firstn (length l1) (l1 ++ a :: l2) = l1)
    by (rewrite firstn_app, firstn_all, Nat.sub_diag; apply app_nil_r).
  assert (E2 : skipn (S (length l1)) (l1 ++ a :: l2) = l2).
  { rewrite skipn_app, skipn_all2 by lia. replace (S (length l1) - length l1) with 1 by lia. reflexivity. }
  rewrite E1, E2; unfold insert_at.
  rewrite firstn_app, firstn_all, Nat.sub_diag; cbn [firstn]; rewrite app_nil_r.
  rewrite skipn_app, skipn_all, Nat.sub_diag; reflexivity.
Qed.

(** nth element after removal / insertion *)
Lemma nth_error_firstn_lt {A} (v : list A) k i : i < k -> nth_error (firstn k v) i = nth_error v i.
Proof.
  revert v i; induction k as [|k IH]; intros [|a v] i H; simpl; try lia.
  - destruct i; reflexivity.
  - destruct i as [|i]; simpl; [reflexivity|apply IH; lia].
Qed.

Lemma nth_error_skipn_add {A} (v : list A) k i : nth_error (skipn k v) i = nth_error v (k + i).
Proof.
  revert v; induction k as [|k IH]; intros [|a v]; simpl; try reflexivity.
  - destruct i; reflexivity.
  - apply IH.
Qed.

Lemma nth_error_remove_at {A} (v : list A) k i :
  k < length v -> nth_error (remove_at k v) i = nth_error v (if i <? k then i else S i).
Proof.
  intros Hk; unfold remove_at; destruct (Nat.leb_spec (length v) k); [lia|].
  destruct (Nat.ltb_spec i k) as [Hi|Hi].
  - rewrite nth_error_app1 by (rewrite firstn_length; lia). apply nth_error_firstn_lt; exact Hi.
  - rewrite nth_error_app2 by (rewrite firstn_length; lia).
    rewrite firstn_length, nth_error_skipn_add. f_equal; lia.
Qed.

Lemma nth_error_insert_at {A} (v : list A) k a i :
  k <= length v ->
  nth_error (insert_at k a v) i =
    if i <? k then nth_error v i else if i =? k then Some a else nth_error v (i - 1).
Proof.
  intros Hk; unfold insert_at.
  destruct (Nat.ltb_spec i k) as [Hi|Hi].
  - rewrite nth_error_app1 by (rewrite firstn_length; lia). apply nth_error_firstn_lt; exact Hi.
  - rewrite nth_error_app2 by (rewrite firstn_length; lia).
    rewrite firstn_length. replace (Nat.min k (length v)) with k by lia.
    destruct (Nat.eqb_spec i k) as [->|Hne].
    + rewrite Nat.sub_diag; reflexivity.
    + replace (i - k) with (S (i - k - 1)) by lia; cbn [nth_error].
      rewrite nth_error_skipn_add; f_equal; lia.
Qed.

(** API level: [int] indices. *)
Lemma removeElement_nat {A} (v : list A) (k : nat) :
  (Z.of_nat k < 4294967296)%Z -> removeElement v (Z.of_nat k) = remove_at k v.
Proof.
  intros H; unfold removeElement; rewrite to_uint_small by lia.
  rewrite Nat2Z.id.
  destruct (Z.leb_spec (Z.of_nat (length v)) (Z.of_nat k)); [|reflexivity].
  unfold remove_at; destruct (Nat.leb_spec (length v) k); [reflexivity|lia].
Qed.

Lemma addElement_nat {A} (v : list A) (k : nat) a :
  (Z.of_nat k < 4294967296)%Z -> k <= length v -> addElement v (Z.of_nat k) a = insert_at k a v.
Proof.
  intros H Hk; unfold addElement; rewrite to_uint_small by lia.
  rewrite Nat2Z.id.
  destruct (Z.leb_spec (Z.of_nat (length v) + 1) (Z.of_nat k)); [lia|reflexivity].
Qed.

(** A vector can be indexed by an int only below 2^31 entries; all vectors of the
    library are in that case. *)
Definition small {A} (v : list A) : Prop := (Z.of_nat (length v) < 2147483648)%Z.

Lemma add_remove_inverse {A} (v : list A) (k : Z) a :
  small v -> (0 <= k < Z.of_nat (length v))%Z -> nth_error v (Z.to_nat k) = Some a ->
  addElement (removeElement v k) k a = v.
Proof.
  unfold small; intros Hs Hk Ha.
  replace k with (Z.of_nat (Z.to_nat k)) by lia.
  rewrite removeElement_nat by lia.
  rewrite addElement_nat; [apply insert_remove; exact Ha|lia|].
  rewrite remove_at_length; lia.
Qed.

Lemma remove_add_inverse {A} (v : list A) (k : Z) a :
  small v -> (0 <= k <= Z.of_nat (length v))%Z ->
  removeElement (addElement v k a) k = v.
Proof.
  unfold small; intros Hs Hk.
  replace k with (Z.of_nat (Z.to_nat k)) by lia.
  rewrite addElement_nat by lia.
  rewrite removeElement_nat by lia.
  apply remove_insert; lia.
Qed.

Lemma remove_outside {A} (v : list A) (k : Z) :
  small v -> (k < 0 /\ -2147483648 <= k \/ Z.of_nat (length v) <= k < 4294967296)%Z -> removeElement v k = v.
Proof.
  unfold small; intros Hs Hk; unfold removeElement.
  destruct (Z.leb_spec (Z.of_nat (length v)) (to_uint k)) as [_|H]; [reflexivity|exfalso].
  unfold to_uint in H. destruct Hk as [Hk|Hk].
  - rewrite <- (Z.mod_add k 1 4294967296) in H by lia. rewrite Z.mod_small in H; lia.
  - rewrite Z.mod_small in H; lia.
Qed.

Lemma add_outside {A} (v : list A) (k : Z) a :
  small v -> (k < 0 /\ -2147483648 <= k \/ Z.of_nat (length v) < k < 4294967296)%Z -> addElement v k a = v.
Proof.
  unfold small; intros Hs Hk; unfold addElement.
  destruct (Z.leb_spec (Z.of_nat (length v) + 1) (to_uint k)) as [_|H]; [reflexivity|exfalso].
  unfold to_uint in H. destruct Hk as [Hk|Hk].
  - rewrite <- (Z.mod_add k 1 4294967296) in H by lia. rewrite Z.mod_small in H; lia.
  - rewrite Z.mod_small in H; lia.
Qed.

(** removeRow removes the given row when in range, the last one otherwise. *)
Lemma removeRow_ok {A} (m : list A) k :
  k < length m -> removeRow m k = Ok (remove_at k m).
Proof.
  intros H; unfold removeRow, remove_at. destruct m as [|r m]; [simpl in H; lia|].
  destruct (Nat.leb_spec (length (r :: m)) k); [lia|].
  destruct (Nat.ltb_spec k (length (r :: m) - 1)) as [_|Hk]; [reflexivity|].
  f_equal. assert (k = length (r :: m) - 1) by lia.
  rewrite <- H1. rewrite (skipn_all2 (r :: m)) by lia. rewrite app_nil_r; reflexivity.
Qed.

Lemma removeColumn_ok {A} (m : list (list A)) k n :
  (forall r, In r m -> length r = n) -> k < n -> removeColumn m k = Ok (map (remove_at k) m).
Proof.
  intros H Hk; unfold removeColumn.
  induction m as [|r m IH]; cbn [mapM map]; [reflexivity|].
  rewrite removeRow_ok by (rewrite (H r (or_introl eq_refl)); exact Hk).
  cbn [bind]; rewrite IH; [reflexivity|]. intros r' Hr; apply H; right; exact Hr.
Qed.

(** * Removing several dimensions.

    Specification: keep the entries whose index is not in the set. *)
Fixpoint keep_from {A} (i : nat) (drop : nat -> bool) (v : list A) : list A :=
  match v with
  | [] => []
  | a :: v' => if drop i then keep_from (S i) drop v' else a :: keep_from (S i) drop v'
  end.

Lemma keep_from_none {A} i (drop : nat -> bool) (v : list A) :
  (forall j, i <= j < i + length v -> drop j = false) -> keep_from i drop v = v.
Proof.
  revert i; induction v as [|a v IH]; intros i H; simpl; [reflexivity|].
  rewrite (H i) by (simpl; lia). f_equal; apply IH; intros j Hj; apply H; simpl; lia.
Qed.

Lemma keep_from_ext {A} i (d d' : nat -> bool) (v : list A) :
  (forall j, i <= j < i + length v -> d j = d' j) -> keep_from i d v = keep_from i d' v.
Proof.
  revert i; induction v as [|a v IH]; intros i H; simpl; [reflexivity|].
  rewrite (H i) by (simpl; lia).
  rewrite (IH (S i)) by (intros j Hj; apply H; simpl; lia). reflexivity.
Qed.

Lemma keep_from_app {A} i (d : nat -> bool) (v w : list A) :
  keep_from i d (v ++ w) = keep_from i d v ++ keep_from (i + length v) d w.
Proof.
  revert i; induction v as [|a v IH]; intros i; simpl.
  - f_equal; lia.
  - rewrite IH. replace (S i + length v) with (i + S (length v)) by lia.
    destruct (d i); reflexivity.
Qed.

Definition mem (ks : list nat) (i : nat) : bool := existsb (Nat.eqb i) ks.

(** strictly decreasing list of indices *)
Fixpoint decreasing (ks : list nat) : Prop :=
  match ks with
  | [] => True
  | k :: ks' => (forall j, In j ks' -> j < k) /\ decreasing ks'
  end.

Lemma fold_remove_decreasing {A} ks (v : list A) :
  decreasing ks -> (forall k, In k ks -> k < length v) ->
  fold_left (fun v k => remove_at k v) ks v = keep_from 0 (mem ks) v.
Proof.
  revert v; induction ks as [|k ks IH]; intros v Hd Hr; cbn [fold_left].
  - rewrite keep_from_none; [reflexivity|]. intros; reflexivity.
  - destruct Hd as [Hlt Hd].
    assert (Hk : k < length v) by (apply Hr; left; reflexivity).
    rewrite IH; [|exact Hd|].
    2:{ intros j Hj; rewrite remove_at_length by exact Hk.
        pose proof (Hlt j Hj); pose proof (Hr j (or_intror Hj)); lia. }
    unfold remove_at; destruct (Nat.leb_spec (length v) k); [lia|].
    rewrite <- (firstn_skipn k v) at 3.
    rewrite !keep_from_app, firstn_length. simpl Nat.add.
    replace (Nat.min k (length v)) with k by lia.
    assert (E1 : keep_from 0 (mem (k :: ks)) (firstn k v) = keep_from 0 (mem ks) (firstn k v)).
    { apply keep_from_ext; intros j Hj; rewrite firstn_length in Hj. cbn [mem existsb].
      destruct (Nat.eqb_spec j k); [lia|reflexivity]. }
    rewrite E1; f_equal.
    assert (Hm : forall j, k <= j -> mem ks j = false).
    { intros j Hj; unfold mem. destruct (existsb (Nat.eqb j) ks) eqn:E; [|reflexivity].
      apply existsb_exists in E; destruct E as [x [Hx E]]; apply Nat.eqb_eq in E; subst x.
      pose proof (Hlt j Hx); lia. }
    rewrite keep_from_none by (intros j Hj; apply Hm; lia).
    destruct (skipn k v) as [|a w] eqn:Es.
    { exfalso. assert (length (skipn k v) = 0) by (rewrite Es; reflexivity). rewrite skipn_length in H0; lia. }
    assert (Ew : skipn (S k) v = w).
    { clear -Es. revert k Es; induction v as [|b v IH]; intros [|k] Es; simpl in Es; try discriminate.
      - injection Es as <- <-; reflexivity.
      - simpl. apply (IH k Es). }
    rewrite Ew. cbn [keep_from mem existsb]. rewrite Nat.eqb_refl; cbn [orb].
    symmetry; apply keep_from_none. intros j Hj.
    unfold mem; cbn [existsb]; destruct (Nat.eqb_spec j k); [lia|]. cbn [orb].
    apply (Hm j); lia.
Qed.

Lemma fold_removeElement_nat {A} ks (v : list A) :
  small v -> (forall k, In k ks -> k < length v) ->
  fold_left removeElement (map Z.of_nat ks) v = fold_left (fun v k => remove_at k v) ks v.
Proof.
  revert v; induction ks as [|k ks IH]; intros v Hs Hr; cbn [map fold_left]; [reflexivity|].
  unfold small in *. assert (Hk : k < length v) by (apply Hr; left; reflexivity).
  rewrite removeElement_nat by lia.
  (* indices past the shortened vector are ignored by both *)
  assert (G : forall ks (w : list A), (forall k, In k ks -> k < length v) -> length w <= length v ->
     fold_left removeElement (map Z.of_nat ks) w = fold_left (fun v k => remove_at k v) ks w).
  { clear ks IH Hr. intros ks; induction ks as [|j ks IH2]; intros w Hr Hw; cbn [map fold_left]; [reflexivity|].
    pose proof (Hr j (or_introl eq_refl)).
    rewrite removeElement_nat by lia.
    apply IH2; [intros i Hi; apply Hr; right; exact Hi|].
    unfold remove_at; destruct (Nat.leb_spec (length w) j); [exact Hw|].
    rewrite app_length, firstn_length, skipn_length; lia. }
  apply G; [intros i Hi; apply Hr; right; exact Hi|]. rewrite remove_at_length by exact Hk; lia.
Qed.
