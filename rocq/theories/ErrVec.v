(** Vectors with elements put in at given places. *)
From Coq Require Import Reals.
From Verif Require Import Base EoMatrix Pwq Scaling GenoPheno SpecBounds SpecGeno Errstats SpecErr
  EoMatrixProofs GenoPhenoProofs ScalingProofs GpParProofs.

Local Open Scope nat_scope.
Fixpoint incr (lo : nat) (ks : list nat) : Prop :=
  match ks with [] => True | k :: r => lo <= k /\ incr (S k) r end.

Lemma low_to_high_incr n ks : low_to_high n ks -> incr 0 ks /\ (forall k, In k ks -> k < n).
Proof.
  intros [H1 H2]; split; [|exact H2]. clear H2.
  assert (G : forall lo, (forall k, nth_error ks 0 = Some k -> lo <= k) -> incr lo ks).
  { induction ks as [|k ks IH]; intros lo Hlo; cbn [incr]; [exact I|]. split; [apply Hlo; reflexivity|].
    apply IH.
    - intros i; apply (H1 (S i)).
    - intros k' Hk'. apply (H1 0 k k' eq_refl Hk'). }
  apply G; intros; lia.
Qed.

Lemma incr_bound ks : forall lo n k, incr lo (k :: ks) -> (forall j, In j (k :: ks) -> j < n) -> k + length ks < n.
Proof.
  induction ks as [|j ks IH]; intros lo n k H Hb; cbn [length].
  - specialize (Hb k (or_introl eq_refl)). lia.
  - destruct H as [_ H]. pose proof (IH (S k) n j H (fun i Hi => Hb i (or_intror Hi))). destruct H. lia.
Qed.
Lemma incr_weak ks lo lo' : lo' <= lo -> incr lo ks -> incr lo' ks.
Proof. destruct ks; cbn; [tauto|]. intros H [A B]. split; [lia|exact B]. Qed.
Lemma incr_in ks : forall lo k, incr lo ks -> In k ks -> lo <= k.
Proof.
  induction ks as [|j ks IH]; intros lo k H []; destruct H as [A B]; [lia|].
  pose proof (IH _ _ B H0); lia.
Qed.

(** Adding from low to high. *)
Lemma add_each_ok kv : forall lo (x : list R), incr lo (map fst kv) ->
  (forall k, In k (map fst kv) -> k < length x + length kv) ->
  (Z.of_nat (length x + length kv) < 2147483648)%Z ->
  length (add_each kv x) = length x + length kv /\
  (forall i, i < lo -> nth_error (add_each kv x) i = nth_error x i) /\
  (forall k v, In (k, v) kv -> nth_error (add_each kv x) k = Some v).
Proof.
  induction kv as [|[k v] kv IH]; intros lo x Hi Hb Hs; cbn [add_each map fst length] in *.
  - split; [lia|]. split; [auto|]. intros k v [].
  - pose proof (incr_bound _ _ _ _ Hi Hb) as B. rewrite map_length in B. destruct Hi as [Hlo Hi].
    rewrite addElement_nat by lia.
    destruct (IH (S k) (insert_at k v x) Hi) as (A1 & A2 & A3).
    + intros j Hj. rewrite insert_at_length. specialize (Hb j (or_intror Hj)). lia.
    + rewrite insert_at_length; lia.
    + rewrite A1, insert_at_length. split; [lia|]. split.
      * intros i Hi'. rewrite A2 by lia. rewrite nth_error_insert_at by lia.
        destruct (Nat.ltb_spec i k); [reflexivity|lia].
      * intros j w [E|Hj]; [|apply A3; exact Hj]. injection E as <- <-.
        rewrite A2 by lia. rewrite nth_error_insert_at by lia.
        destruct (Nat.ltb_spec k k); [lia|]. rewrite Nat.eqb_refl. reflexivity.
Qed.

Lemma add_each_app kv kv' x : add_each (kv ++ kv') x = add_each kv' (add_each kv x).
Proof. revert x; induction kv as [|[k v] kv IH]; intros x; [reflexivity|]. cbn. apply IH. Qed.

Lemma incr_app ks : forall lo k, incr lo (ks ++ [k]) -> incr lo ks /\ (forall j, In j ks -> j < k).
Proof.
  induction ks as [|a ks IH]; intros lo k H; cbn [app incr] in *; [split; [exact I|intros j []]|].
  destruct H as [A B]. destruct (IH _ _ B) as [C D]. split; [split; assumption|].
  intros j [<-|Hj]; [|apply D; exact Hj].
  apply (incr_in _ _ k B). apply in_or_app; right; left; reflexivity.
Qed.

(** Removing what was added. *)
Lemma remove_added kv : forall lo (x : list R), incr lo (map fst kv) ->
  (forall k, In k (map fst kv) -> k < length x + length kv) ->
  (Z.of_nat (length x + length kv) < 2147483648)%Z ->
  fold_left (fun v k => remove_at k v) (rev (map fst kv)) (add_each kv x) = x.
Proof.
  induction kv as [|[k v] kv IH] using rev_ind; intros lo x Hi Hb Hs; [reflexivity|].
  rewrite map_app, rev_app_distr, add_each_app. cbn [map fst rev app fold_left add_each].
  rewrite map_app in Hi, Hb. cbn [map fst] in Hi, Hb. rewrite app_length in Hb, Hs; cbn [length] in Hb, Hs.
  destruct (incr_app _ _ _ Hi) as [Hi' Hlt].
  assert (Hb' : forall j, In j (map fst kv) -> j < length x + length kv).
  { intros j Hj. specialize (Hlt j Hj). assert (k < length x + (length kv + 1)) by (apply Hb; apply in_or_app; right; left; reflexivity). lia. }
  destruct (add_each_ok kv lo x Hi' Hb') as (L & _); [lia|].
  assert (k < length x + (length kv + 1)) by (apply Hb; apply in_or_app; right; left; reflexivity).
  rewrite addElement_nat by lia. rewrite remove_insert by lia. apply (IH lo); auto; lia.
Qed.

Lemma rev_decreasing ks : forall lo, incr lo ks -> decreasing (rev ks).
Proof.
  induction ks as [|k ks IH] using rev_ind; intros lo H; [exact I|].
  rewrite rev_app_distr. cbn [rev app decreasing]. destruct (incr_app _ _ _ H) as [A B].
  split; [|apply (IH lo); exact A]. intros j Hj. apply B. apply in_rev. exact Hj.
Qed.
Lemma mem_rev ks i : mem (rev ks) i = mem ks i.
Proof.
  unfold mem. destruct (existsb (Nat.eqb i) ks) eqn:E.
  - apply existsb_exists in E. destruct E as (x & Hx & Ex). apply existsb_exists. exists x. rewrite <- in_rev. auto.
  - destruct (existsb (Nat.eqb i) (rev ks)) eqn:E2; [|reflexivity].
    apply existsb_exists in E2. destruct E2 as (x & Hx & Ex). rewrite <- in_rev in Hx.
    assert (existsb (Nat.eqb i) ks = true) by (apply existsb_exists; eauto). congruence.
Qed.
Lemma without_low_to_high {A} ks lo (v : list A) : incr lo ks -> (forall k, In k ks -> k < length v) ->
  without ks v = fold_left (fun v k => remove_at k v) (rev ks) v.
Proof.
  intros H Hb. rewrite without_keep. rewrite fold_remove_decreasing.
  - apply keep_from_ext. intros j _. rewrite mem_rev. reflexivity.
  - apply (rev_decreasing _ lo H).
  - intros k Hk. apply Hb. apply in_rev. exact Hk.
Qed.
Lemma removed_low_to_high {A} ks lo (v : list A) : incr lo ks -> (forall k, In k ks -> k < length v) ->
  (Z.of_nat (length v) < 2147483648)%Z ->
  fold_left (fun v i => removeElement v (Z.of_nat i)) (rev ks) v = without ks v.
Proof.
  intros H Hb Hs. rewrite (without_low_to_high ks lo) by assumption.
  assert (E : forall l (w : list A), fold_left (fun v i => removeElement v (Z.of_nat i)) l w = fold_left removeElement (map Z.of_nat l) w).
  { induction l as [|a l IH]; intros w; [reflexivity|]. cbn. apply IH. }
  rewrite E. apply fold_removeElement_nat; [exact Hs|]. intros k Hk. apply Hb. apply in_rev; exact Hk.
Qed.
Lemma without_length {A} ks lo : forall (v : list A), incr lo ks -> (forall k, In k ks -> k < length v) ->
  length (without ks v) + length ks = length v.
Proof.
  intros v H Hb. rewrite (without_low_to_high ks lo) by assumption.
  assert (G : forall l (w : list A), decreasing l -> (forall k, In k l -> k < length w) ->
    length (fold_left (fun v k => remove_at k v) l w) + length l = length w).
  { induction l as [|a l IH]; intros w Hd Hw; cbn [fold_left length]; [lia|].
    destruct Hd as [Hlt Hd]. assert (a < length w) by (apply Hw; left; reflexivity).
    assert (length (remove_at a w) = length w - 1) by (apply remove_at_length; lia).
    rewrite Nat.add_succ_r, IH; [lia|exact Hd|]. intros k Hk. specialize (Hlt k Hk). lia. }
  rewrite <- (G (rev ks) v).
  - rewrite rev_length. reflexivity.
  - apply (rev_decreasing _ lo H).
  - intros k Hk; apply Hb; apply in_rev; exact Hk.
Qed.

(** Indexed access. *)
Lemma get_nat {A} (l : list A) i : get l (Z.of_nat i) = match nth_error l i with Some a => Ok a | None => Fault OutOfRange end.
Proof. unfold get. destruct (Z.ltb_spec (Z.of_nat i) 0); [lia|]. rewrite Nat2Z.id. reflexivity. Qed.
Lemma get_ok {A} (l : list A) i a : get l (Z.of_nat i) = Ok a <-> nth_error l i = Some a.
Proof. rewrite get_nat. destruct (nth_error l i); split; intros H; try discriminate; congruence. Qed.
Lemma put_nat_length {A} (l : list A) i a : i < length l -> length (put_nat l i a) = length l.
Proof. intros H. unfold put_nat. rewrite app_length, firstn_length. cbn [length]. rewrite skipn_length. lia. Qed.
Lemma nth_put_nat {A} (l : list A) i a j : i < length l -> nth_error (put_nat l i a) j = if j =? i then Some a else nth_error l j.
Proof.
  intros H. unfold put_nat. destruct (Nat.eqb_spec j i) as [->|Hn].
  - rewrite nth_error_app2 by (rewrite firstn_length; lia). rewrite firstn_length.
    replace (i - Nat.min i (length l)) with 0 by lia. reflexivity.
  - destruct (Nat.ltb_spec j i).
    + rewrite nth_error_app1 by (rewrite firstn_length; lia). apply nth_error_firstn_lt; lia.
    + rewrite nth_error_app2 by (rewrite firstn_length; lia). rewrite firstn_length.
      replace (j - Nat.min i (length l)) with (S (j - i - 1)) by lia. cbn [nth_error].
      rewrite nth_error_skipn_add. f_equal; lia.
Qed.
Lemma put_nat_ok {A} (l : list A) i a l' : put l (Z.of_nat i) a = Ok l' <-> i < length l /\ l' = put_nat l i a.
Proof.
  unfold put. destruct (Z.ltb_spec (Z.of_nat i) 0); [lia|]. rewrite Nat2Z.id. cbn [orb].
  destruct (Z.leb_spec (Z.of_nat (length l)) (Z.of_nat i)); split; try discriminate.
  - intros [? _]; lia.
  - intros E. injection E as <-. split; [lia|reflexivity].
  - intros [_ ->]. reflexivity.
Qed.
Lemma put_in {A} (l : list A) i a : i < length l -> put l (Z.of_nat i) a = Ok (put_nat l i a).
Proof. intros H. apply put_nat_ok. auto. Qed.

Lemma put_all_ok kv : forall (v w : list R), put_all kv v = Ok w ->
  length w = length v /\
  (forall i, ~ In i (map fst kv) -> nth_error w i = nth_error v i) /\
  (NoDup (map fst kv) -> forall k a, In (k, a) kv -> nth_error w k = Some a).
Proof.
  induction kv as [|[k a] kv IH]; intros v w H; cbn [put_all] in H.
  - injection H as <-. split; [reflexivity|]. split; [auto|]. intros _ k a [].
  - apply bind_ok in H; destruct H as (v' & Hp & H). apply put_nat_ok in Hp. destruct Hp as [Hk ->].
    destruct (IH _ _ H) as (A1 & A2 & A3). rewrite put_nat_length in A1 by exact Hk.
    split; [exact A1|]. cbn [map fst]. split.
    + intros i Hi. rewrite A2 by (intros C; apply Hi; right; exact C). rewrite nth_put_nat by exact Hk.
      destruct (Nat.eqb_spec i k); [exfalso; apply Hi; left; auto|reflexivity].
    + intros Hd. apply NoDup_cons_iff in Hd. destruct Hd as [Hn Hd].
      intros j b [E|Hj]; [injection E as <- <-|apply A3; assumption].
      rewrite A2 by exact Hn. rewrite nth_put_nat by exact Hk. rewrite Nat.eqb_refl. reflexivity.
Qed.
Lemma put_all_in kv : forall (v : list R), (forall k, In k (map fst kv) -> k < length v) -> exists w, put_all kv v = Ok w.
Proof.
  induction kv as [|[k a] kv IH]; intros v H; cbn [put_all]; [eauto|].
  assert (k < length v) by (apply H; left; reflexivity).
  rewrite put_in by assumption. cbn [bind]. apply IH. intros j Hj. rewrite put_nat_length by assumption.
  apply H; right; exact Hj.
Qed.
Lemma incr_nodup ks : forall lo, incr lo ks -> NoDup ks.
Proof.
  induction ks as [|k ks IH]; intros lo H; constructor; destruct H as [_ H].
  - intros C. pose proof (incr_in _ _ _ H C). lia.
  - apply (IH _ H).
Qed.
Lemma fst_combine {A B} (l : list A) (l' : list B) : length l = length l' -> map fst (combine l l') = l.
Proof. revert l'; induction l as [|a l IH]; intros [|b l'] H; cbn in *; try discriminate; [reflexivity|]. f_equal; apply IH; lia. Qed.
Lemma in_combine_nth {A B} (l : list A) (l' : list B) i a b :
  nth_error l i = Some a -> nth_error l' i = Some b -> In (a, b) (combine l l').
Proof.
  revert l l'; induction i as [|i IH]; intros [|x l] [|y l'] H1 H2; cbn in *; try discriminate.
  - left. congruence.
  - right. apply IH; assumption.
Qed.
Lemma add_all_ok ks vals : forall x z, add_all ks vals x = Ok z ->
  exists vs, mapM (fun k => get vals (Z.of_nat k)) ks = Ok vs /\ z = add_each (combine ks vs) x.
Proof.
  induction ks as [|k ks IH]; intros x z H; cbn [add_all] in H.
  - injection H as <-. exists []. split; reflexivity.
  - apply bind_ok in H; destruct H as (v & Hv & H). destruct (IH _ _ H) as (vs & H1 & ->).
    exists (v :: vs). cbn [mapM]. rewrite Hv; cbn [bind]. rewrite H1. split; reflexivity.
Qed.
Lemma add_all_in ks vals x : (forall k, In k ks -> k < length vals) ->
  exists z, add_all ks vals x = Ok z.
Proof.
  revert x; induction ks as [|k ks IH]; intros x H; cbn [add_all]; [eauto|].
  rewrite get_nat. destruct (nth_error vals k) eqn:E.
  - cbn [bind]. apply IH. intros j Hj; apply H; right; exact Hj.
  - apply nth_error_None in E. specialize (H k (or_introl eq_refl)). lia.
Qed.
