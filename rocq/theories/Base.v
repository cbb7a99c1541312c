(** Common vocabulary of the model: faults, the result monad, list helpers. *)
From Coq Require Export List ZArith Lia Bool Arith.
Export ListNotations.

(** Outcomes of the C++ code that are not ordinary return values.  Undefined
    behaviour and uncaught exceptions are kept distinct from results. *)
Inductive fault :=
| OutOfRange      (* vector::at throwing, or operator[] / Eigen indexing outside the container *)
| SizeMismatch    (* coefficient-wise Eigen operation on operands of different sizes *)
| IntCast         (* float-to-int conversion of a value not representable in int: undefined *)
| DivByZero       (* division by zero (IEEE would continue with inf or NaN) *)
| EmptyFront      (* front()/back() of an empty vector: undefined *)
| Uninit          (* read of an uninitialised member or of an uninitialised vector *)
| BadCompare      (* std::sort or std::stable_sort with a comparison that is not a strict weak order *)
| Diverges.       (* loop did not terminate within the fuel given *)

Inductive res (A : Type) :=
| Ok (a : A)
| Fault (e : fault).
Arguments Ok {A} a.
Arguments Fault {A} e.

Definition bind {A B} (m : res A) (k : A -> res B) : res B :=
  match m with Ok a => k a | Fault e => Fault e end.
Notation "'do' x <- m ; k" := (bind m (fun x => k))
  (at level 200, x name, m at level 100, k at level 200).

Definition is_ok {A} (m : res A) : bool := match m with Ok _ => true | Fault _ => false end.

(** Apply a fallible coordinate function to two sequences of the same length
    (Eigen loops [for i<x.rows()] reading a parameter vector at [i]). *)
Fixpoint mapM2 {A B C} (f : A -> B -> res C) (la : list A) (lb : list B) : res (list C) :=
  match la, lb with
  | [], [] => Ok []
  | a :: la', b :: lb' =>
      do c <- f a b; do cs <- mapM2 f la' lb'; Ok (c :: cs)
  | _, _ => Fault SizeMismatch
  end.

Fixpoint mapM {A C} (f : A -> res C) (la : list A) : res (list C) :=
  match la with
  | [] => Ok []
  | a :: la' => do c <- f a; do cs <- mapM f la'; Ok (c :: cs)
  end.

Lemma bind_ok {A B} (m : res A) (k : A -> res B) (b : B) :
  bind m k = Ok b <-> exists a, m = Ok a /\ k a = Ok b.
Proof.
  destruct m as [a|e]; simpl; split; intros H.
  - exists a; auto.
  - destruct H as [a' [H1 H2]]; injection H1 as ->; exact H2.
  - discriminate.
  - destruct H as [a' [H1 _]]; discriminate.
Qed.

Lemma mapM2_ok_length {A B C} (f : A -> B -> res C) la lb lc :
  mapM2 f la lb = Ok lc -> length la = length lb /\ length lc = length la.
Proof.
  revert lb lc; induction la as [|a la IH]; intros [|b lb] lc H; simpl in *; try discriminate.
  - injection H as <-; auto.
  - apply bind_ok in H; destruct H as [c [_ H]].
    apply bind_ok in H; destruct H as [cs [H2 H]].
    injection H as <-; destruct (IH _ _ H2); simpl; auto.
Qed.

Lemma mapM2_nth {A B C} (f : A -> B -> res C) la lb lc :
  mapM2 f la lb = Ok lc ->
  forall i a b, nth_error la i = Some a -> nth_error lb i = Some b ->
  exists c, nth_error lc i = Some c /\ f a b = Ok c.
Proof.
  revert lb lc; induction la as [|a la IH]; intros [|b lb] lc H; simpl in *; try discriminate.
  - intros [|i] a b Ha; discriminate.
  - apply bind_ok in H; destruct H as [c [H1 H]].
    apply bind_ok in H; destruct H as [cs [H2 H]].
    injection H as <-.
    intros [|i] a' b' Ha Hb; simpl in *.
    + injection Ha as <-; injection Hb as <-; eauto.
    + eapply IH; eauto.
Qed.

Lemma mapM2_all {A B C} (f : A -> B -> res C) la lb :
  length la = length lb ->
  (forall i a b, nth_error la i = Some a -> nth_error lb i = Some b -> exists c, f a b = Ok c) ->
  exists lc, mapM2 f la lb = Ok lc.
Proof.
  revert lb; induction la as [|a la IH]; intros [|b lb] Hl H; simpl in *; try discriminate.
  - eauto.
  - destruct (H 0 a b eq_refl eq_refl) as [c Hc]; rewrite Hc; simpl.
    destruct (IH lb) as [cs Hcs].
    + lia.
    + intros i a' b' Ha Hb; apply (H (S i)); assumption.
    + rewrite Hcs; simpl; eauto.
Qed.

(** If every coordinate returns a value or one particular fault, so does the vector. *)
Lemma mapM2_fault {A B C} (f : A -> B -> res C) la lb e :
  mapM2 f la lb = Fault e -> length la = length lb ->
  exists i a b, nth_error la i = Some a /\ nth_error lb i = Some b /\ f a b = Fault e.
Proof.
  revert lb; induction la as [|a la IH]; intros [|b lb] H Hl; simpl in *; try discriminate.
  destruct (f a b) as [c|e'] eqn:Hf; simpl in H.
  - destruct (mapM2 f la lb) as [cs|e'] eqn:Hm; simpl in H; try discriminate.
    injection H as <-.
    destruct (IH lb Hm) as (i & a' & b' & H1 & H2 & H3); [lia|].
    exists (S i), a', b'; auto.
  - injection H as <-. exists 0, a, b; auto.
Qed.
