From Coq Require Import Permutation.
From Verif Require Import Base Par.

Lemma upd_length {A} i (a : A) l : length (upd i a l) = length l.
Proof.
  revert i; induction l as [|b l IH]; intros [|i]; try reflexivity.
  unfold upd in *; cbn [firstn skipn app length]. f_equal. apply IH.
Qed.
Lemma upd_cons {A} i (a b : A) l : upd (S i) a (b :: l) = b :: upd i a l.
Proof. reflexivity. Qed.
Lemma nth_upd {A} i j (a : A) l : i < length l ->
  nth_error (upd i a l) j = if j =? i then Some a else nth_error l j.
Proof.
  revert i j; induction l as [|b l IH]; intros [|i] [|j] H; cbn [length] in H; try lia; try reflexivity.
  rewrite upd_cons. cbn [nth_error Nat.eqb]. apply IH; lia.
Qed.

Section P.
Variables V L E : Type.
Notation pstate := (pstate V L E).

(** Where slot [t] will end if iteration [t] ran alone from here. *)
Definition fin_slot (s : pstate) (t : nat) : option V :=
  match nth_error (p_mem s) t, nth_error (p_threads s) t with
  | Some v, Some (l, acts) => Some (fst (seq_run v l acts))
  | Some v, None => Some v
  | None, _ => None
  end.

Fixpoint rest_events (mem : list V) (ths : list (L * list (action V L E))) : list E :=
  match mem, ths with
  | v :: mem', (l, acts) :: ths' => snd (seq_run v l acts) ++ rest_events mem' ths'
  | _, _ => []
  end.

Definition sized (s : pstate) : Prop := length (p_threads s) <= length (p_mem s).

Lemma pstep_inv t (s s' : pstate) :
  owned s -> pstep t s = Some s' ->
  exists v l a acts v' l' ev,
    nth_error (p_threads s) t = Some (l, a :: acts) /\ a_slot a = t /\
    nth_error (p_mem s) t = Some v /\ a_run a v l = (v', l', ev) /\
    s' = mkPS (upd t v' (p_mem s)) (upd t (l', acts) (p_threads s)) (p_trace s ++ ev).
Proof.
  unfold pstep; intros Ho H.
  destruct (nth_error (p_threads s) t) as [[l [|a acts]]|] eqn:Et; try discriminate.
  assert (Ea : a_slot a = t) by (apply (Ho t l (a :: acts) a Et); left; reflexivity).
  rewrite Ea in H.
  destruct (nth_error (p_mem s) t) as [v|] eqn:Em; [|discriminate].
  destruct (a_run a v l) as [[v' l'] ev] eqn:Er.
  injection H as <-. exists v, l, a, acts, v', l', ev. auto.
Qed.

Lemma pstep_owned t (s s' : pstate) : owned s -> pstep t s = Some s' -> owned s'.
Proof.
  intros Ho H. destruct (pstep_inv _ _ _ Ho H) as (v & l & a & acts & v' & l' & ev & Et & Ea & Em & Er & ->).
  intros t' l1 acts1 a1 H1 H2; cbn [p_threads] in H1.
  rewrite nth_upd in H1 by (apply nth_error_Some; congruence).
  destruct (Nat.eqb_spec t' t) as [->|Hn].
  - injection H1 as <- <-. apply (Ho t l (a :: acts) a1 Et). right; exact H2.
  - apply (Ho t' l1 acts1 a1 H1 H2).
Qed.

Lemma pstep_sized t (s s' : pstate) : owned s -> pstep t s = Some s' -> sized s -> sized s'.
Proof.
  intros Ho H. destruct (pstep_inv _ _ _ Ho H) as (v & l & a & acts & v' & l' & ev & Et & Ea & Em & Er & ->).
  unfold sized; cbn [p_threads p_mem]; rewrite !upd_length; auto.
Qed.

Lemma pstep_fin t (s s' : pstate) : owned s -> pstep t s = Some s' -> forall i, fin_slot s' i = fin_slot s i.
Proof.
  intros Ho H i. destruct (pstep_inv _ _ _ Ho H) as (v & l & a & acts & v' & l' & ev & Et & Ea & Em & Er & ->).
  unfold fin_slot; cbn [p_threads p_mem].
  rewrite !nth_upd by (apply nth_error_Some; congruence).
  destruct (Nat.eqb_spec i t) as [->|Hn]; [|reflexivity].
  rewrite Et, Em. cbn [seq_run]. rewrite Er.
  destruct (seq_run v' l' acts) as [v'' evs]; reflexivity.
Qed.

Lemma rest_step : forall t mem (ths : list (L * list (action V L E))) l a acts v v' l' ev,
  nth_error ths t = Some (l, a :: acts) -> nth_error mem t = Some v -> a_run a v l = (v', l', ev) ->
  Permutation (ev ++ rest_events (upd t v' mem) (upd t (l', acts) ths)) (rest_events mem ths).
Proof.
  induction t as [|t IH]; intros [|w mem] [|[l0 acts0] ths] l a acts v v' l' ev Ht Hm Hr;
    cbn [nth_error] in Ht, Hm; try discriminate.
  - injection Ht as -> ->. injection Hm as ->.
    unfold upd; cbn [firstn skipn app rest_events seq_run]. rewrite Hr.
    destruct (seq_run v' l' acts) as [v'' evs]; cbn [snd]. rewrite app_assoc. apply Permutation_refl.
  - rewrite !upd_cons; cbn [rest_events].
    rewrite app_assoc, (Permutation_app_comm ev), <- app_assoc.
    apply Permutation_app_head. eapply IH; eassumption.
Qed.

Lemma pstep_trace t (s s' : pstate) : owned s -> pstep t s = Some s' ->
  Permutation (p_trace s' ++ rest_events (p_mem s') (p_threads s'))
              (p_trace s ++ rest_events (p_mem s) (p_threads s)).
Proof.
  intros Ho H. destruct (pstep_inv _ _ _ Ho H) as (v & l & a & acts & v' & l' & ev & Et & Ea & Em & Er & ->).
  cbn [p_threads p_mem p_trace]. rewrite <- app_assoc. apply Permutation_app_head.
  eapply rest_step; eassumption.
Qed.

Lemma prun_all sched : forall s s' : pstate, owned s -> prun sched s = Some s' ->
  owned s' /\ (sized s -> sized s') /\ (forall i, fin_slot s' i = fin_slot s i) /\
  Permutation (p_trace s' ++ rest_events (p_mem s') (p_threads s'))
              (p_trace s ++ rest_events (p_mem s) (p_threads s)).
Proof.
  induction sched as [|t sched IH]; intros s s' Ho H; cbn [prun] in H.
  - injection H as <-. split; [exact Ho|split; [auto|split; [auto|apply Permutation_refl]]].
  - destruct (pstep t s) as [s1|] eqn:Es; [|discriminate].
    destruct (IH s1 s' (pstep_owned _ _ _ Ho Es) H) as (A & B & C & D).
    split; [|split; [|split]].
    + exact A.
    + intros Hs. apply B. exact (pstep_sized _ _ _ Ho Es Hs).
    + intros i. rewrite C. exact (pstep_fin _ _ _ Ho Es i).
    + eapply Permutation_trans; [exact D|]. exact (pstep_trace _ _ _ Ho Es).
Qed.

Lemma finished_fin (s : pstate) i : finished s -> fin_slot s i = nth_error (p_mem s) i.
Proof.
  intros Hf; unfold fin_slot. destruct (nth_error (p_mem s) i) as [v|]; [|reflexivity].
  destruct (nth_error (p_threads s) i) as [[l acts]|] eqn:Eq; [|reflexivity].
  rewrite (Hf _ _ _ Eq). reflexivity.
Qed.
Lemma finished_rest mem (ths : list (L * list (action V L E))) :
  (forall t l acts, nth_error ths t = Some (l, acts) -> acts = []) -> rest_events mem ths = [].
Proof.
  revert ths; induction mem as [|v mem IH]; intros [|[l acts] ths] H; try reflexivity.
  cbn [rest_events]. rewrite (H 0 l acts eq_refl). cbn [seq_run snd app]. apply IH.
  intros t; apply (H (S t)).
Qed.

(** Main lemma: whatever the schedule, every slot ends as if its iteration ran
    alone, and the events are those of the sequential run up to reordering. *)
Lemma schedule_free sched (s s' : pstate) :
  owned s -> prun sched s = Some s' -> finished s' ->
  (forall i, nth_error (p_mem s') i = fin_slot s i) /\
  Permutation (p_trace s') (p_trace s ++ rest_events (p_mem s) (p_threads s)).
Proof.
  intros Ho H Hf. destruct (prun_all _ _ _ Ho H) as (A & B & C & D). split.
  - intros i. rewrite <- C. symmetry; apply finished_fin; exact Hf.
  - rewrite finished_rest in D by exact Hf. rewrite app_nil_r in D. exact D.
Qed.

(** No schedule gets stuck: while some iteration has actions left, it can move. *)
Lemma never_stuck (s : pstate) t l a acts :
  owned s -> sized s -> nth_error (p_threads s) t = Some (l, a :: acts) -> exists s', pstep t s = Some s'.
Proof.
  intros Ho Hs Ht. unfold pstep; rewrite Ht.
  rewrite (Ho t l (a :: acts) a Ht (or_introl eq_refl)).
  destruct (nth_error (p_mem s) t) as [v|] eqn:Em.
  - destruct (a_run a v l) as [[v' l'] ev]; eauto.
  - exfalso. apply nth_error_None in Em. unfold sized in Hs.
    assert (t < length (p_threads s)) by (apply nth_error_Some; congruence). lia.
Qed.

Definition remaining (s : pstate) : nat :=
  fold_right (fun th n => length (snd th) + n) 0 (p_threads s).

Lemma remaining_upd t (ths : list (L * list (action V L E))) l a acts l' :
  nth_error ths t = Some (l, a :: acts) ->
  S (fold_right (fun th n => length (snd th) + n) 0 (upd t (l', acts) ths)) =
  fold_right (fun th n => length (snd th) + n) 0 ths.
Proof.
  revert t; induction ths as [|th ths IH]; intros [|t] H; cbn [nth_error] in H; try discriminate.
  - injection H as ->. unfold upd; cbn [firstn skipn app fold_right snd length]. lia.
  - rewrite upd_cons; cbn [fold_right]. rewrite <- (IH t H). lia.
Qed.

Lemma remaining_zero (ths : list (L * list (action V L E))) :
  fold_right (fun th n => length (snd th) + n) 0 ths = 0 ->
  forall t l acts, nth_error ths t = Some (l, acts) -> acts = [].
Proof.
  induction ths as [|[l0 a0] ths IH]; intros H [|t] l acts Ht; cbn [nth_error fold_right snd] in *; try discriminate.
  - injection Ht as -> ->. destruct acts; [reflexivity|cbn in H; lia].
  - eapply IH; [lia|exact Ht].
Qed.
Lemma remaining_pos (ths : list (L * list (action V L E))) :
  fold_right (fun th n => length (snd th) + n) 0 ths <> 0 ->
  exists t l a acts, nth_error ths t = Some (l, a :: acts).
Proof.
  induction ths as [|[l0 a0] ths IH]; cbn [fold_right snd]; intros H; [lia|].
  destruct a0 as [|a a0]; [|exists 0, l0, a, a0; reflexivity].
  destruct IH as (t & l & a & acts & Ht); [cbn in H; lia|]. exists (S t), l, a, acts; exact Ht.
Qed.

(** Some schedule completes the loop. *)
Lemma can_finish (s : pstate) : owned s -> sized s ->
  exists sched s', prun sched s = Some s' /\ finished s'.
Proof.
  remember (remaining s) as n eqn:Hn. revert s Hn; induction n as [|n IH]; intros s Hn Ho Hs.
  - exists [], s; split; [reflexivity|]. intros t l acts. apply remaining_zero. symmetry; exact Hn.
  - destruct (remaining_pos (p_threads s)) as (t & l & a & acts & Ht).
    { unfold remaining in Hn; lia. }
    destruct (never_stuck s t l a acts Ho Hs Ht) as [s1 H1].
    destruct (IH s1) as (sched & s' & H2 & H3).
    + destruct (pstep_inv t s s1 Ho H1) as (v & l1 & a1 & acts1 & v' & l' & ev & Et & Ea & Em & Er & ->).
      unfold remaining in *; cbn [p_threads].
      pose proof (remaining_upd t _ _ _ _ l' Et). lia.
    + exact (pstep_owned _ _ _ Ho H1).
    + exact (pstep_sized _ _ _ Ho H1 Hs).
    + exists (t :: sched), s'. split; [|exact H3]. cbn [prun]. rewrite H1. exact H2.
Qed.
End P.
