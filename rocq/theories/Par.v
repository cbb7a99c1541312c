(** Parallel loops ([#pragma omp parallel for], esostrategy.cc:90,
    genopheno.h:113,139,149,165,176,325) as interleavings of atomic actions on a
    shared array of slots.  OpenMP's barrier at the end of the loop is the
    completion condition; which thread runs which iteration, and in which order
    the iterations advance, is left to the schedule. *)
From Coq Require Import Permutation.
From Verif Require Import Base.

Section Par.
(** Contents of a slot, private variables of an iteration, observable events
    (here: calls of the objective function). *)
Variables V L E : Type.

(** One atomic action: reads and writes one slot and the private variables. *)
Record action := mkAct { a_slot : nat; a_run : V -> L -> V * L * list E }.

Record pstate := mkPS {
  p_mem : list V;
  p_threads : list (L * list action);
  p_trace : list E
}.

Definition upd {A} (i : nat) (a : A) (l : list A) : list A :=
  firstn i l ++ match skipn i l with [] => [] | _ :: t => a :: t end.

(** Iteration [t] performs its next action. *)
Definition pstep (t : nat) (s : pstate) : option pstate :=
  match nth_error (p_threads s) t with
  | Some (l, a :: acts) =>
      match nth_error (p_mem s) (a_slot a) with
      | Some v =>
          let '(v', l', ev) := a_run a v l in
          Some (mkPS (upd (a_slot a) v' (p_mem s)) (upd t (l', acts) (p_threads s)) (p_trace s ++ ev))
      | None => None
      end
  | _ => None
  end.

Fixpoint prun (sched : list nat) (s : pstate) : option pstate :=
  match sched with
  | [] => Some s
  | t :: sched' => match pstep t s with Some s' => prun sched' s' | None => None end
  end.

(** The loop has ended: every iteration has performed all its actions. *)
Definition finished (s : pstate) : Prop :=
  forall t l acts, nth_error (p_threads s) t = Some (l, acts) -> acts = [].

(** Sequential execution of the actions of one iteration on its slot. *)
Fixpoint seq_run (v : V) (l : L) (acts : list action) : V * list E :=
  match acts with
  | [] => (v, [])
  | a :: acts' =>
      let '(v', l', ev) := a_run a v l in
      let '(v'', evs) := seq_run v' l' acts' in (v'', ev ++ evs)
  end.

(** Iteration [i] only touches slot [i]. *)
Definition owned (s : pstate) : Prop :=
  forall t l acts a, nth_error (p_threads s) t = Some (l, acts) -> In a acts -> a_slot a = t.
End Par.
Arguments mkAct {V L E}.
Arguments a_slot {V L E}.
Arguments a_run {V L E}.
Arguments mkPS {V L E}.
Arguments p_mem {V L E}.
Arguments p_threads {V L E}.
Arguments p_trace {V L E}.
Arguments prun {V L E}.
Arguments pstep {V L E}.
Arguments finished {V L E}.
Arguments seq_run {V L E}.
Arguments owned {V L E}.
