(** Two searches that correspond through a map of the search space. *)
From Verif Require Import Base Dbl Config Search SpecSearch SpecInvar.
Local Open Scope Z_scope.

Section SpecMorph.
Context {T N : Type}.
Variable h : list T -> list T.
Variable R : N -> N -> Prop.

Definition move (c : cand T) : cand T := mkCand (c_f c) (h (c_x c)) (c_id c) (c_r c).
(** Same values, counters and status; points sent through [h]; distributions
    related by [R]; objective calls at the points sent through [h]. *)
Definition moved_sol (so so' : sol T N) : Prop :=
  s_cands so' = map move (s_cands so) /\ s_hist so' = map move (s_hist so) /\ s_khist so' = map move (s_khist so) /\
  s_bf so' = s_bf so /\ s_med so' = s_med so /\
  s_best so' = move (s_best so) /\ s_best_iter so' = s_best_iter so /\ s_worst so' = move (s_worst so) /\ s_init so' = move (s_init so) /\
  s_niter so' = s_niter so /\ s_nevals so' = s_nevals so /\ s_kcand so' = s_kcand so /\ s_maxhist so' = s_maxhist so /\
  s_status so' = s_status so /\ s_cuh so' = s_cuh so /\ s_reev so' = s_reev so /\ s_suh so' = s_suh so /\
  s_tpa1 so' = s_tpa1 so /\ s_tpa2 so' = s_tpa2 so /\ R (s_num so) (s_num so').
Definition moved (s s' : st T N) : Prop :=
  moved_sol (t_sol s) (t_sol s') /\ t_nevals s' = t_nevals s /\ t_niter s' = t_niter s /\
  t_log s' = map (fun p => (h (fst p), snd p)) (t_log s).
Definition moved_result (r r' : res (st T N)) : Prop :=
  match r, r' with
  | Ok s, Ok s' => moved s s'
  | Fault f, Fault f' => f = f'
  | _, _ => False
  end.
(** The corresponding call. *)
Definition move_op (o : op T) : op T :=
  match o with
  | OEval cols phen => OEval (map h cols) (map h phen)
  | OGen cols phen => OGen (map h cols) (map h phen)
  | o => o
  end.
(** Elitism schemes that insert the initial point in generations without waiting
    for a restart, and histories in which optimize, which evaluates the initial
    point, is called before the first generation for these schemes. *)
Definition needs_initial (g : cfg T) : bool := e_init (g_elit g) || e_restart (g_elit g) && e_best (g_elit g).
Definition initial_known (g : cfg T) (hs : list (op T)) : Prop :=
  needs_initial g = true -> forall h1 h2 cols phen, hs = h1 ++ OGen cols phen :: h2 -> exists rf fuel, In (OOptimize rf fuel) h1.
End SpecMorph.
