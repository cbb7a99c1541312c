(** The evaluation loop of esostrategy.cc:90-101 run by several threads. *)
From Coq Require Import Permutation.
From Verif Require Import Base Dbl Config Par Search.
Local Open Scope Z_scope.

Section EvalPar.
Context {T N : Type}.
Variable no : numops T N.
Variable e : env T N.
Variable g : cfg T.
(** A pure objective: calls do not depend on one another. *)
Variable f : list T -> dbl.

(** Iteration [r] (lines 93-98): set_x, set_id, the call of the objective into a
    temporary, set_fvalue. *)
Definition eval_iter (r : nat) (x y : list T) : list (action (cand T) dbl (list T * dbl)) :=
  [ mkAct r (fun c v => (set_c_x x c, v, []));
    mkAct r (fun c v => (set_c_id (Z.of_nat r) c, v, []));
    mkAct r (fun c _ => (c, f y, [(y, f y)]));
    mkAct r (fun c v => (set_c_f v c, v, [])) ].
(** The loop over the columns; [point r x] is the argument of the call, column
    [r] of the phenotypes when there are any (lines 96-98). *)
Definition point (phen : list (list T)) (r : nat) (x : list T) : list T :=
  match phen with [] => x | _ => nth r phen [] end.
Fixpoint eval_threads (r : nat) (cols phen : list (list T)) : list (dbl * list (action (cand T) dbl (list T * dbl))) :=
  match cols with
  | [] => []
  | x :: cols' => (NaN, eval_iter r x (point phen r x)) :: eval_threads (S r) cols' phen
  end.
Definition eval_loop (cols phen : list (list T)) (cands : list (cand T)) : pstate (cand T) dbl (list T * dbl) :=
  mkPS cands (eval_threads 0 cols phen) [].

(** Lines 102-149, after the loop. *)
Definition eval_rest (cols phen : list (list T)) (s1 : st T N) : res (st T N) :=
  let s1 := set_t_gens (t_gens s1 ++ [firstn (length cols) (s_cands (t_sol s1))]) s1 in
  do s2 <- (if g_uh g then perform_uh no e g cols phen s1 else Ok s1);
  let nfcalls := Z.of_nat (length cols) + (if g_uh g then Z.of_nat (Nat.min (s_reev (t_sol s2)) (length cols)) else 0) in
  do s3 <- elitist g (length cols) s2;
  Ok (update_fevals nfcalls s3).

(** eval with the parallel loop under some complete schedule. *)
Definition eval_par (cols phen : list (list T)) (s s' : st T N) : Prop :=
  exists sched ps,
    prun sched (eval_loop cols phen (s_cands (t_sol s))) = Some ps /\ finished ps /\
    eval_rest cols phen (set_t_log (t_log s ++ p_trace ps) (set_t_sol (set_s_cands (p_mem ps) (t_sol s)) s)) = Ok s'.
End EvalPar.

(** Two states that differ at most in the order of the logged calls. *)
Definition same_but_order {T N} (s s' : st T N) : Prop :=
  t_sol s' = t_sol s /\ t_nevals s' = t_nevals s /\ t_niter s' = t_niter s /\ t_initel s' = t_initel s /\
  t_x0 s' = t_x0 s /\ t_gens s' = t_gens s /\ Permutation (t_log s') (t_log s).
