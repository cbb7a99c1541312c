(** Specification of the restart strategies. *)
From Coq Require Import Reals.
From Verif Require Import Base Dbl Config Search SpecSearch Restart.
Local Open Scope Z_scope.

Section SpecRestart.
Context {T N : Type}.

(** The objective seen by someone who starts after [k] calls were made. *)
Definition after (k : nat) (e : env T N) : env T N :=
  mkEnv (fun i x => e_f e (k + i) x) (e_gfunc e) (e_pheno e) (e_progress e) (e_sort e).
(** The strategy [s] with earlier calls, generations and evaluations put in front. *)
Definition behind (L : list (list T * dbl)) (G : list (list (cand T))) (K : Z) (s : st T N) : st T N :=
  mkSt (t_sol s) (K + t_nevals s) (t_niter s) (t_initel s) (t_x0 s) (L ++ t_log s) (G ++ t_gens s).

Variable ops : nat -> R -> numops T N.
Variable e : env T N.
Variable g : cfg T.
Implicit Types (u : urun T N).

(** The run is the run of a newly constructed optimiser with the parameters
    [u_par], started at the same initial point, whose objective continues after
    the calls already made. *)
Definition fresh_run u : Prop := exists n rf fuel s0 rc s1,
  restart_new ops g (u_par u) (t_x0 (u_before u)) n = Ok s0 /\
  optimize (ops_at ops (u_par u)) (after (length (t_log (u_before u))) e) (cfg_at g (u_par u))
    (round (ops_at ops (u_par u)) (after (length (t_log (u_before u))) e) (cfg_at g (u_par u))) rf fuel s0 = Ok (rc, s1) /\
  t_sol (u_after u) = t_sol s1 /\
  t_log (u_after u) = t_log (u_before u) ++ t_log s1 /\
  t_gens (u_after u) = t_gens (u_before u) ++ t_gens s1.

(** Runs follow one another: each starts from the calls made by the previous. *)
Fixpoint consecutive (calls : nat) (us : list (urun T N)) : Prop :=
  match us with
  | [] => True
  | u :: us' => length (t_log (u_before u)) = calls /\ consecutive (length (t_log (u_after u))) us'
  end.

(** Final value of a run: the value of its best_candidate. *)
Definition final_value u : dbl := c_f (best_candidate (ops_at ops (u_par u)) (t_sol (u_after u))).
(** Number of objective calls of a run. *)
Definition run_calls u : Z := Z.of_nat (length (t_log (u_after u))) - Z.of_nat (length (t_log (u_before u))).
(** Iterations times population size, and its sum over the small and the large runs. *)
Definition run_cost u : Z := s_niter (t_sol (u_after u)) * Z.of_nat (q_lambda (u_par u)).
Definition spent (small : bool) (us : list (urun T N)) : Z :=
  fold_right Z.add 0 (map run_cost (filter (fun u => Bool.eqb (u_small u) small) us)).
End SpecRestart.
