(** Specification of the elitist restart, set_elitism(3). *)
From Verif Require Import Base Dbl Config Search SpecSearch.
Local Open Scope Z_scope.

Section SpecElitRestart.
Context {T N : Type}.
Variable no : numops T N.
Variable e : env T N.
Variable g : cfg T.

(** set_elitism(3), and no value asked for the initial point. *)
Definition scheme3 : Prop := g_elit g = mkElit false false true /\ g_init_fvalue g = false.
(** The objective is a function of the point. *)
Definition computes (f : list T -> dbl) : Prop := forall k x, e_f e k x = f x.
(** A new solution object has the given point for its mean: no scaling, and the
    point agrees with the fixed parameters. *)
Definition starts_where_told : Prop := forall x n, length x = g_dim g -> n_xmean no (n_new no x n) = x.

(** One run of the search loop, from the state [a] to the state [b] in which the
    test for a restart takes place. *)
Definition one_run (fuel : nat) (a b : st T N) : Prop :=
  exists s1 s2, eval_initial no e g a = Ok s1 /\ loop no e g (round no e g) fuel s1 = Ok s2 /\
    (if g_edm g then edm no e g s2 = Ok b else b = s2).
(** The best candidate of the last generation is worse than the best one seen,
    which is at least three iterations old. *)
Definition overtaken (b : st T N) : Prop :=
  dlt (c_f (s_best (t_sol b))) (c_f (best_candidate no (t_sol b))) = true /\
  exists i, s_best_iter (t_sol b) = Some i /\ 3 <= t_niter b - i.
(** [c] starts again from the best point of [b], with the calls made so far and
    nothing else. *)
Definition starts_again (b c : st T N) : Prop :=
  t_x0 c = c_x (s_best (t_sol b)) /\ t_log c = t_log b /\ t_nevals c = t_nevals b /\ t_niter c = 0 /\
  t_initel c = true /\ s_hist (t_sol c) = [] /\ s_niter (t_sol c) = 0 /\ s_nevals (t_sol c) = t_nevals b /\
  s_best_iter (t_sol c) = None /\ s_status (t_sol c) = 0.
(** The runs of a search started in [a], each with its first and last state. *)
Inductive runs (fuel : nat) : st T N -> list (st T N * st T N) -> st T N -> Prop :=
| runs_last a b : one_run fuel a b -> ~ overtaken b -> runs fuel a [(a, b)] b
| runs_more a b c l z : one_run fuel a b -> overtaken b -> starts_again b c -> runs fuel c l z ->
    runs fuel a ((a, b) :: l) z.

(** The states in which a run of the search loop begins. *)
Inductive run_start (fuel : nat) (x0 : list T) (n : N) : st T N -> Prop :=
| start_new a : st_new no g x0 n = Ok a -> run_start fuel x0 n a
| start_over a b c : run_start fuel x0 n a -> one_run fuel a b -> overtaken b -> reinit no g b = Ok c -> run_start fuel x0 n c.

(** The candidate [c] has the value of the objective at its point. *)
Definition valued (f : list T -> dbl) (c : cand T) : Prop :=
  exists y, e_pheno e (c_x c) = Ok y /\ c_f c = f y.
End SpecElitRestart.
