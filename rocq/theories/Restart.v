(** Model of the restart strategies: src/ipopcmastrategy.cc,
    src/bipopcmastrategy.cc.  An inner run is the [optimize] of Search.v; its
    numeric part depends on the population size and on the initial step size.
    Random draws of BIPOP are an oracle; powers and ceilings are exact. *)
From Coq Require Import Reals.
From Verif Require Import Base Dbl Config Search.
Local Open Scope Z_scope.

Definition int_max : Z := 2147483647.

(** Parameters that the restart strategies change between runs. *)
Record rpar := mkRpar {
  q_lambda : nat;  (* _lambda *)
  q_sigma : R;     (* _sigma_init *)
  q_maxf : Z       (* _max_fevals *)
}.
Definition with_q_lambda (l : nat) (p : rpar) : rpar := mkRpar l (q_sigma p) (q_maxf p).
Definition with_q_sigma (x : R) (p : rpar) : rpar := mkRpar (q_lambda p) x (q_maxf p).
Definition with_q_maxf (m : Z) (p : rpar) : rpar := mkRpar (q_lambda p) (q_sigma p) m.

(** floor(_rlambda * _lambda) with _rlambda = max(0.1, 2/_lambda) as set by
    initialize_parameters, cmaparameters.cc:116 (exact arithmetic). *)
Definition reev_of (l : nat) : nat := Nat.max (l / 10) 2.

Section Restart.
Context {T N : Type}.
Variable ops : nat -> R -> numops T N.  (* by population size and initial step size *)
Variable e : env T N.
Variable g : cfg T.                     (* the settings that do not change *)
Notation sol := (sol T N).
Notation st := (st T N).

Definition ops_at (p : rpar) : numops T N := ops (q_lambda p) (q_sigma p).
Definition cfg_at (p : rpar) : cfg T :=
  set_g_max_fevals (q_maxf p) (set_g_reev (reev_of (q_lambda p)) (set_g_lambda (q_lambda p) g)).

(** Ghost record of an inner run: its kind, its parameters, the strategy before
    and after. *)
Record urun := mkU { u_small : bool; u_par : rpar; u_before : st; u_after : st }.

(** Constructor of the strategies, ipopcmastrategy.cc:30-34 and
    bipopcmastrategy.cc:32-45 (the second construction of the solution in the
    latter repeats the first). *)
Definition restart_new (p : rpar) (x0 : list T) (n : N) : res st := st_new (ops_at p) (cfg_at p) x0 n.

(** CMAStrategy::optimize with the current parameters and the default ask, eval
    and tell. *)
Definition inner (p : rpar) (rf fuel : nat) (s : st) : res st :=
  do q <- optimize (ops_at p) e (cfg_at p) (round (ops_at p) e (cfg_at p)) rf fuel s; Ok (snd q).

(** capture_best_solution, ipopcmastrategy.cc:103-107; [None] is the default
    constructed best_run. *)
Definition capture (p : rpar) (best : option sol) (s : sol) : option sol :=
  match best with
  | None => Some s
  | Some b =>
      if match s_cands b with [] => true | _ => false end
         || dlt (c_f (best_candidate (ops_at p) s)) (c_f (best_candidate (ops_at p) b))
      then Some s else best
  end.
(** lambda_inc, ipopcmastrategy.cc:87-93: _lambda *= 2.0 converts to int;
    Params.v has the other effects of initialize_parameters. *)
Definition lambda_double (p : rpar) : res rpar :=
  if int_max <? 2 * Z.of_nat (q_lambda p) then Fault IntCast else Ok (with_q_lambda (2 * q_lambda p) p).
(** reset_search_state, ipopcmastrategy.cc:96-100: the strategy keeps its
    evaluation counter. *)
Definition reset_search_state (p : rpar) (s : st) : res st :=
  do so <- sol_new (ops_at p) (cfg_at p) (t_x0 s) (s_num (t_sol s));
  Ok (set_t_niter 0 (set_t_sol so s)).

(** Return code, ipopcmastrategy.cc:82-84, bipopcmastrategy.cc:102-104; the
    status of a default constructed solution is 0. *)
Definition restart_code (best : option sol) : Z :=
  match best with None => 0 | Some b => if 0 <=? s_status b then 0 else -1 end.

(** IPOPCMAStrategy::optimize, ipopcmastrategy.cc:55-85. *)
Fixpoint ipop_loop (n rf fuel : nat) (p : rpar) (best : option sol) (runs : list urun) (s : st) : res (option sol * list urun * st) :=
  match n with
  | O => Ok (best, runs, s)
  | S n' =>
      do s1 <- inner p rf fuel s;
      let best1 := capture p best (t_sol s1) in
      let runs1 := runs ++ [mkU false p s s1] in
      do p2 <- lambda_double p;
      do s2 <- reset_search_state p2 s1;
      if (0 <? q_maxf p2) && (q_maxf p2 <=? t_nevals s2) then Ok (best1, runs1, s2)
      else ipop_loop n' rf fuel p2 best1 runs1 s2
  end.
Definition ipop (nrestarts : Z) (rf fuel : nat) (p : rpar) (s : st) : res (Z * option sol * list urun * st) :=
  do q <- ipop_loop (Z.to_nat nrestarts) rf fuel p None [] s;
  let '(best, runs, s') := q in Ok (restart_code best, best, runs, s').

(** * BIPOP *)
(** r2, bipopcmastrategy.cc:117-128: population size and step size of a small
    run from two uniform draws. *)
Definition ceilR (x : R) : Z := - Int_part (- x).
Definition r2_lambda (ldef ll : nat) (u : R) : nat :=
  Z.to_nat (ceilR (INR ldef * Rpower (0.5 * (INR ll / INR ldef)) u)).
Definition r2_sigma (us : R) : R := (2 * Rpower 10 (-2 * us))%R.

(** The strategy with the loop variables of optimize; the budgets are C++ ints,
    here unbounded. *)
Record bst := mkB {
  b_par : rpar;            (* _parameters *)
  b_ll : nat;              (* _lambda_l *)
  b_best : option sol;     (* best_run *)
  b_st : st;
  b_runs : list urun;      (* ghost *)
  b_draws : nat;           (* number of draws made *)
  b_b0 : Z;                (* budgets[0] *)
  b_b1 : Z                 (* budgets[1] *)
}.
Variable ldef : nat.        (* _lambda_def *)
Variable sigma0 : option R. (* _sigma_init; None: uninitialised *)
Variable maxf0 : option Z.  (* _max_fevals; None: uninitialised *)
Variable draw : nat -> R.   (* _unif(_gen) *)

(** Body of the while loop, lines 82-90. *)
Definition small_run (rf fuel : nat) (b : bst) : res bst :=
  let p := mkRpar (r2_lambda ldef (b_ll b) (draw (b_draws b))) (r2_sigma (draw (S (b_draws b)))) (b_b0 b / 2) in
  do s <- reset_search_state p (b_st b);
  do s1 <- inner p rf fuel s;
  Ok (mkB p (b_ll b) (capture p (b_best b) (t_sol s1)) s1 (b_runs b ++ [mkU true p s s1]) (S (S (b_draws b)))
        (b_b0 b) (b_b1 b + s_niter (t_sol s1) * Z.of_nat (q_lambda p))).
Fixpoint small_loop (k rf fuel : nat) (b : bst) : res bst :=
  match k with
  | O => Fault Diverges
  | S k' => if b_b1 b <? b_b0 b then do b' <- small_run rf fuel b; small_loop k' rf fuel b' else Ok b
  end.
(** r1, lines 107-114, and the reset, lines 91-95. *)
Definition r1 (b : bst) : res bst :=
  do p <- lambda_double (with_q_lambda (b_ll b) (b_par b));
  match sigma0 with
  | None => Fault Uninit
  | Some x =>
      let p := with_q_sigma x p in
      do s <- reset_search_state p (b_st b);
      Ok (mkB p (q_lambda p) (b_best b) s (b_runs b) (b_draws b) (b_b0 b) (b_b1 b))
  end.
(** Large run, lines 96-99. *)
Definition large_run (rf fuel : nat) (b : bst) : res bst :=
  match maxf0 with
  | None => Fault Uninit
  | Some m =>
      let p := with_q_maxf m (b_par b) in
      do s1 <- inner p rf fuel (b_st b);
      Ok (mkB p (b_ll b) (capture p (b_best b) (t_sol s1)) s1 (b_runs b ++ [mkU false p (b_st b) s1]) (b_draws b)
            (b_b0 b + s_niter (t_sol s1) * Z.of_nat (q_lambda p)) (b_b1 b))
  end.
(** The loop of lines 80-100, from r to nrestarts. *)
Fixpoint bipop_loop (n : nat) (first : bool) (rf fuel : nat) (b : bst) : res bst :=
  match n with
  | O => Ok b
  | S n' =>
      do b1 <- small_loop fuel rf fuel b;
      do b2 <- (if first then Ok b1 else r1 b1);
      do b3 <- large_run rf fuel b2;
      bipop_loop n' false rf fuel b3
  end.
(** BIPOPCMAStrategy::optimize, bipopcmastrategy.cc:73-105. *)
Definition bipop (nrestarts : Z) (rf fuel : nat) (p : rpar) (s : st) : res (Z * bst) :=
  do b <- bipop_loop (Z.to_nat nrestarts) true rf fuel (mkB p ldef None s [] 0 0 0);
  Ok (restart_code (b_best b), b).
End Restart.
Arguments urun T N : clear implicits.
Arguments bst T N : clear implicits.
