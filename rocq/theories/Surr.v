(** Model of the surrogate strategies: src/surrogatestrategy.cc,
    include/libcmaes/surrogatestrategy.h, on top of the default strategy (the
    template argument TStrategy is CMAStrategy).  Errors are exact fractions; a
    NaN error is [None].  Training and prediction are supplied by the user. *)
From Coq Require Import QArith Qround.
From Verif Require Import Base Dbl Config Search.
Local Open Scope Z_scope.

Section Surr.
Context {T N M : Type}.

(** What the user and the standard library supply: training, prediction
    (surrogatestrategy.h:38-46; [None] leaves the values as they are, as an
    untrained ranking SVM does), std::sort on candidates, and the ranks drawn
    from _gen0 and _gen1, which are floor(prelambda*|N|) and floor(lambda*|N|). *)
Record surrops := mkSO {
  p_train : list (cand T) -> N -> M -> M;
  p_predict : M -> list (cand T) -> N -> list (list T) -> option (list dbl);
  p_sort : (cand T -> cand T -> bool) -> list (cand T) -> list (cand T);
  p_draw0 : nat -> nat;
  p_draw1 : nat -> nat
}.

(** Members of SurrogateStrategy (surrogatestrategy.h:203-215) and
    ACMSurrogateStrategy (surrogatestrategy.h:417-426). *)
Record surr := mkSurr {
  u_st : st T N;  (* the optimiser *)
  u_l : Z;  (* _l *)
  u_exploit : bool;  (* _exploit *)
  u_tset : list (cand T);  (* _tset *)
  u_model : M;  (* what train has stored *)
  u_train_err : option Q;  (* _train_err; None: NaN *)
  u_test_err : option Q;  (* _test_err *)
  u_smooth : option Q;  (* _smooth_test_err *)
  u_nsteps : Z;  (* _nsteps *)
  u_auto : bool;  (* _auto_nsteps *)
  u_flags : list (Z * bool);  (* active flags of the stopping criteria *)
  u_lambdap : Z;  (* _lambdaprime *)
  u_prelam : Z;  (* _prelambda *)
  u_k0 : nat;  (* numbers drawn from _gen0 *)
  u_k1 : nat;  (* numbers drawn from _gen1 *)
  u_since : nat  (* ghost: generations evaluated before the training set was last reset *)
}.
Definition set_u_st (v : st T N) (u : surr) : surr := mkSurr v (u_l u) (u_exploit u) (u_tset u) (u_model u) (u_train_err u) (u_test_err u) (u_smooth u) (u_nsteps u) (u_auto u) (u_flags u) (u_lambdap u) (u_prelam u) (u_k0 u) (u_k1 u) (u_since u).
Definition set_u_l (v : Z) (u : surr) : surr := mkSurr (u_st u) v (u_exploit u) (u_tset u) (u_model u) (u_train_err u) (u_test_err u) (u_smooth u) (u_nsteps u) (u_auto u) (u_flags u) (u_lambdap u) (u_prelam u) (u_k0 u) (u_k1 u) (u_since u).
Definition set_u_exploit (v : bool) (u : surr) : surr := mkSurr (u_st u) (u_l u) v (u_tset u) (u_model u) (u_train_err u) (u_test_err u) (u_smooth u) (u_nsteps u) (u_auto u) (u_flags u) (u_lambdap u) (u_prelam u) (u_k0 u) (u_k1 u) (u_since u).
Definition set_u_tset (v : list (cand T)) (u : surr) : surr := mkSurr (u_st u) (u_l u) (u_exploit u) v (u_model u) (u_train_err u) (u_test_err u) (u_smooth u) (u_nsteps u) (u_auto u) (u_flags u) (u_lambdap u) (u_prelam u) (u_k0 u) (u_k1 u) (u_since u).
Definition set_u_model (v : M) (u : surr) : surr := mkSurr (u_st u) (u_l u) (u_exploit u) (u_tset u) v (u_train_err u) (u_test_err u) (u_smooth u) (u_nsteps u) (u_auto u) (u_flags u) (u_lambdap u) (u_prelam u) (u_k0 u) (u_k1 u) (u_since u).
Definition set_u_train_err (v : option Q) (u : surr) : surr := mkSurr (u_st u) (u_l u) (u_exploit u) (u_tset u) (u_model u) v (u_test_err u) (u_smooth u) (u_nsteps u) (u_auto u) (u_flags u) (u_lambdap u) (u_prelam u) (u_k0 u) (u_k1 u) (u_since u).
Definition set_u_test_err (v : option Q) (u : surr) : surr := mkSurr (u_st u) (u_l u) (u_exploit u) (u_tset u) (u_model u) (u_train_err u) v (u_smooth u) (u_nsteps u) (u_auto u) (u_flags u) (u_lambdap u) (u_prelam u) (u_k0 u) (u_k1 u) (u_since u).
Definition set_u_smooth (v : option Q) (u : surr) : surr := mkSurr (u_st u) (u_l u) (u_exploit u) (u_tset u) (u_model u) (u_train_err u) (u_test_err u) v (u_nsteps u) (u_auto u) (u_flags u) (u_lambdap u) (u_prelam u) (u_k0 u) (u_k1 u) (u_since u).
Definition set_u_nsteps (v : Z) (u : surr) : surr := mkSurr (u_st u) (u_l u) (u_exploit u) (u_tset u) (u_model u) (u_train_err u) (u_test_err u) (u_smooth u) v (u_auto u) (u_flags u) (u_lambdap u) (u_prelam u) (u_k0 u) (u_k1 u) (u_since u).
Definition set_u_auto (v : bool) (u : surr) : surr := mkSurr (u_st u) (u_l u) (u_exploit u) (u_tset u) (u_model u) (u_train_err u) (u_test_err u) (u_smooth u) (u_nsteps u) v (u_flags u) (u_lambdap u) (u_prelam u) (u_k0 u) (u_k1 u) (u_since u).
Definition set_u_flags (v : list (Z * bool)) (u : surr) : surr := mkSurr (u_st u) (u_l u) (u_exploit u) (u_tset u) (u_model u) (u_train_err u) (u_test_err u) (u_smooth u) (u_nsteps u) (u_auto u) v (u_lambdap u) (u_prelam u) (u_k0 u) (u_k1 u) (u_since u).
Definition set_u_lambdap (v : Z) (u : surr) : surr := mkSurr (u_st u) (u_l u) (u_exploit u) (u_tset u) (u_model u) (u_train_err u) (u_test_err u) (u_smooth u) (u_nsteps u) (u_auto u) (u_flags u) v (u_prelam u) (u_k0 u) (u_k1 u) (u_since u).
Definition set_u_prelam (v : Z) (u : surr) : surr := mkSurr (u_st u) (u_l u) (u_exploit u) (u_tset u) (u_model u) (u_train_err u) (u_test_err u) (u_smooth u) (u_nsteps u) (u_auto u) (u_flags u) (u_lambdap u) v (u_k0 u) (u_k1 u) (u_since u).
Definition set_u_k0 (v : nat) (u : surr) : surr := mkSurr (u_st u) (u_l u) (u_exploit u) (u_tset u) (u_model u) (u_train_err u) (u_test_err u) (u_smooth u) (u_nsteps u) (u_auto u) (u_flags u) (u_lambdap u) (u_prelam u) v (u_k1 u) (u_since u).
Definition set_u_k1 (v : nat) (u : surr) : surr := mkSurr (u_st u) (u_l u) (u_exploit u) (u_tset u) (u_model u) (u_train_err u) (u_test_err u) (u_smooth u) (u_nsteps u) (u_auto u) (u_flags u) (u_lambdap u) (u_prelam u) (u_k0 u) v (u_since u).
Definition set_u_since (v : nat) (u : surr) : surr := mkSurr (u_st u) (u_l u) (u_exploit u) (u_tset u) (u_model u) (u_train_err u) (u_test_err u) (u_smooth u) (u_nsteps u) (u_auto u) (u_flags u) (u_lambdap u) (u_prelam u) (u_k0 u) (u_k1 u) v.

Variable so : surrops.
Variable no : numops T N.
Variable e : env T N.
Variable g : cfg T.

(** The configuration with the current flags, and with another population size. *)
Definition with_flags (u : surr) : cfg T := set_g_flags (u_flags u) g.
Definition full (u : surr) : bool := u_l u <=? Z.of_nat (length (u_tset u)).

(** Candidate::set_x, set_fvalue, set_rank. *)
Definition with_x (x : list T) (c : cand T) : cand T := mkCand (c_f c) x (c_id c) (c_r c).
Definition with_f (v : dbl) (c : cand T) : cand T := mkCand v (c_x c) (c_id c) (c_r c).
Definition with_rank (r : Z) (c : cand T) : cand T := mkCand (c_f c) (c_x c) (c_id c) r.
(** predict: the values are written to the candidates. *)
Fixpoint set_values (vs : list dbl) (cs : list (cand T)) : list (cand T) :=
  match vs, cs with v :: vs', c :: cs' => with_f v c :: set_values vs' cs' | _, _ => cs end.
Definition predict (u : surr) (cs : list (cand T)) : list (cand T) :=
  match p_predict so (u_model u) (u_tset u) (s_num (t_sol (u_st u))) (map c_x cs) with
  | Some vs => set_values vs cs
  | None => cs
  end.
(** train *)
Definition train (u : surr) : surr :=
  set_u_model (p_train so (u_tset u) (s_num (t_sol (u_st u))) (u_model u)) u.
(** std::sort: undefined unless the comparison is a strict weak order. *)
Definition std_sort_c (cmp : cand T -> cand T -> bool) (l : list (cand T)) : res (list (cand T)) :=
  if swo_on cmp l then Ok (p_sort so cmp l) else Fault BadCompare.

(** add_to_training_set, surrogatestrategy.cc:70-75. *)
Definition add_tset (c : cand T) (u : surr) : surr :=
  let t := u_tset u ++ [c] in
  set_u_tset (if u_l u <? Z.of_nat (length t) then tl t else t) u.
(** reset_training_set, surrogatestrategy.h:190-195. *)
Definition reset_training_set (u : surr) : surr :=
  set_u_since (length (t_gens (u_st u))) (set_u_tset [] (set_u_train_err (Some 0%Q) (set_u_test_err (Some 0%Q)
    (set_u_smooth (Some (1 # 2)) u)))).
(** compute_error, surrogatestrategy.cc:78-98: the number of pairs in the wrong
    order, over n(n-1)/2; 0 times an infinite factor is NaN. *)
Definition desc (a b : cand T) : bool := dlt (c_f b) (c_f a).
Fixpoint inversions (l : list (cand T)) : nat :=
  match l with
  | [] => 0%nat
  | c :: l' => (length (filter (fun d => negb (dle (c_f d) (c_f c))) l') + inversions l')%nat
  end.
Definition compute_error (test : list (cand T)) (u : surr) : res (option Q) :=
  do l <- std_sort_c desc test;
  let n := Z.of_nat (length l) in
  Ok (if n <? 2 then None
      else Some (inject_Z (Z.of_nat (inversions (predict u l))) * (2 / inject_Z (n * (n - 1))))%Q).
(** set_test_error, surrogatestrategy.cc:101-105. *)
Definition set_test_error (err : option Q) (u : surr) : surr :=
  set_u_test_err err (set_u_smooth
    (match u_smooth u, err with Some s, Some x => Some ((1 - (1 # 5)) * s + (1 # 5) * x)%Q | _, _ => None end) u).
(** set_nsteps, surrogatestrategy.h:180-185. *)
Definition set_nsteps (n : Z) (u : surr) : surr :=
  let u := set_u_nsteps n u in if n <? 0 then set_u_auto true u else u.
(** niter % nsteps == 0 *)
Definition every (u : surr) : res bool :=
  if u_nsteps u =? 0 then Fault DivByZero else Ok (Z.rem (t_niter (u_st u)) (u_nsteps u) =? 0).

(** * SimpleSurrogateStrategy *)
(** Constructor, surrogatestrategy.cc:35-37 and 109-120; [l] is
    floor(30*sqrt(dim)). *)
Definition base_new (l : Z) (m : M) (s : st T N) (flags : list (Z * bool)) : surr :=
  mkSurr s l true [] m (Some 0%Q) (Some 0%Q) (Some (1 # 2)) 1 false flags 0 500 0 0 0.
Definition simple_new (l : Z) (m : M) (x0 : list T) (n : N) : res surr :=
  do s <- st_new no g x0 n;
  Ok (base_new l m s (set_criteria_active (set_criteria_active (g_flags g) 6 false) 7 false)).
(** compute_lifelength, surrogatestrategy.cc:193-197; a NaN has no integer value. *)
Definition compute_lifelength (u : surr) : res Z :=
  match u_smooth u with
  | None => Fault IntCast
  | Some s => Ok (Z.max 1 (Qfloor (((9 # 20) - s) / (9 # 20) * 20)) + 1)
  end.
(** eval on the true function: lines 137-152, without the flags. *)
Definition true_eval (cols phen : list (list T)) (u : surr) : res surr :=
  do s <- eval no e (with_flags u) cols phen (u_st u);
  Ok (fold_left (fun u c => add_tset c u) (s_cands (t_sol s)) (set_u_st s u)).
Definition test_step (u : surr) : res surr :=
  if negb (t_niter (u_st u) =? 0) && full u then
    do err <- compute_error (s_cands (t_sol (u_st u))) u; Ok (set_test_error err u)
  else Ok u.
(** The loop of lines 160-168. *)
Fixpoint predict_cols (r : Z) (cols : list (list T)) (u : surr) : res surr :=
  match cols with
  | [] => Ok u
  | x :: cols' =>
      let s := u_st u in
      do c <- at_ (s_cands (t_sol s)) r;
      do cs <- upd_at (s_cands (t_sol s)) r (with_x x c);
      predict_cols (r + 1) cols' (set_u_st (set_t_sol (set_s_cands (predict u cs) (t_sol s)) s) u)
  end.
(** eval, surrogatestrategy.cc:128-169.  The second operand of the condition is
    only evaluated when the surrogate is exploited. *)
Definition simple_eval (cols phen : list (list T)) (u : surr) : res surr :=
  do ev <- (if u_exploit u then every u else Ok true);
  if ev || negb (full u) then
    let u := set_u_flags (set_criteria_active (u_flags u) 10 true) u in
    do u <- test_step u;
    do u <- (if negb (t_niter (u_st u) =? 0) && full u && u_auto u then
               do n <- compute_lifelength u; Ok (set_u_nsteps n u) else Ok u);
    true_eval cols phen u
  else
    predict_cols 0 cols (set_u_flags (set_criteria_active (u_flags u) 10 false) u).
(** do_train, surrogatestrategy.h:276-281. *)
Definition simple_do_train (u : surr) : res bool :=
  if negb (u_exploit u) && full u then Ok true
  else do ev <- (if t_niter (u_st u) =? 0 then Ok true else every u); Ok (ev && full u).
(** tell, lines 172-182. *)
Definition simple_tell (u : surr) : res surr :=
  do s <- tell no e (with_flags u) (u_st u);
  let u := set_u_st s u in
  do b <- simple_do_train u;
  Ok (if b : bool then train u else u).
Definition lift_ask (f : st T N -> res (list (list T) * st T N)) (u : surr) : res (list (list T) * surr) :=
  do p <- f (u_st u); Ok (fst p, set_u_st (snd p) u).
Definition simple_ask (u : surr) : res (list (list T) * surr) := lift_ask (ask no e (with_flags u)) u.

(** * ACMSurrogateStrategy *)
(** Constructor, lines 201-208. *)
Definition acm_new (l : Z) (m : M) (x0 : list T) (n : N) : res surr :=
  do s <- st_new no g x0 n;
  let lambda := Z.of_nat (g_lambda g) in
  Ok (set_u_lambdap (lambda / 3) (set_u_prelam (50 * lambda)
        (base_new l m s (set_criteria_active (g_flags g) 6 false)))).
(** ask, lines 225-244. *)
Definition acm_ask (u : surr) : res (list (list T) * surr) :=
  let u := if t_niter (u_st u) =? 0 then
             reset_training_set (match u_tset u with [] => u | _ => set_u_prelam (50 * Z.of_nat (g_lambda g)) u end)
           else u in
  let c := with_flags u in
  lift_ask (ask no e (if u_exploit u && full u then set_g_lambda (Z.to_nat (u_prelam u)) c else c)) u.
(** First selection, lines 340-359; [used] is uh. *)
Definition drawn (a : nat) (used : list nat) : bool := existsb (Nat.eqb a) used.
Fixpoint select0 (fuel : nat) (pop : list (cand T)) (used : list nat) (nc : list (cand T)) (k : nat) : res (list (cand T) * nat) :=
  if (length nc <? g_lambda g)%nat then
    match fuel with
    | O => Fault Diverges
    | S fuel' =>
        let a := p_draw0 so k in
        match nth_error pop a with
        | Some c =>
            if drawn a used then select0 fuel' pop used nc (S k)
            else select0 fuel' pop (a :: used) (nc ++ [with_rank (Z.of_nat a) c]) (S k)
        | None => select0 fuel' pop used nc (S k)
        end
    end
  else Ok (nc, k).
(** One true evaluation, lines 366-369 and 381-387; the candidate, evaluated, is
    written back and added to the test set. *)
Definition eval_one (i : nat) (nc test : list (cand T)) (u : surr) : res (list (cand T) * list (cand T) * surr) :=
  do c <- at_ nc (Z.of_nat i);
  do y <- e_pheno e (c_x c);
  let (v, s1) := call e y (u_st u) in
  let c := with_f v c in
  do nc <- upd_at nc (Z.of_nat i) c;
  let u := add_tset c (set_u_st s1 u) in
  Ok (nc, test ++ [c], set_u_st (update_fevals 1 (u_st u)) u).
(** Second selection, lines 373-390. *)
Fixpoint select1 (fuel : nat) (count : Z) (used : list nat) (nc test : list (cand T)) (u : surr)
    : res (list (cand T) * list (cand T) * list nat * surr) :=
  if count <? u_lambdap u then
    match fuel with
    | O => Fault Diverges
    | S fuel' =>
        let a := p_draw1 so (u_k1 u) in
        let u := set_u_k1 (S (u_k1 u)) u in
        if (a <? length nc)%nat && negb (drawn a used) then
          do q <- eval_one a nc test u;
          let '(nc, test, u) := q in select1 fuel' (count + 1) (a :: used) nc test u
        else select1 fuel' count used nc test u
    end
  else Ok (nc, test, used, u).
(** Lines 391-393: the largest double for the candidates left. *)
Fixpoint fill_max (i : nat) (used : list nat) (nc : list (cand T)) : list (cand T) :=
  match nc with
  | [] => []
  | c :: nc' => (if (i =? 0)%nat || drawn i used then c else with_f dbl_max c) :: fill_max (S i) used nc'
  end.
Definition asc (a b : cand T) : bool := dlt (c_f a) (c_f b).
(** Comparison of lines 395-402. *)
Definition asc_rank (a b : cand T) : bool :=
  if dlt (c_f a) (c_f b) then true else if deq (c_f a) (c_f b) then c_r a <? c_r b else false.
(** pre_selection_eval, lines 318-406; the evaluated candidates are recorded as
    one generation in the ghost field. *)
Definition pre_selection_eval (fuel : nat) (cols : list (list T)) (u : surr) : res surr :=
  let pop := predict u (map (fun x => mkCand (Fin 0) x (-1) (-1)) cols) in
  do sl <- sort_candidates (set_s_cands pop (t_sol (u_st u)));
  let u := set_u_st (set_t_sol sl (u_st u)) u in
  do c0 <- at_ (s_cands sl) 0;
  do q0 <- select0 fuel (s_cands sl) [0%nat] [with_rank 0 c0] (u_k0 u);
  let u := set_u_k0 (snd q0) u in
  do nc <- std_sort_c asc (fst q0);
  do q1 <- eval_one 0 nc [] u;
  let '(nc, test, u) := q1 in
  do q2 <- select1 fuel 1 [0%nat] nc test u;
  let '(nc, test, used, u) := q2 in
  do nc <- std_sort_c asc_rank (fill_max 0 used nc);
  do err <- compute_error test u;
  let u := set_test_error err u in
  let s := u_st u in
  Ok (set_u_st (set_t_gens (t_gens s ++ [test]) (set_t_sol (set_s_cands nc (t_sol s)) s)) u).
(** eval, lines 247-272. *)
Definition acm_eval (fuel : nat) (cols phen : list (list T)) (u : surr) : res surr :=
  if u_exploit u && full u then pre_selection_eval fuel cols u
  else do u <- test_step u; true_eval cols phen u.
(** tell, lines 275-307: no uncertainty handling, no two-point adaptation. *)
Definition acm_do_train (u : surr) : res bool :=
  if full u then Ok true
  else do ev <- (if t_niter (u_st u) =? 0 then Ok true else every u); Ok (ev && full u).
Definition acm_tell (u : surr) : res surr :=
  do s1 <- (if negb (u_exploit u) || negb (full u) then sort_candidates (t_sol (u_st u)) else Ok (t_sol (u_st u)));
  do s2 <- update_best_candidates no s1;
  let s3 := set_s_num (n_update no (s_niter s2) (map c_x (s_cands s2)) (s_num s2)) s2 in
  let u := set_u_st (set_t_sol s3 (u_st u)) u in
  do b <- acm_do_train u;
  if b : bool then
    let u := train u in do err <- compute_error (u_tset u) u; Ok (set_u_train_err err u)
  else Ok u.

(** * Optimisation loop, cmastrategy.cc:335-389 with the functions above *)
Definition lift (f : st T N -> res (st T N)) (u : surr) : res surr := do s <- f (u_st u); Ok (set_u_st s u).
Definition simple_round (u : surr) : res surr :=
  do p <- simple_ask u;
  do ph <- mapM (e_pheno e) (fst p);
  do u <- simple_eval (fst p) ph (snd p);
  do u <- simple_tell u;
  Ok (set_u_st (inc_iter (u_st u)) u).
Definition acm_round (fuel : nat) (u : surr) : res surr :=
  do p <- acm_ask u;
  do ph <- mapM (e_pheno e) (fst p);
  do u <- acm_eval fuel (fst p) ph (snd p);
  do u <- acm_tell u;
  Ok (set_u_st (inc_iter (u_st u)) u).
Fixpoint surr_loop (body : surr -> res surr) (fuel : nat) (u : surr) : res surr :=
  match fuel with
  | O => Fault Diverges
  | S fuel' =>
      do p <- stop no e (with_flags u) (u_st u);
      let u := set_u_st (snd p) u in
      if fst p then Ok u else do u2 <- body u; surr_loop body fuel' u2
  end.
(** The restart of line 381 runs the default functions. *)
Definition surr_optimize (body : surr -> res surr) (rfuel fuel : nat) (u : surr) : res (Z * surr) :=
  do u1 <- lift (eval_initial no e (with_flags u)) u;
  do u2 <- surr_loop body fuel u1;
  do u3 <- (if g_edm g then lift (edm no e (with_flags u2)) u2 else Ok u2);
  do w <- restart_wanted no (with_flags u3) (u_st u3);
  do u4 <- (if w : bool then
              match rfuel with
              | O => Fault Diverges
              | S rf => lift (fun s => do s' <- reinit no (with_flags u3) s;
                                       do p <- optimize no e (with_flags u3) (round no e (with_flags u3)) rf fuel s'; Ok (snd p)) u3
              end
            else Ok u3);
  Ok ((if 0 <=? s_status (t_sol (u_st u4)) then 0 else -1), u4).
End Surr.
Arguments surr T N M : clear implicits.
Arguments surrops T N M : clear implicits.
