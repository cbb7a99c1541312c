(** Specification vocabulary for the surrogate strategies. *)
From Coq Require Import Permutation QArith.
From Verif Require Import Base Dbl Config Search SpecSearch SpecUh Surr.
Local Open Scope Z_scope.

(** The two strategies; for the second, the number of draws each of the two
    selection loops may take. *)
Inductive kind := Simple | ACM (draws : nat).

Section SpecSurr.
Context {T N M : Type}.
Variable so : surrops T N M.
Variable no : numops T N.
Variable e : env T N.
Variable g : cfg T.
Variable k : kind.
Notation surr := (surr T N M).

Definition k_new (l : Z) (m : M) (x0 : list T) (n : N) : res surr :=
  match k with Simple => simple_new no g l m x0 n | ACM _ => acm_new no g l m x0 n end.
Definition k_ask (u : surr) : res (list (list T) * surr) :=
  match k with Simple => simple_ask no e g u | ACM _ => acm_ask no e g u end.
Definition k_eval (cols phen : list (list T)) (u : surr) : res surr :=
  match k with Simple => simple_eval so no e g cols phen u | ACM d => acm_eval so no e g d cols phen u end.
Definition k_tell (u : surr) : res surr :=
  match k with Simple => simple_tell so no e g u | ACM _ => acm_tell so no u end.
Definition k_round (u : surr) : res surr :=
  match k with Simple => simple_round so no e g u | ACM d => acm_round so no e g d u end.

(** What a user does with a surrogate-assisted optimiser. *)
Inductive sop :=
| SAsk
| SGen (cols : list (list T))    (* eval(cols,pheno(cols)); tell(); inc_iter() *)
| SRound                         (* the same with the points of ask() *)
| SStop
| SOptimize (rfuel fuel : nat)
| SSetL (l : Z)
| SSetExploit (b : bool)
| SSetNsteps (n : Z)
| SSetLambdaprime (n : Z)
| SSetPrelambda (n : Z).
Definition do_sop (o : sop) (u : surr) : res surr :=
  match o with
  | SAsk => do p <- k_ask u; Ok (snd p)
  | SGen cols =>
      do ph <- mapM (e_pheno e) cols; do u1 <- k_eval cols ph u; do u2 <- k_tell u1;
      Ok (set_u_st (inc_iter (u_st u2)) u2)
  | SRound => k_round u
  | SStop => do p <- stop no e (with_flags g u) (u_st u); Ok (set_u_st (snd p) u)
  | SOptimize rf fuel => do p <- surr_optimize no e g k_round rf fuel u; Ok (snd p)
  | SSetL l => Ok (set_u_l l u)
  | SSetExploit b => Ok (set_u_exploit b u)
  | SSetNsteps n => Ok (set_nsteps n u)
  | SSetLambdaprime n => Ok (set_u_lambdap n u)
  | SSetPrelambda n => Ok (set_u_prelam n u)
  end.
Fixpoint run_sops (h : list sop) (u : surr) : res surr :=
  match h with
  | [] => Ok u
  | o :: h' => do u' <- do_sop o u; run_sops h' u'
  end.

(** Populations handed over by the user have lambda points. *)
Definition sized (o : sop) : Prop := match o with SGen cols => length cols = g_lambda g | _ => True end.
(** The history leaves the length of the training set alone. *)
Definition keeps_l (o : sop) : Prop := match o with SSetL _ => False | _ => True end.

(** [c] carries the value the objective returned for the user's point of [c]. *)
Definition evaluated (u : surr) (c : cand T) : Prop :=
  exists i y, nth_error (t_log (u_st u)) i = Some (y, c_f c) /\ e_pheno e (c_x c) = Ok y /\ c_f c = e_f e i y.

(** All candidates evaluated since the training set was last reset, in order. *)
Definition since_reset (u : surr) : list (cand T) := concat (skipn (u_since u) (t_gens (u_st u))).

End SpecSurr.
Arguments sop T : clear implicits.

(** What std::sort guarantees. *)
Definition cand_sort_ok {T N M} (so : surrops T N M) : Prop :=
  forall cmp l, swo_on cmp l = true -> Permutation (p_sort so cmp l) l /\ sorted_by cmp (p_sort so cmp l).

(** An error, if it is a number, is a fraction between 0 and 1. *)
Definition unit_error (q : option Q) : Prop := exists x, q = Some x /\ (0 <= x)%Q /\ (x <= 1)%Q.

(** Every index below [n] is drawn again and again. *)
Definition fair (n : nat) (draw : nat -> nat) : Prop :=
  forall a k, (a < n)%nat -> exists j, (k <= j)%nat /\ draw j = a.

(** The points and values of a list of candidates, as the objective saw them. *)
Definition as_calls {T N} (e : env T N) (cs : list (cand T)) : res (list (list T * dbl)) :=
  mapM (fun c => do y <- e_pheno e (c_x c); Ok (y, c_f c)) cs.

(** Settings under which the ranking errors are numbers: at least two points in
    every set they are computed on. *)
Definition error_op {T} (k : kind) (o : sop T) : Prop :=
  match o with
  | SSetL l => 2 <= l
  | SSetLambdaprime n => match k with Simple => True | ACM _ => 2 <= n end
  | _ => True
  end.
(** The history leaves the lifelength at its default. *)
Definition keeps_nsteps {T} (o : sop T) : Prop := match o with SSetNsteps _ => False | _ => True end.
