(** Specification vocabulary for the search: histories of API calls, order
    statistics, stability. *)
From Coq Require Import Permutation.
From Verif Require Import Base Dbl Config Search.
Local Open Scope Z_scope.

Section SpecSearch.
Context {T N : Type}.
Variable no : numops T N.
Variable e : env T N.
Variable g : cfg T.

(** The calls a user can make on a strategy object. *)
Inductive op :=
| OAsk
| OEval (cols phen : list (list T))
| OTell
| OInc
| OStop
| OGen (cols phen : list (list T))   (* eval(cols,phen); tell(); inc_iter() *)
| OOptimize (rfuel fuel : nat).

Definition do_op (o : op) (s : st T N) : res (st T N) :=
  match o with
  | OAsk => do p <- ask no e g s; Ok (snd p)
  | OEval cols phen => eval no e g cols phen s
  | OTell => tell no e g s
  | OInc => Ok (inc_iter s)
  | OStop => do p <- stop no e g s; Ok (snd p)
  | OGen cols phen =>
      do s1 <- eval no e g cols phen s; do s2 <- tell no e g s1; Ok (inc_iter s2)
  | OOptimize rf fuel => do p <- optimize no e g (round no e g) rf fuel s; Ok (snd p)
  end.
Fixpoint run_ops (h : list op) (s : st T N) : res (st T N) :=
  match h with
  | [] => Ok s
  | o :: h' => do s' <- do_op o s; run_ops h' s'
  end.

(** Histories in which every evaluated population has lambda points and is
    told before anything else happens to it. *)
Definition whole_gen (o : op) : Prop :=
  match o with
  | OEval _ _ | OTell | OInc => False
  | OGen cols _ => length cols = g_lambda g
  | _ => True
  end.

(** The sampler produces the number of points it is asked for. *)
Definition samples_ok : Prop := forall k n, length (fst (n_sample no k n)) = k.

(** No value returned by the objective is NaN. *)
Definition no_nan : Prop := forall k x, e_f e k x <> NaN.

Definition no_elitism : Prop := g_elit g = mkElit false false false.

End SpecSearch.
Arguments op T : clear implicits.

(** First candidate of least value, in evaluation order. *)
Fixpoint first_min {T} (l : list (cand T)) : option (cand T) :=
  match l with
  | [] => None
  | c :: l' => match first_min l' with
               | None => Some c
               | Some d => Some (if dlt (c_f d) (c_f c) then d else c)
               end
  end.

(** [v] is the value at position [k] (from 0) of the sorted values of [l]. *)
Definition order_stat (k : nat) (l : list dbl) (v : dbl) : Prop :=
  In v l /\
  (length (filter (fun u => dlt u v) l) <= k)%nat /\
  (k < length (filter (fun u => dle u v) l))%nat.

(** The last [k] elements of a list. *)
Definition lastn {A} (k : nat) (l : list A) : list A := skipn (length l - k) l.

(** Non-decreasing values. *)
Fixpoint ascending {T} (l : list (cand T)) : Prop :=
  match l with
  | c :: ((d :: _) as l') => dle (c_f c) (c_f d) = true /\ ascending l'
  | _ => True
  end.
(** Equal values keep their order. *)
Definition stable {T} (before after : list (cand T)) : Prop :=
  forall v, filter (fun c => deq (c_f c) v) after = filter (fun c => deq (c_f c) v) before.

(** The median of a list of values: the middle value, or half the sum of the
    two middle values. *)
Definition is_median (l : list dbl) (m : dbl) : Prop :=
  let n := length l in
  if Nat.even n then exists a b, order_stat (n / 2 - 1) l a /\ order_stat (n / 2) l b /\ m = dhalf (dadd a b)
  else order_stat (n / 2) l m.

(** optimize() evaluates the initial point when asked to; this excludes asking
    for it and then calling optimize() on an optimiser already in use. *)
Definition single_start {T} (g : cfg T) (h : list (op T)) : Prop :=
  g_init_fvalue g = false \/ forall rf fuel, ~ In (OOptimize rf fuel) (tl h).
