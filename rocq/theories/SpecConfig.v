(** Specification vocabulary for configuration histories. *)
From Coq Require Import Reals String.
From Verif Require Import Base Params SpecParams Config.
Local Open Scope Z_scope.

(** Last element of a history satisfying a test. *)
Fixpoint last_such {A} (P : A -> bool) (h : list A) : option A :=
  match h with
  | [] => None
  | a :: h' => match last_such P h' with
               | Some b => Some b
               | None => if P a then Some a else None
               end
  end.

(** First element of a history satisfying a test. *)
Definition first_such {A} (P : A -> bool) (h : list A) : option A := List.find P h.

(** Fixed-parameter calls concerning index [i]. *)
Definition about (i : Z) (a : adapt) : bool :=
  match a with Fix j _ => j =? i | Unfix j => j =? i | _ => false end.
(** A history made of set_fixed_p / unset_fixed_p calls only. *)
Definition fix_calls (h : list adapt) : Prop :=
  forall a, In a h -> exists i, about i a = true.

Definition valid_elitism (e : Z) : bool := (0 <=? e) && (e <=? 3).

(** The documented algorithm names and their codes (cmaes.h enum order). *)
Definition documented : list (string * Z) :=
  [("cmaes",0);("ipop",1);("bipop",2);("acmaes",3);("aipop",4);("abipop",5);("sepcmaes",6);
   ("sepipop",7);("sepbipop",8);("sepacmaes",9);("sepaipop",10);("sepabipop",11);("vdcma",12);
   ("vdipopcma",13);("vdbipopcma",14)]%string.

(** Parameters after a history of calls on a fresh object. *)
Definition run_hist (n lambda : nat) (h : list adapt) : cpar := fold_left do_adapt h (cma_params n lambda).

(** Requested stopping-criterion settings after a history of calls
    set_stopping_criteria(code, active); the calls that concern a code. *)
Definition stop_map (h : list (Z * bool)) : list (Z * bool) :=
  fold_left (fun m e => set_stopping_criteria m (fst e) (snd e)) h [].
Definition for_code (c : Z) (e : Z * bool) : bool := fst e =? c.

(** Elitism flags after a history of set_elitism calls; the flags a call asks for. *)
Definition elit_run (h : list Z) : elit := fold_left set_elitism h elit0.
Definition expected_elit (o : option Z) : elit :=
  match o with
  | Some e => mkElit (e =? 1) (e =? 2) (e =? 3)
  | None => elit0
  end.
Definition nonzero_elitism (e : Z) : bool := (1 <=? e) && (e <=? 3).

(** Seed after a history of set_seed calls, each with the clock reading it
    would make if it consulted the clock. *)
Definition seed_run (s0 : Z) (h : list (Z * Z)) : Z :=
  fold_left (fun cur e => set_seed cur (fst e) (snd e)) h s0.
