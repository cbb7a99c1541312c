(** Model of the configuration setters that do not touch the numeric
    parameters: elitism, stopping criteria, algorithm names, seed.
    include/libcmaes/cmaparameters.h, include/libcmaes/parameters.h. *)
From Coq Require Import Reals String Ascii.
From Verif Require Import Base Params.
Local Open Scope Z_scope.

(** _elitist, _initial_elitist, _initial_elitist_on_restart (cmaparameters.h:322-324). *)
Record elit := mkElit { e_best : bool; e_init : bool; e_restart : bool }.
Definition elit0 : elit := mkElit false false false.

(** set_elitism, cmaparameters.h:243-262.  For 0 the code assigns
    _elitist = _initial_elitist = _initial_elitist_on_restart. *)
Definition set_elitism (s : elit) (e : Z) : elit :=
  if e =? 0 then mkElit (e_restart s) (e_restart s) (e_restart s)
  else if e =? 1 then mkElit true false false
  else if e =? 2 then mkElit false true false
  else if e =? 3 then mkElit false false true
  else s.

(** Stopping criterion codes in ascending order: the keys of _scriteria,
    cmastopcriteria.h:37-52 and cmastopcriteria.cc:69-250. *)
Definition criteria_codes : list Z := [-15; -13; 1; 2; 3; 4; 5; 6; 7; 8; 9; 10].

(** _scriteria as a map from codes to the flag _active, all true at
    construction (cmastopcriteria.h:55-69). *)
Definition all_active : list (Z * bool) := map (fun c => (c, true)) criteria_codes.

(** set_criteria_active, cmastopcriteria.cc:282-289: unknown codes are ignored. *)
Definition set_criteria_active (m : list (Z * bool)) (c : Z) (b : bool) : list (Z * bool) :=
  map (fun e => if fst e =? c then (fst e, b) else e) m.

(** CMAParameters::set_stopping_criteria, cmaparameters.h:270-274
    (std::map::insert: does nothing when the key is present). *)
Definition set_stopping_criteria (m : list (Z * bool)) (c : Z) (b : bool) : list (Z * bool) :=
  map_insert m c b.

(** Activation flags of an optimiser built from the parameters, cmastrategy.cc:115-120. *)
Definition flags_of_ctor (m : list (Z * bool)) : list (Z * bool) :=
  fold_left (fun fl e => set_criteria_active fl (fst e) (snd e)) m all_active.
(** The same for the constructor that takes an existing solution,
    cmastrategy.cc:124-137: the configured map is not consulted. *)
Definition flags_of_ctor_from_solution (m : list (Z * bool)) : list (Z * bool) := all_active.

(** Parameters::_algos, cmaparameters.h:331 (duplicate keys of the initialiser
    list are dropped: the first one counts). *)
Definition algos : list (string * Z) :=
  [("cmaes"%string,0);("ipop"%string,1);("bipop"%string,2);("acmaes"%string,3);("aipop"%string,4);("abipop"%string,5);
   ("sepcmaes"%string,6);("sepipop"%string,7);("sepbipop"%string,8);("sepacmaes"%string,9);("sepipop"%string,10);
   ("sepbipop"%string,11);("vdcma"%string,12);("vdipopcma"%string,13);("vdbipopcma"%string,14)].
Fixpoint algo_find (l : list (string * Z)) (s : string) : option Z :=
  match l with
  | [] => None
  | (k, v) :: l' => if String.eqb k s then Some v else algo_find l' s
  end.

(** std::string::find(sub) != npos. *)
Fixpoint contains (sub s : string) : bool :=
  String.prefix sub s || match s with EmptyString => false | String _ s' => contains sub s' end.

(** set_str_algo, cmaparameters.h:140-150. *)
Definition set_str_algo (name : string) (p : cpar) : cpar :=
  let p := match algo_find algos name with Some a => set_algo a p | None => p end in
  let p := if contains "sep" name then set_sep p else p in
  if contains "vd" name then set_vd p else p.

(** _seed (uint64_t).  Constructor, parameters.h:74-83: 0 asks for the clock. *)
Definition ctor_seed (seed clock : Z) : Z := if seed =? 0 then clock else seed.
(** set_seed, parameters.h:277-282, with the clock reading the call would
    make; the int argument is converted to uint64_t. *)
Definition set_seed (cur : Z) (seed clock : Z) : Z :=
  if cur =? 0 then clock else seed mod 2 ^ 64.
(** get_seed, parameters.h:288-291: conversion of uint64_t to a 32-bit int. *)
Definition get_seed (cur : Z) : Z :=
  let r := cur mod 2 ^ 32 in if r <? 2 ^ 31 then r else r - 2 ^ 32.
