(** What the entry points are documented to run: esoptimizer.h:30-62 (the
    comments of the enumeration). *)
From Coq Require Import Reals String List.
From Verif Require Import Base Params Config SpecConfig Update Dispatch.
Import ListNotations.
Local Open Scope Z_scope.

(** Restriction of the covariance matrix: none, diagonal, D(I + vv^T)D. *)
Inductive restriction := Unrestricted | Diagonal | RankOne.

(** Code, restarts, update, restriction. *)
Definition advertised : list (Z * (strategy * flavour * restriction)) :=
  [(0, (Single, Full, Unrestricted)); (1, (Ipop, Full, Unrestricted)); (2, (Bipop, Full, Unrestricted));
   (3, (Single, Active, Unrestricted)); (4, (Ipop, Active, Unrestricted)); (5, (Bipop, Active, Unrestricted));
   (6, (Single, Full, Diagonal)); (7, (Ipop, Full, Diagonal)); (8, (Bipop, Full, Diagonal));
   (9, (Single, Active, Diagonal)); (10, (Ipop, Active, Diagonal)); (11, (Bipop, Active, Diagonal));
   (12, (Single, Vd, RankOne)); (13, (Ipop, Vd, RankOne)); (14, (Bipop, Vd, RankOne))].

(** The parameters [p0] with code [a], adapted once to the restriction. *)
Definition adapted (r : restriction) (a : Z) (p0 : cpar) : cpar :=
  match r with
  | Unrestricted => set_algo a p0
  | Diagonal => set_sep (set_algo a p0)
  | RankOne => set_vd (set_algo a p0)
  end.
(** [o] is a run of algorithm [a] with parameters made from [p0]. *)
Definition runs_algorithm (p0 : cpar) (a : Z) (o : option launch) : Prop :=
  exists l s u r, o = Some l /\ In (a, (s, u, r)) advertised /\
    l_strategy l = s /\ l_update l = u /\ l_par l = adapted r a p0.
Definition has_restriction (r : restriction) (a : Z) : Prop := exists s u, In (a, (s, u, r)) advertised.

(** The code in force at each run of a program that starts with code [a]. *)
Fixpoint in_force (h : list call) (a : Z) : list Z :=
  match h with
  | [] => []
  | SelCode b :: h' => in_force h' b
  | SelName s :: h' => in_force h' (match find (fun e => String.eqb (fst e) s) documented with Some (_, b) => b | None => a end)
  | (Run _ _ | Again _ | Surr) :: h' => a :: in_force h' a
  end.
(** Selections and runs of algorithms of one restriction only; a restricted one
    is selected by code, and run without surrogate. *)
Definition steady (r : restriction) (c : call) : Prop :=
  match c with
  | SelCode a => has_restriction r a
  | SelName s => r = Unrestricted /\ exists a, In (s, a) documented /\ has_restriction r a
  | Run _ _ | Again _ => True
  | Surr => r = Unrestricted
  end.
