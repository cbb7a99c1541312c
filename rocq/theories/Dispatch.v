(** Model of the entry points cmaes() and surrcmaes(): which optimiser they
    build, on which parameters, and what they pass to it.
    include/libcmaes/cmaes.h, include/libcmaes/surrcmaes.h. *)
From Coq Require Import Reals String List.
From Verif Require Import Base Params Config Update.
Import ListNotations.
Local Open Scope Z_scope.

(** First template argument of ESOptimizer: CMAStrategy, IPOPCMAStrategy,
    BIPOPCMAStrategy. *)
Inductive strategy := Single | Ipop | Bipop.

(** The optimiser that is built and run. *)
Record launch := mkLaunch {
  l_strategy : strategy;
  l_update : flavour;    (* template argument TCovarianceUpdate *)
  l_par : cpar;          (* parameters passed to the constructor *)
  l_from : bool;         (* the solution passed by the caller is given to the constructor *)
  l_grad : bool;         (* set_gradient_func is called *)
  l_progress : bool;     (* set_progress_func is called *)
  l_plot : bool          (* set_plot_func is called *)
}.

(** The two branches of a case, for example cmaes.h:44-67: [cov] is
    solutions.cov().size(), [plot] whether the second branch sets the plot
    function. *)
Definition fresh_or_from (s : strategy) (u : flavour) (plot : bool) (p : cpar) (cov : nat) (grad : bool) : option launch :=
  Some (if Nat.eqb cov 0 then mkLaunch s u p false grad true true else mkLaunch s u p true grad true plot).
(** cmaes.h:183-186 and alike; 329-332 and alike. *)
Definition ensure_sep (p : cpar) : cpar := if k_sep p then p else set_sep p.
Definition ensure_vd (p : cpar) : cpar := if k_vd p then p else set_vd p.

(** cmaes, cmaes.h:33-368.  The parameters are taken by reference: the second
    component is their value after the call.  [None]: the default branch, an
    empty solution is returned.  [grad] is gfunc != nullptr. *)
Definition cmaes (p : cpar) (cov : nat) (grad : bool) : option launch * cpar :=
  match k_algo p with
  | 0 => (fresh_or_from Single Full true p cov grad, p)                                  (* 44-67 *)
  | 1 => (fresh_or_from Ipop Full true p cov grad, p)                                    (* 68-90 *)
  | 2 => (fresh_or_from Bipop Full true p cov grad, p)                                   (* 91-113 *)
  | 3 => (fresh_or_from Single Active true p cov grad, p)                                (* 114-136 *)
  | 4 => (fresh_or_from Ipop Active true p cov grad, p)                                  (* 137-159 *)
  | 5 => (fresh_or_from Bipop Active true p cov grad, p)                                 (* 160-182 *)
  | 6 => let q := ensure_sep p in (fresh_or_from Single Full true q cov grad, q)         (* 183-207 *)
  | 7 => let q := ensure_sep p in (fresh_or_from Ipop Full true q cov grad, q)           (* 208-232 *)
  | 8 => let q := ensure_sep p in (fresh_or_from Bipop Full false q cov grad, q)         (* 233-256 *)
  | 9 => let q := ensure_sep p in (fresh_or_from Single Active false q cov grad, q)      (* 257-280 *)
  | 10 => let q := ensure_sep p in (fresh_or_from Ipop Active false q cov grad, q)       (* 281-304 *)
  | 11 => let q := ensure_sep p in (fresh_or_from Bipop Active false q cov grad, q)      (* 305-328 *)
  | 12 => let q := ensure_vd p in (Some (mkLaunch Single Vd q false grad true true), q)  (* 329-340 *)
  | 13 => let q := ensure_vd p in (Some (mkLaunch Ipop Vd q false grad true true), q)    (* 341-352 *)
  | 14 => let q := ensure_vd p in (Some (mkLaunch Bipop Vd q false grad true true), q)   (* 353-364 *)
  | _ => (None, p)                                                                       (* 365-366 *)
  end.

(** surrcmaes, surrcmaes.h:31-128: no solution, no gradient, progress or plot
    function; set_sep and set_vd are called every time. *)
Definition surr_launch (s : strategy) (u : flavour) (p : cpar) : option launch * cpar :=
  (Some (mkLaunch s u p false false false false), p).
Definition surrcmaes (p : cpar) : option launch * cpar :=
  match k_algo p with
  | 0 => surr_launch Single Full p              (* 37-42 *)
  | 1 => surr_launch Ipop Full p                (* 43-48 *)
  | 2 => surr_launch Bipop Full p               (* 49-54 *)
  | 3 => surr_launch Single Active p            (* 55-60 *)
  | 4 => surr_launch Ipop Active p              (* 61-66 *)
  | 5 => surr_launch Bipop Active p             (* 67-72 *)
  | 6 => surr_launch Single Full (set_sep p)    (* 73-79 *)
  | 7 => surr_launch Ipop Full (set_sep p)      (* 80-86 *)
  | 8 => surr_launch Bipop Full (set_sep p)     (* 87-93 *)
  | 9 => surr_launch Single Active (set_sep p)  (* 94-100 *)
  | 10 => surr_launch Ipop Active (set_sep p)   (* 101-107 *)
  | 11 => surr_launch Bipop Active (set_sep p)  (* 108-114 *)
  | 12 => surr_launch Single Vd (set_vd p)      (* 115-121 *)
  | 13 => surr_launch Ipop Vd (set_vd p)        (* 122-128 *)
  | 14 => surr_launch Bipop Vd (set_vd p)       (* 129-135 *)
  | _ => (None, p)                              (* 136-137 *)
  end.

(** Size of cov() of the solution a run returns, given the size [cov] of the
    solution passed: cmasolutions.cc:37-39; the updates keep it, and so does
    reset (205-227) of a solution with at least one iteration. *)
Definition cov_after (l : launch) (cov : nat) : nat :=
  if l_from l then cov
  else if k_sep (l_par l) || k_vd (l_par l) then 0%nat else (k_dim (l_par l) * k_dim (l_par l))%nat.

(** What a program does with one parameter object. *)
Inductive call :=
| SelCode (a : Z)                     (* set_algo *)
| SelName (name : string)             (* set_str_algo *)
| Run (given : nat) (grad : bool)     (* cmaes() with a solution whose cov() has [given] elements, 0: none given *)
| Again (grad : bool)                 (* cmaes() with the solution returned by the previous call *)
| Surr.                               (* surrcmaes() *)
(** State: the parameters, the size of cov() of the last returned solution. *)
Definition do_call (c : call) (w : cpar * nat) : option (option launch) * (cpar * nat) :=
  let '(p, last) := w in
  let ran (r : option launch * cpar) cov := (Some (fst r), (snd r, match fst r with Some l => cov_after l cov | None => 0%nat end)) in
  match c with
  | SelCode a => (None, (set_algo a p, last))
  | SelName s => (None, (set_str_algo s p, last))
  | Run given grad => ran (cmaes p given grad) given
  | Again grad => ran (cmaes p last grad) last
  | Surr => ran (surrcmaes p) 0%nat
  end.
(** The launches of a program, in order; [None] for a call that runs nothing. *)
Fixpoint launches (h : list call) (w : cpar * nat) : list (option launch) :=
  match h with
  | [] => []
  | c :: h' => let '(o, w') := do_call c w in match o with Some l => l :: launches h' w' | None => launches h' w' end
  end.
