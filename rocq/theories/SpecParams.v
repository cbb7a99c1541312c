(** Specification vocabulary for the strategy parameters. *)
From Coq Require Import Reals.
From Verif Require Import Base Params.
Open Scope R_scope.

(** A call the user may make on the parameters object. *)
Inductive adapt := Sep | Noisy | Tpa (b : Z) | Fix (i : Z) (v : R) | Unfix (i : Z).

Definition do_adapt (p : cpar) (a : adapt) : cpar :=
  match a with
  | Sep => set_sep p
  | Noisy => set_noisy p
  | Tpa b => set_tpa b p
  | Fix i v => set_fixed_p i v p
  | Unfix i => unset_fixed_p i p
  end.

(** Number of calls of set_sep in a history. *)
Definition sep_calls (h : list adapt) : nat :=
  length (filter (fun a => match a with Sep => true | _ => false end) h).

(** Learning rates with which no update coefficient is negative. *)
Definition admissible (p : cpar) : Prop :=
  0 < k_csigma p < 1 /\ 0 < k_cc p <= 1 /\ 0 < k_c1 p < 1 /\ 0 <= k_cmu p /\
  k_c1 p + k_cmu p <= 1 /\ 0 < k_dsigma p.
