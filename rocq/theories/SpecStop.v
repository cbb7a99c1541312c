(** What each stopping criterion is meant to detect, stated on the observable
    state.  Codes as in the enumeration of cmastopcriteria.h. *)
From Coq Require Import Reals.
From Verif Require Import Base Dbl Config Search SpecSearch.
Local Open Scope Z_scope.

Section SpecStop.
Context {T N : Type}.
Variable no : numops T N.
Variable g : cfg T.
Implicit Types (s : sol T N).

Definition evals_spent s : Prop := g_max_fevals g <> -1 /\ g_max_fevals g <= s_nevals s.
Definition iters_spent s : Prop := g_max_iter g <> -1 /\ g_max_iter g <= s_niter s.
Definition auto_iters_spent s : Prop :=
  let d := INR (g_dim g) in
  let k := if g_vd g && (g_dim g <? 10)%nat then 1000%R else 1%R in
  ((100 + 50 * ((d + 3) * (d + 3)) / sqrt (INR (g_lambda g))) * k <= IZR (s_niter s))%R.
Definition target_reached s : Prop :=
  g_ftarget g <> PosInf /\ dle (c_f (best_candidate no s)) (g_ftarget g) = true.
(** Window of TOLHISTFUN. *)
Definition window s : Z := Z.min (s_maxhist s) (10 + 30 * Z.of_nat (g_dim g) / Z.of_nat (g_lambda g)).
Definition converged s : Prop :=
  window s <= Z.of_nat (length (s_hist s)) /\
  forall a b, In a (lastn (Z.to_nat (window s)) (s_hist s)) -> In b (lastn (Z.to_nat (window s)) (s_hist s)) ->
    dlt (dabs (dsub (c_f a) (c_f b))) (dmax (g_ftol g) dbl_1em12) = true.
(** Number of recent iterations in which best and k-th best are equal. *)
Definition flat_count s (n : nat) : nat :=
  length (filter (fun p => deq (c_f (fst p)) (c_f (snd p))) (combine (lastn n (s_hist s)) (lastn n (s_khist s)))).
Definition flat s : Prop :=
  let n := Z.min (Z.of_nat (g_dim g)) (Z.of_nat (length (s_hist s))) in
  s_maxhist s <= n /\ n < 3 * Z.of_nat (flat_count s (Z.to_nat n)).
Definition stagnated s : Prop :=
  (20 <= length (s_bf s))%nat /\ (20 <= length (s_med s))%nat /\
  exists a b, is_median (s_bf s) a /\ is_median (firstn 20 (s_med s)) b /\ dle b a = true.

(** Condition of a code; the criteria on numeric members are in [n_crit]. *)
Definition condition (c : Z) s : Prop :=
  (c = 8 -> evals_spent s) /\ (c = 9 -> iters_spent s) /\ (c = 7 -> auto_iters_spent s) /\ (c = 10 -> target_reached s) /\
  (c = 1 -> converged s) /\ (c = 5 -> flat s) /\ (c = 6 -> stagnated s) /\
  ((c = -15 \/ c = -13 \/ c = 2 \/ c = 3 \/ c = 4) -> n_crit no c (s_num s) = true).

Definition active (c : Z) : Prop := In (c, true) (g_flags g).
(** Flags as left by the constructor: every code once, in ascending order. *)
Definition flags_wf : Prop := map fst (g_flags g) = criteria_codes.

(** Histories of finite values. *)
Definition finite_dbl (v : dbl) : Prop := dle v dbl_max = true /\ dle (dneg dbl_max) v = true.
Definition hist_finite s : Prop :=
  (forall c, In c (s_hist s) -> finite_dbl (c_f c)) /\ (forall v, In v (s_bf s) -> v <> NaN) /\ (forall v, In v (s_med s) -> v <> NaN).
End SpecStop.
