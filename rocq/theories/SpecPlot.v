(** Specification of the plot file. *)
From Coq Require Import Reals List ZArith.
From Verif Require Import Base Dbl Vec Params Config Search Update Plot.
Import ListNotations.

(** The writer that hands on the solution it is given: [loop_p] and [optimize_p]
    with it return the solutions the plot function was called with. *)
Definition seen_by_plot {T N} (so : sol T N) : res (list (sol T N)) := Ok [so].
(** Iterations [a], [a+1], ... without gap. *)
Definition consecutive {T N} (a : Z) (l : list (sol T N)) : Prop :=
  forall k so, nth_error l k = Some so -> s_niter so = (a + Z.of_nat k)%Z.
(** Equal but for the stop status. *)
Definition but_status {T N} (so so' : sol T N) : Prop := so' = set_s_status (s_status so') so.
(** The lines [ls] are those the function [w] writes for the solutions [sols], in order. *)
Definition written {T N L} (w : sol T N -> res (list L)) (sols : list (sol T N)) (ls : list L) : Prop :=
  exists lss, mapM w sols = Ok lss /\ ls = concat lss.
(** [so'] comes from [so] by one generation: ask, evaluation, tell and the
    iteration counter. *)
Definition step {T N} (no : numops T N) e g (so so' : sol T N) : Prop :=
  exists s s2, but_status so (t_sol s) /\ (0 <= s_status (t_sol s))%Z /\ round no e g s = Ok s2 /\ t_sol s2 = so'.
Definition chained {T N} (no : numops T N) e g (l : list (sol T N)) : Prop :=
  forall k so so', nth_error l k = Some so -> nth_error l (S k) = Some so' -> step no e g so so'.
(** From [s] to [s'] in m iterations: m+1 lines, the last for the final solution,
    or m when it was the user's progress function that ended the search. *)
Definition ends_at {T N} (e : env T N) (s s' : st T N) (l : list (sol T N)) : Prop :=
  (0 <= s_niter (t_sol s') - s_niter (t_sol s))%Z /\
  let m := Z.to_nat (s_niter (t_sol s') - s_niter (t_sol s)) in
  (e_progress e (t_sol s') <> 0%Z /\ length l = m) \/
  (length l = S m /\ exists so, nth_error l m = Some so /\ but_status so (t_sol s') /\ e_progress e so = 0%Z).
(** [r] is the largest, the least of the [n] values [v]. *)
Definition is_max (n : nat) (v : vec) (r : R) : Prop := (forall i, (i < n)%nat -> (v i <= r)%R) /\ exists i, (i < n)%nat /\ v i = r.
Definition is_min (n : nat) (v : vec) (r : R) : Prop := (forall i, (i < n)%nat -> (r <= v i)%R) /\ exists i, (i < n)%nat /\ v i = r.
(** Cells [i], ..., [i+n-1] of the line [r] are the numbers [v]. *)
Definition columns (r : list cell) (i n : nat) (v : vec) : Prop :=
  forall j, (j < n)%nat -> nth_error r (i + j) = Some (CR (v j)).
