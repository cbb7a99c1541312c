(** Specification vocabulary for programs with several optimisers. *)
From Verif Require Import Base Dbl Config Search SpecSearch Rng.
Local Open Scope Z_scope.

Section SpecRng.
Context {T L G : Type}.
Variable seeded : Z -> G.
Variable rnd : nat -> list T.
Variable device : nat -> L.

(** The calls made on optimiser [i]. *)
Definition calls_on (i : nat) (p : list (event T L G)) : list (op T) :=
  flat_map (fun ev => match ev with On j o => if (j =? i)%nat then [o] else [] | New _ => [] end) p.
(** The points at which optimiser [i] called the objective, in order. *)
Definition points (i : nat) (w : world T L G) : list (list T) :=
  match nth_error (w_opts w) i with Some q => map fst (t_log (snd q)) | None => [] end.
(** The candidates optimiser [i] would return if it were asked now. *)
Definition next_population (i : nat) (w : world T L G) : res (list (list T)) :=
  do q <- at_ (w_opts w) (Z.of_nat i);
  do a <- ask (sp_no (fst q)) (sp_e (fst q)) (sp_g (fst q)) (put_gen (w_gen w) (snd q));
  Ok (fst a).
(** What the user can see of optimiser [i]: the points evaluated so far, the
    candidates to come, the solution. *)
Definition same_run (i : nat) (w : world T L G) (j : nat) (w' : world T L G) : Prop :=
  points i w = points j w' /\ next_population i w = next_population j w' /\
  option_map (fun q => t_sol (snd q)) (nth_error (w_opts w) i) = option_map (fun q => t_sol (snd q)) (nth_error (w_opts w') j).
(** A process that has done nothing. *)
Definition fresh (g0 : G) : world T L G := mkWorld g0 0 0 [].
(** A program in which only one optimiser exists. *)
Definition alone (g0 : G) (sp : spec T L G) (h : list (op T)) : res (world T L G) :=
  steps seeded rnd device (New sp :: map (On 0) h) (fresh g0).

(** The numeric part draws from the generator when it samples, and only then. *)
Definition updates_draw_nothing (no : numops T (L * G)) : Prop :=
  (forall r n, snd (n_tpa no r n) = snd n) /\ (forall k c n, snd (n_update no k c n) = snd n) /\ (forall n, snd (n_uh_scale no n) = snd n).
(** Calls of the other optimisers that leave the generator alone: reading the
    stopping criteria, and evaluating and telling populations of the user's. *)
Definition others_quiet (i : nat) (w : world T L G) (ev : event T L G) : Prop :=
  match ev with
  | New _ => False
  | On j o => j = i \/
      match nth_error (w_opts w) j with
      | None => True
      | Some q => g_uh (sp_g (fst q)) = false /\ updates_draw_nothing (sp_no (fst q)) /\
          match o with OStop | OTell | OInc | OEval _ _ | OGen _ _ => True | OAsk | OOptimize _ _ => False end
      end
  end.
(** During [p], which starts in [w], the other optimisers do nothing but quiet
    calls and none is created. *)
Definition undisturbed (i : nat) (p : list (event T L G)) (w : world T L G) : Prop :=
  forall p1 ev p2 w1, p = p1 ++ ev :: p2 -> steps seeded rnd device p1 w = Ok w1 -> others_quiet i w1 ev.
(** A given start point, and no reading of the random device. *)
Definition seeded_only (sp : spec T L G) : Prop := sp_x0 sp <> None /\ g_uh (sp_g sp) = false.
End SpecRng.
