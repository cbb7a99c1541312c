(** Specification of the invariance under order-preserving changes of the
    objective. *)
From Verif Require Import Base Dbl Config Search SpecSearch.
Local Open Scope Z_scope.

(** Order preserving: strictly increasing, NaN to NaN. *)
Definition order_preserving (phi : dbl -> dbl) : Prop :=
  phi NaN = NaN /\ forall a b, dlt (phi a) (phi b) = dlt a b.

(** The result seen through a projection. *)
Definition rmap {A B} (f : A -> B) (r : res A) : res B := match r with Ok a => Ok (f a) | Fault x => Fault x end.

Section SpecInvar.
Context {T N : Type}.
Variable no : numops T N.
Variable g : cfg T.

(** The same user environment with the objective phi(f). *)
Definition with_objective (f : nat -> list T -> dbl) (e : env T N) : env T N :=
  mkEnv f (e_gfunc e) (e_pheno e) (e_progress e) (e_sort e).
Definition compose (phi : dbl -> dbl) (e : env T N) : env T N :=
  with_objective (fun k x => phi (e_f e k x)) e.

(** [k] iterations ask / eval / tell without asking whether to stop. *)
Fixpoint rounds (e : env T N) (k : nat) (s : st T N) : res (st T N) :=
  match k with
  | O => Ok s
  | S k' => do s' <- round no e g s; rounds e k' s'
  end.

(** Criteria that do not look at the size of objective values: all but
    TOLHISTFUN (1), STAGNATION (6) and FTARGET (10). *)
Definition ordinal_flags : Prop :=
  forall c, In (c, true) (g_flags g) -> c <> 1 /\ c <> 6 /\ c <> 10.

(** A candidate with its value sent through phi. *)
Definition revalue (phi : dbl -> dbl) (c : cand T) : cand T :=
  mkCand (phi (c_f c)) (c_x c) (c_id c) (c_r c).

(** The second state is the first with every objective value sent through phi:
    same distribution, same points, same counters, same calls at the same points. *)
Definition same_search (phi : dbl -> dbl) (s s' : st T N) : Prop :=
  s_num (t_sol s') = s_num (t_sol s) /\
  s_cands (t_sol s') = map (revalue phi) (s_cands (t_sol s)) /\
  s_hist (t_sol s') = map (revalue phi) (s_hist (t_sol s)) /\
  s_best (t_sol s') = revalue phi (s_best (t_sol s)) /\
  s_worst (t_sol s') = revalue phi (s_worst (t_sol s)) /\
  s_status (t_sol s') = s_status (t_sol s) /\
  s_niter (t_sol s') = s_niter (t_sol s) /\ s_nevals (t_sol s') = s_nevals (t_sol s) /\
  t_niter s' = t_niter s /\ t_nevals s' = t_nevals s /\
  t_log s' = map (fun p => (fst p, phi (snd p))) (t_log s).

(** Both fail alike, or both succeed with the same search. *)
Definition same_result (phi : dbl -> dbl) (r r' : res (st T N)) : Prop :=
  match r, r' with
  | Ok s, Ok s' => same_search phi s s'
  | Fault f, Fault f' => f = f'
  | _, _ => False
  end.
(** The progress function does not look at the values. *)
Definition blind_progress (e : env T N) : Prop :=
  forall so so', s_niter so = s_niter so' -> s_nevals so = s_nevals so' -> s_num so = s_num so' ->
    map c_x (s_cands so) = map c_x (s_cands so') -> e_progress e so = e_progress e so'.
(** Calls that do not consult the stopping criteria. *)
Definition blind_op (o : op T) : Prop := match o with OStop | OOptimize _ _ => False | _ => True end.
End SpecInvar.
