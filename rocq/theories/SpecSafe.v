(** Conditions under which the operations of the search are expected not to
    fail, and the cost of their parts in objective calls. *)
From Verif Require Import Base Dbl Config Search SpecSearch SpecStop.
Local Open Scope Z_scope.

Section SpecSafe.
Context {T N : Type}.
Variable no : numops T N.
Variable e : env T N.
Variable g : cfg T.

(** The objective returns finite numbers: no NaN, no infinity. *)
Definition real_values : Prop := forall k x, finite_dbl (e_f e k x).
(** Every point the numeric part produces has the dimension of the problem and
    the sampler produces as many as asked. *)
Definition dims_ok : Prop :=
  samples_ok no /\
  (forall k n x, In x (fst (n_sample no k n)) -> length x = g_dim g) /\
  (forall n, length (n_xmean no n) = g_dim g) /\
  (forall gr n x, n_gradcol no gr n = Some x -> length x = g_dim g) /\
  (forall n, let '(x1, x2, _) := n_tpa_points no n in length x1 = g_dim g /\ length x2 = g_dim g).
(** The genotype-phenotype transform accepts points of that dimension. *)
Definition pheno_total : Prop := forall x, length x = g_dim g -> exists y, e_pheno e x = Ok y.
(** The transform returns (normally or by an exception). *)
Definition pheno_returns : Prop := forall x, e_pheno e x <> Fault Diverges.
Definition fixed_in_range : Prop := forall i v, In (i, v) (g_fixed g) -> 0 <= i < Z.of_nat (g_dim g).
(** At least two points, three when both the gradient point and the two points
    of two-point adaptation are injected. *)
Definition room : Prop := (2 <= g_lambda g)%nat /\ (g_gradient g = true -> g_tpa g = 2 -> (3 <= g_lambda g)%nat).
(** No elitism, or elitism of the best seen point. *)
Definition elitism_le1 : Prop := e_init (g_elit g) = false /\ e_restart (g_elit g) = false.

(** Calls as a user makes them: populations of lambda points, with as many
    phenotypes when given. *)
Definition proper_op (o : op T) : Prop :=
  match o with
  | OEval _ _ | OTell | OInc => False
  | OGen cols phen => length cols = g_lambda g /\ (phen = [] \/ (g_lambda g <= length phen)%nat)
  | _ => True
  end.

(** Costs in objective calls. *)
Definition gradient_calls : Z := if e_gfunc e then 0 else Z.of_nat (g_dim g) + 1.
Definition generation_calls : Z :=
  Z.of_nat (g_lambda g) + (if g_uh g then Z.of_nat (g_reev g) + 1 else 0) + (if g_gradient g then gradient_calls else 0).
Definition initial_calls : Z := if e_init (g_elit g) || e_best (g_elit g) || g_init_fvalue g then 1 else 0.
Definition final_calls : Z := if g_edm g then gradient_calls else 0.
End SpecSafe.

(** With uncertainty handling: fewer re-evaluations than candidates, and the
    mutation returns as many points as it is given. *)
Definition reevaluation_ok {T N} (no : numops T N) (g : cfg T) : Prop :=
  (S (g_reev g) <= g_lambda g)%nat /\ forall cols n, length (fst (n_mutate no cols n)) = length cols.
