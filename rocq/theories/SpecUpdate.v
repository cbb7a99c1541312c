(** Specification vocabulary for the numeric updates. *)
From Coq Require Import Reals List.
From Verif Require Import Base Dbl Vec Params SpecParams Config Search SpecSearch Update.
Import ListNotations.
Open Scope R_scope.

Definition symmetric (n : nat) (a : mat) : Prop := forall i j, (i < n)%nat -> (j < n)%nat -> a i j = a j i.
(** x^T a x >= 0 for every x. *)
Definition psd (n : nat) (a : mat) : Prop := forall x : vec, 0 <= quad n a x.
(** x^T a x > 0 for every x with a non-zero coordinate. *)
Definition pos_def (n : nat) (a : mat) : Prop := forall x : vec, (exists i, (i < n)%nat /\ x i <> 0) -> 0 < quad n a x.

(** Recombination weights: one per selected point, positive, of sum 1. *)
Definition good_weights (k : cpar) : Prop :=
  length (k_w k) = k_mu k /\ (1 <= k_mu k)%nat /\ (2 * k_mu k <= k_lambda k)%nat /\
  (forall w, In w (k_w k) -> 0 < w) /\ sumR (k_w k) = 1.
Definition sound_params (k : cpar) : Prop :=
  (1 <= k_dim k)%nat /\ admissible k /\ good_weights k /\ 0 < k_alphathuh k.
(** Parameters made by the constructor and a history of adaptations. *)
Definition constructed (k : cpar) : Prop := exists n lambda h,
  (1 <= n)%nat /\ (2 <= lambda)%nat /\ (sep_calls h <= 1)%nat /\ k = fold_left do_adapt h (cma_params n lambda).

(** Any calls at all on the parameters object, the restarts' doubling of lambda included. *)
Inductive setting := Adapt (a : adapt) | Algo (a : Z) | VdRates | DoubleLambda.
Definition do_setting (k : cpar) (s : setting) : cpar :=
  match s with Adapt a => do_adapt k a | Algo a => set_algo a k | VdRates => set_vd k | DoubleLambda => lambda_inc k end.
Definition configured (k : cpar) : Prop := exists n lambda h,
  (1 <= n)%nat /\ k = fold_left do_setting h (cma_params n lambda).

(** The optimisers a user can hold: freshly constructed from a starting point,
    or from the solution of another run of the same problem whose reset keeps
    the sizes (see [reset_num]). *)
Inductive started (p : npar) (e : env R num) (g : cfg R) : st R num -> Prop :=
| from_x0 : forall x0 n s, st_new (cma_num p) g x0 n = Ok s -> started p e g s
| from_solution : forall s0 h s, started p e g s0 -> run_ops (cma_num p) e g h s0 = Ok s ->
    x_csz (s_num (t_sol s)) = k_dim (p_k p) ->
    started p e g (st_from_solution (cma_num p) (t_sol s)).

(** What the optimiser knows: the current distribution. *)
Definition cov_of (s : st R num) : mat := x_cov (s_num (t_sol s)).
Definition variances_of (s : st R num) : vec := x_sep (s_num (t_sol s)).
Definition sigma_of (s : st R num) : R := x_sigma (s_num (t_sol s)).
Definition mean_of (s : st R num) : vec := x_mean (s_num (t_sol s)).
Definition path_of (s : st R num) : R := x_tpas (s_num (t_sol s)).

(** [dec] diagonalises [a]: orthogonal matrix of eigenvectors in the columns. *)
Definition diagonalises (n : nat) (a : mat) (dec : vec * mat) : Prop :=
  (forall i j, (i < n)%nat -> (j < n)%nat -> rsum n (fun l => snd dec l i * snd dec l j) = if Nat.eqb i j then 1 else 0) /\
  (forall i j, (i < n)%nat -> (j < n)%nat -> rsum n (fun l => snd dec i l * snd dec j l) = if Nat.eqb i j then 1 else 0) /\
  (forall i j, (i < n)%nat -> (j < n)%nat -> a i j = rsum n (fun l => snd dec i l * fst dec l * snd dec j l)).
(** The eigensolver diagonalises every symmetric matrix (SelfAdjointEigenSolver). *)
Definition eigensolver_ok (p : npar) : Prop :=
  forall a, symmetric (k_dim (p_k p)) a -> diagonalises (k_dim (p_k p)) a (p_eig p (mtab (k_dim (p_k p)) a)).
(** Entries of a correlation matrix. *)
Definition is_correlation (n : nat) (c : nat -> nat -> R) : Prop :=
  (forall i, (i < n)%nat -> c i i = 1) /\
  (forall i j, (i < n)%nat -> (j < n)%nat -> c i j = c j i) /\
  (forall i j, (i < n)%nat -> (j < n)%nat -> -1 <= c i j <= 1).
(** The search model and the numeric model are about the same parameters. *)
Definition same_problem (p : npar) (g : cfg R) : Prop :=
  g_dim g = k_dim (p_k p) /\ g_lambda g = k_lambda (p_k p) /\ g_fixed g = k_fixed (p_k p).
(** Fixed parameters: distinct indices below the dimension. *)
Definition fixed_ok (p : npar) : Prop :=
  NoDup (map fst (k_fixed (p_k p))) /\ forall i v, In (i, v) (k_fixed (p_k p)) -> (0 <= i < Z.of_nat (k_dim (p_k p)))%Z.
(** The point has the values of the fixed parameters. *)
Definition has_fixed (fx : list (Z * R)) (x : list R) : Prop :=
  forall i v, In (i, v) fx -> nth_error x (Z.to_nat i) = Some v.
(** Calls as a user with fixed parameters makes them: whole generations whose
    points have the fixed values. *)
Definition fixed_op (g : cfg R) (o : op R) : Prop :=
  match o with
  | OEval _ _ | OTell | OInc => False
  | OGen cols phen => length cols = g_lambda g /\ Forall (has_fixed (g_fixed g)) cols /\ Forall (has_fixed (g_fixed g)) phen
  | _ => True
  end.
(** Calls that keep the iteration counters in step: ask, whole generations,
    stop, optimize. *)
Definition iteration (o : op R) : Prop := match o with OEval _ _ | OTell | OInc => False | OGen _ _ => True | _ => True end.
(** Histories of ask, whole generations, stop and optimize in which every
    generation is preceded by its own ask, as the update needs the decomposition
    made by ask; [b] says whether an ask has been made since the last generation. *)
Fixpoint asked (b : bool) (h : list (op R)) : Prop :=
  match h with
  | [] => True
  | OAsk :: h' => asked true h'
  | OGen _ _ :: h' => b = true /\ asked false h'
  | OStop :: h' => asked b h'
  | OOptimize _ _ :: h' => asked false h'
  | _ => False
  end.
