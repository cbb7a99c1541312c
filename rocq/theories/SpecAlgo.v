(** The published update of CMA-ES (N. Hansen, "The CMA Evolution Strategy: a
    tutorial", algorithm and equations for a generation), written with the
    weights and learning rates of the parameters and nothing of the model of the
    code but the sums of Vec.v. *)
From Coq Require Import Reals List ZArith Permutation.
From Verif Require Import Base Dbl Vec Params Config Search SpecSearch Update SpecUpdate Corr.
Import ListNotations.
Open Scope R_scope.

(** Distribution and evolution paths. *)
Record dist := mkDist { d_mean : vec; d_sigma : R; d_cov : mat; d_ps : vec; d_pc : vec }.
Definition dist_of (p : npar) (s : st R num) : dist :=
  let n := s_num (t_sol s) in mkDist (x_mean n) (x_sigma n) (full_cov p n) (x_psigma n) (x_pc n).

(** Variance effective selection mass of the weights. *)
Definition mu_eff (w : list R) : R := 1 / sumR (map (fun x => x * x) w).
(** [b] is the symmetric positive definite matrix with b c b = 1. *)
Definition inverse_root (n : nat) (b c : mat) : Prop :=
  symmetric n b /\ pos_def n b /\
  forall i j, (i < n)%nat -> (j < n)%nat -> rsum n (fun l => rsum n (fun m => b i l * c l m * b m j)) = if Nat.eqb i j then 1 else 0.

Section Step.
Variable k : cpar.
Variable gen : Z.                (* number of the generation, from 0 *)
Variable xs : list (list R).     (* the points, best first *)
Variables a a' : dist.           (* before and after *)
Let n := k_dim k.
Let w (l : nat) : R := nth l (k_w k) 0.
Let x (l : nat) : vec := fun i => nth i (nth l xs []) 0.
(** The step of point [l] and of the mean, in units of the step size. *)
Definition y_point (l : nat) : vec := fun i => (x l i - d_mean a i) / d_sigma a.
Definition y_mean : vec := fun i => (d_mean a' i - d_mean a i) / d_sigma a.
Definition mean_rule : Prop := forall i, (i < n)%nat -> d_mean a' i = rsum (k_mu k) (fun l => w l * x l i).
(** The path of the step size, with the inverse square root [b] of the covariance. *)
Definition sigma_path_rule (b : mat) : Prop := forall i, (i < n)%nat ->
  d_ps a' i = (1 - k_csigma k) * d_ps a i + sqrt (k_csigma k * (2 - k_csigma k) * mu_eff (k_w k)) * mv n b y_mean i.
(** Is the new path short enough for the covariance path to be updated? *)
Definition h_sigma : R :=
  let free := INR n - INR (length (k_fixed k)) in
  if Rlt_dec (norm n (d_ps a') / sqrt (1 - (1 - k_csigma k) ^ (2 * (Z.to_nat gen + 1)))) ((1.4 + 2 / (free + 1)) * k_chi k) then 1 else 0.
(** The path of the covariance; [c] is the rate its increment is normalised for. *)
Definition cov_path_rule (c : R) : Prop := forall i, (i < n)%nat ->
  d_pc a' i = (1 - k_cc k) * d_pc a i + h_sigma * sqrt (c * (2 - c) * mu_eff (k_w k)) * y_mean i.
Definition rank_one (i j : nat) : R := d_pc a' i * d_pc a' j.
Definition rank_mu (i j : nat) : R := rsum (k_mu k) (fun l => w l * (y_point l i * y_point l j)).
Definition cov_entry (i j : nat) : R :=
  (1 - k_c1 k - k_cmu k + (1 - h_sigma) * k_c1 k * k_cc k * (2 - k_cc k)) * d_cov a i j + k_c1 k * rank_one i j + k_cmu k * rank_mu i j.
Definition cov_rule : Prop := forall i j, (i < n)%nat -> (j < n)%nat -> d_cov a' i j = cov_entry i j.
(** Separable: the diagonal only. *)
Definition sep_cov_rule : Prop := forall i j, (i < n)%nat -> (j < n)%nat -> d_cov a' i j = if Nat.eqb i j then cov_entry i i else 0.
(** Cumulative step-size adaptation. *)
Definition sigma_rule : Prop := d_sigma a' = d_sigma a * exp (k_csigma k / k_dsigma k * (norm n (d_ps a') / k_chi k - 1)).
(** The same with the factor limited by the largest double. *)
Definition active_sigma_rule : Prop := d_sigma a' = d_sigma a * Rmin dbl_max_R (exp (k_csigma k / k_dsigma k * (norm n (d_ps a') / k_chi k - 1))).
(** Active update (N. Hansen, R. Ros, 2010), negative rate [cm]; [rank_minus] is
    made of the [mu] worst points. *)
Definition rank_minus (i j : nat) : R :=
  rsum (k_mu k) (fun l => w l * (y_point (k_lambda k - 1 - l) i * y_point (k_lambda k - 1 - l) j)).
Definition active_cov_rule (cm : R) : Prop := forall i j, (i < n)%nat -> (j < n)%nat ->
  d_cov a' i j = (1 - k_c1 k - k_cmu k + 1 / 2 * cm) * d_cov a i j + k_c1 k * rank_one i j + (k_cmu k + (1 - 1 / 2) * cm) * rank_mu i j - cm * rank_minus i j.
(** [cm] is the largest rate not above the default with which the part removed
    is at most 0.34 (1 - cmu) of the covariance. *)
Definition default_minus : R := (1 - k_cmu k) * (2 / 8) * (mu_eff (k_w k) / (Rpower (INR n + 2) (3 / 2) + 2 * mu_eff (k_w k))).
Definition removes_little (cm : R) : Prop := forall u : vec, cm * quad n rank_minus u <= 0.34 * (1 - k_cmu k) * quad n (d_cov a) u.
Definition minus_rate (cm : R) : Prop :=
  0 <= cm <= default_minus /\ removes_little cm /\ forall c, 0 <= c <= default_minus -> removes_little c -> c <= cm.
(** The same for a diagonal covariance. *)
Definition active_sep_rule (cm : R) : Prop := forall i j, (i < n)%nat -> (j < n)%nat ->
  d_cov a' i j = if Nat.eqb i j then (1 - k_c1 k - k_cmu k + 1 / 2 * cm) * d_cov a i i + k_c1 k * rank_one i i + (k_cmu k + (1 - 1 / 2) * cm) * rank_mu i i - cm * rank_minus i i else 0.
Definition sep_removes_little (cm : R) : Prop := forall i, (i < n)%nat -> cm * rank_minus i i <= 0.34 * (1 - k_cmu k) * d_cov a i i.
Definition sep_minus_rate (cm : R) : Prop :=
  0 <= cm <= default_minus /\ sep_removes_little cm /\ forall c, 0 <= c <= default_minus -> sep_removes_little c -> c <= cm.
End Step.

(** A generation of the standard algorithm. *)
Definition cma_step (k : cpar) (gen : Z) (xs : list (list R)) (b : mat) (a a' : dist) : Prop :=
  mean_rule k xs a' /\ sigma_path_rule k a a' b /\ cov_path_rule k gen a a' (k_cc k) /\ cov_rule k gen xs a a' /\ sigma_rule k a a'.
(** A generation of the active algorithm. *)
Definition active_step (k : cpar) (gen : Z) (xs : list (list R)) (b : mat) (a a' : dist) : Prop :=
  mean_rule k xs a' /\ sigma_path_rule k a a' b /\ cov_path_rule k gen a a' (k_cc k) /\
  (exists cm, minus_rate k xs a cm /\ active_cov_rule k xs a a' cm) /\ active_sigma_rule k a a'.
(** A generation of the separable algorithm, the path of the covariance
    normalised for the rate [c]. *)
Definition sep_step (k : cpar) (gen : Z) (xs : list (list R)) (b : mat) (c : R) (a a' : dist) : Prop :=
  mean_rule k xs a' /\ sigma_path_rule k a a' b /\ cov_path_rule k gen a a' c /\ sep_cov_rule k gen xs a a' /\ sigma_rule k a a'.
(** A generation of the active separable algorithm. *)
Definition active_sep_step (k : cpar) (gen : Z) (xs : list (list R)) (b : mat) (c : R) (a a' : dist) : Prop :=
  mean_rule k xs a' /\ sigma_path_rule k a a' b /\ cov_path_rule k gen a a' c /\
  (exists cm, sep_minus_rate k xs a cm /\ active_sep_rule k xs a a' cm) /\ active_sigma_rule k a a'.
(** The default rate of the covariance path of the standard algorithm. *)
Definition default_cc (k : cpar) : R := (4 + mu_eff (k_w k) / INR (k_dim k)) / (INR (k_dim k) + 4 + 2 * mu_eff (k_w k) / INR (k_dim k)).
(** The points are those evaluated, best first; [s] before and [s'] after tell. *)
Definition ranked_points (s s' : st R num) : Prop :=
  (forall c, In c (s_cands (t_sol s)) -> c_f c <> NaN) -> Permutation (s_cands (t_sol s')) (s_cands (t_sol s)) /\ ascending (s_cands (t_sol s')).
