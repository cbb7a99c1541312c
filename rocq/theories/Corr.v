(** Model of the reported covariance and correlations, src/cmasolutions.cc:128-194,
    and of stds (include/libcmaes/cmasolutions.h:288-307) with the identity
    genotype-phenotype transform that corr(i,j) uses. *)
From Coq Require Import Reals List.
From Verif Require Import Base Vec Params Search Update.
Open Scope R_scope.

Section Corr.
Variable p : npar.
Let k := p_k p.
Let d := k_dim k.

(** full_cov, cmasolutions.cc:128-136.  _cov is empty for sep and vd, _v for
    all but vd. *)
Definition vd_cov (n : num) : mat := fun i j =>
  x_sep n i * ((if Nat.eqb i j then 1 else 0) + x_v n i * x_v n j) * x_sep n j.
Definition full_cov (n : num) : mat :=
  if negb (k_sep k || k_vd k) then x_cov n else if k_vd k then vd_cov n else diag (x_sep n).
(** corr(), 138-163: number of rows, of columns, and entries. *)
Definition scale_corr (c : mat) : mat := fun i j => c i j * (1 / sqrt (c i i)) * (1 / sqrt (c j j)).
Definition corr_matrix (n : num) : nat * nat * mat :=
  if negb (k_sep k || k_vd k) then (d, d, scale_corr (x_cov n))
  else if k_vd k then (d, d, scale_corr (vd_cov n))
  else (d, 1%nat, fun _ _ => 1).
(** stds for an identity transform (the parameters object made by corr(i,j)). *)
Definition plain_stds (n : num) : vec := fun i =>
  Rabs ((x_mean n i + (if k_vd k then sqrt (1 + x_v n i * x_v n i) * x_sep n i else sqrt (x_cov n i i))) - x_mean n i).
(** corr(i,j), 165-194. *)
Definition corr_ij (n : num) (i j : nat) : R :=
  if Nat.eqb i j then 1
  else if negb (k_sep k || k_vd k) then x_cov n i j / (plain_stds n i * plain_stds n j)
  else if k_vd k then (x_sep n i * (0 + x_v n i * x_v n j) * x_sep n j) / (plain_stds n i * plain_stds n j)
  else 0.
End Corr.
