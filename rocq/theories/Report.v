(** Model of the standard deviations reported with a solution,
    include/libcmaes/cmasolutions.h:287-318. *)
From Coq Require Import Reals List.
From Verif Require Import Base Vec EoMatrix GenoPheno Params Search Update.
Open Scope R_scope.

Section Report.
Variable p : npar.
Let k := p_k p.
Let d := k_dim k.

(** cmasolutions.h:298-304: deviations in the search space; the product of
    (1+v^2)^(1/2) with _sepcov for vd. *)
Definition raw_stds (n : num) : vec := fun i =>
  if negb (k_sep k) && negb (k_vd k) then sqrt (x_cov n i i)
  else if k_sep k then sqrt (x_sep n i)
  else sqrt (1 + x_v n i * x_v n i) * x_sep n i.

(** stds, cmasolutions.h:294-307.  [gp] is the transform of the parameters
    object given to the call. *)
Definition stds (gp : genopheno) (n : num) : res (list R) :=
  do phen_xmean <- pheno gp (tab d (x_mean n));
  do phen_xmean_std <- pheno gp (tab d (fun i => x_mean n i + raw_stds n i));
  mapM2 (fun a b => Ok (Rabs (a - b))) phen_xmean_std phen_xmean.

(** errors, cmasolutions.h:314-318. *)
Definition errors (gp : genopheno) (n : num) : res (list R) :=
  do s <- stds gp n; Ok (map (fun v => sqrt (x_sigma n) * v) s).
End Report.
