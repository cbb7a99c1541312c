(** Concrete surrogates for the examples and counterexamples of PropsSurr.v.
    The model is a flag telling whether it was trained; it predicts [pr]. *)
From Coq Require Import QArith.
From Verif Require Import Base Dbl Config Search SpecSearch Surr SpecSurr Demo.
Local Open Scope Z_scope.

Definition mk_so (pr : list Z -> Z) (n0 n1 : nat) : surrops Z nat bool :=
  mkSO (fun _ _ _ => true) (fun m _ _ cols => if m : bool then Some (map (fun x => dint (pr x)) cols) else None)
    (fun cmp l => isort cmp l) (fun k => k mod n0)%nat (fun k => k mod n1)%nat.
(** A surrogate of the sphere that is right up to a factor. *)
Definition good_so : surrops Z nat bool := mk_so (fun x => 3 * sphere 0 x) 20 6.
(** A surrogate with values below anything the sphere takes. *)
Definition low_so : surrops Z nat bool := mk_so (fun x => sphere 0 x - 100) 20 6.

Definition srun (so : surrops Z nat bool) (no : numops Z nat) (e : env Z nat) (g : cfg Z) (k : kind) (l : Z) (x0 : list Z) (h : list (sop Z)) : res (surr Z nat bool) :=
  do u <- k_new no g k l false x0 0%nat; run_sops so no e g k h u.
Definition acm_g : cfg Z := set_g_max_iter 6 (set_g_max_fevals 100 (mk_cfg 2 6)).
Definition acm_k : kind := ACM 100.
Definition acm_h : list (sop Z) := [SSetPrelambda 12; SRound; SRound; SRound; SStop; SSetNsteps 3; SOptimize 0 10].

(** Two generations fill the training set; three more use the surrogate. *)
Definition simple_h : list (sop Z) := [SSetNsteps 2; SRound; SRound; SRound; SStop; SOptimize 0 10].
(** Preselection over fewer points than a population needs. *)
Definition few_h : list (sop Z) := [SSetPrelambda 4; SRound; SRound].
(** More true evaluations than there are candidates. *)
Definition many_h : list (sop Z) := [SSetPrelambda 12; SSetLambdaprime 7; SRound; SRound].
(** An objective that overflows. *)
Definition inf_e : env Z nat := mkEnv (fun _ _ => PosInf) false (fun x => Ok x) (fun _ => 0) isort.
