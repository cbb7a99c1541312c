(** Model of include/libcmaes/genopheno.h. *)
From Coq Require Import Reals Lra.
From Verif Require Import Base EoMatrix Pwq Scaling.
Open Scope R_scope.

(** Template argument TBoundStrategy: NoBoundStrategy (noboundstrategy.h) or
    pwqBoundStrategy. *)
Inductive bstrat := NoBound | PwqBound (p : pwq).
(** Template argument TScalingStrategy: NoScalingStrategy (scaling.h:37-82) or
    linScalingStrategy. *)
Inductive sstrat := NoScaling | LinScaling (l : linscale).

(** A TransFunc writes [dim] outputs from [dim] inputs (genopheno.h:32). *)
Definition transfunc := list R -> list R.

(** GenoPheno fields, genopheno.h:256-260.  [gp_custom] is [None] when _id is
    true, otherwise the pair (_genof,_phenof). *)
Record genopheno := mkGP {
  gp_bound : bstrat;
  gp_custom : option (transfunc * transfunc);
  gp_scale : sstrat
}.

(** Constructors. *)

(** genopheno.h:40-42 for the four instantiations (default members). *)
Definition gp_default_nb : genopheno := mkGP NoBound None NoScaling.
Definition gp_default_nb_lin : genopheno := mkGP NoBound None (LinScaling lin_default).
Definition gp_default_pwq : genopheno := mkGP (PwqBound []) None NoScaling.

(** genopheno.h:48-59, with custom functions 61-73; pwq bounds, no scaling. *)
Definition gp_bounds (cust : option (transfunc * transfunc)) (lb ub : list R) : res genopheno :=
  do p <- pwq_make lb ub; Ok (mkGP (PwqBound p) cust NoScaling).

(** genopheno.h:48-59 / 61-73; pwq bounds and linear scaling: internal bounds
    are [intmin,intmax] and the user bounds become the phenotype bounds. *)
Definition gp_bounds_lin (cust : option (transfunc * transfunc)) (lb ub : list R) : res genopheno :=
  do l <- lin_make lb ub;
  let n := length lb in
  do p <- pwq_make5 (repeat intmin n) (repeat intmax n) lb ub;
  Ok (mkGP (PwqBound p) cust (LinScaling l)).

(** genopheno.h:48-59 / 61-73 instantiated with NoBoundStrategy and
    linScalingStrategy: bounds are ignored except for the scaling. *)
Definition gp_nb_lin (cust : option (transfunc * transfunc)) (lb ub : list R) : res genopheno :=
  do l <- lin_make lb ub; Ok (mkGP NoBound cust (LinScaling l)).

(** genopheno.h:336-345. *)
Definition gp_scaling_nb (scaling shift : list R) : res genopheno :=
  do l <- lin_user scaling shift; Ok (mkGP NoBound None (LinScaling l)).

(** genopheno.h:347-362: the bound strategy is built on the scaled bounds with
    the 3-argument constructor (so phenotype bounds = internal bounds); absent
    bounds leave the default, empty, bound strategy. *)
Definition gp_scaling_pwq (scaling shift : list R) (bounds : option (list R * list R)) : res genopheno :=
  do l <- lin_user scaling shift;
  match bounds with
  | None => Ok (mkGP (PwqBound []) None (LinScaling l))
  | Some (lb, ub) =>
      do nlb <- scale_to_internal l lb;
      do nub <- scale_to_internal l ub;
      do p <- pwq_make nlb nub;
      Ok (mkGP (PwqBound p) None (LinScaling l))
  end.

(** Scaling step shared by the generic pheno (genopheno.h:206-212): skipped
    when the scaling is flagged as identity. *)
Definition scale_f_step (s : sstrat) (y : list R) : res (list R) :=
  match s with
  | NoScaling => Ok y
  | LinScaling l => if l_id l then Ok y else scale_to_f l y
  end.
Definition scale_i_step (s : sstrat) (y : list R) : res (list R) :=
  match s with
  | NoScaling => Ok y
  | LinScaling l => if l_id l then Ok y else scale_to_internal l y
  end.
Definition custom_pheno (g : genopheno) (x : list R) : list R :=
  match gp_custom g with None => x | Some (_, ph) => ph x end.
Definition custom_geno (g : genopheno) (x : list R) : list R :=
  match gp_custom g with None => x | Some (ge, _) => ge x end.

(** pheno(dVec): generic genopheno.h:190-214 (used with pwq bounds),
    specialisations 270-280 (no bounds, no scaling) and 293-304 (no bounds,
    linear scaling: scaling always applied, also when flagged identity). *)
Definition pheno (g : genopheno) (x : list R) : res (list R) :=
  match gp_bound g, gp_scale g with
  | NoBound, NoScaling => Ok (custom_pheno g x)
  | NoBound, LinScaling l => scale_to_f l (custom_pheno g x)
  | PwqBound p, s =>
      do y <- pwq_to_f p (custom_pheno g x); scale_f_step s y
  end.

(** geno(dVec): generic 216-239, specialisations 281-291 and 305-317.  In the
    last one the custom encode function writes into its own input and the
    freshly allocated, never written, vector is returned. *)
Definition geno (g : genopheno) (y : list R) : res (list R) :=
  match gp_bound g, gp_scale g with
  | NoBound, NoScaling => Ok (custom_geno g y)
  | NoBound, LinScaling l =>
      do s <- scale_to_internal l y;
      match gp_custom g with
      | None => Ok s
      | Some _ => Fault Uninit
      end
  | PwqBound p, s =>
      do c <- scale_i_step s y;
      do x <- pwq_to_internal p c;
      Ok (custom_geno g x)
  end.

(** pheno(dMat): the three column loops, in sequence, of genopheno.h:133-159,
    264-269 and 318-334; a population is the list of its columns.  The loops
    are parallel in the code (see Par.v for their interleavings). *)
Definition pheno_mat (g : genopheno) (xs : list (list R)) : res (list (list R)) :=
  let cs := map (custom_pheno g) xs in
  match gp_bound g, gp_scale g with
  | NoBound, NoScaling => Ok cs
  | NoBound, LinScaling l => mapM (scale_to_f l) cs
  | PwqBound p, s =>
      do ys <- mapM (pwq_to_f p) cs; mapM (scale_f_step s) ys
  end.

(** geno(dMat), genopheno.h:161-188 (generic only: with NoBoundStrategy it does
    not compile, to_internal_representation being absent from noboundstrategy.h). *)
Definition geno_mat (g : genopheno) (ys : list (list R)) : res (list (list R)) :=
  match gp_bound g with
  | NoBound => Fault Uninit
  | PwqBound p =>
      do ss <- mapM (scale_i_step (gp_scale g)) ys;
      do xs <- mapM (pwq_to_internal p) ss;
      Ok (map (custom_geno g) xs)
  end.

(** get_boundstrategy().getPhenoLBound / getPhenoUBound
    (pwq_bound_strategy.h:50-51) for every dimension; unbounded strategies
    report -DBL_MAX / DBL_MAX, modelled as [None]. *)
Definition pheno_bounds (g : genopheno) : option (list (R * R)) :=
  match gp_bound g with
  | NoBound => None
  | PwqBound p => Some (map (fun q => (q_plb q, q_pub q)) p)
  end.
(** getLBound / getUBound (pwq_bound_strategy.h:48-49): internal bounds. *)
Definition intern_bounds (g : genopheno) : option (list (R * R)) :=
  match gp_bound g with
  | NoBound => None
  | PwqBound p => Some (map (fun q => (q_lb q, q_ub q)) p)
  end.

(** remove_dimensions, genopheno.h:247-253. *)
Definition gp_remove (g : genopheno) (k : list Z) : genopheno :=
  mkGP (match gp_bound g with NoBound => NoBound | PwqBound p => PwqBound (pwq_remove p k) end)
       (gp_custom g)
       (match gp_scale g with
        | NoScaling => NoScaling
        | LinScaling l => if l_id l then LinScaling l else LinScaling (lin_remove l k)
        end).
