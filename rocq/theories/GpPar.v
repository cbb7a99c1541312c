(** The population transforms of genopheno.h with their parallel loops. *)
From Coq Require Import Reals.
From Verif Require Import Base EoMatrix Pwq Scaling GenoPheno Par.

(** A column slot holds the column, or the fault its computation met. *)
Definition col := res (list R).

(** One parallel loop over the columns (genopheno.h:113-127, 139-145, 150-156,
    165-171, 176-182, 325-331): iteration [i] first computes its private vector
    from column [i], then stores it back into column [i]. *)
Definition col_loop (f : list R -> res (list R)) (cols : list col) : pstate col col unit :=
  mkPS cols
    (map (fun i => (Fault Uninit : col,
                    [ mkAct i (fun v _ => (v, bind v f, []));
                      mkAct i (fun _ l => (l, l, [])) ]))
         (seq 0 (length cols)))
    [].

(** The loop, under some complete schedule, turns [cols] into [cols']. *)
Definition loop_to (f : list R -> res (list R)) (cols cols' : list col) : Prop :=
  exists sched s', prun sched (col_loop f cols) = Some s' /\ finished s' /\ p_mem s' = cols'.

(** pheno_candidates, genopheno.h:107-130: no loop when the transform is the identity. *)
Definition custom_pheno_par (g : genopheno) (a b : list col) : Prop :=
  match gp_custom g with
  | None => a = b
  | Some (_, ph) => loop_to (fun v => Ok (ph v)) a b
  end.
Definition custom_geno_par (g : genopheno) (a b : list col) : Prop :=
  match gp_custom g with
  | None => a = b
  | Some (ge, _) => loop_to (fun v => Ok (ge v)) a b
  end.

(** Scaling loop, skipped when the strategy is flagged identity (genopheno.h:147,162). *)
Definition scale_par (s : sstrat) (step : sstrat -> list R -> res (list R)) (a b : list col) : Prop :=
  match s with
  | NoScaling => a = b
  | LinScaling l => if l_id l then a = b else loop_to (step s) a b
  end.

(** pheno(dMat), genopheno.h:133-159, 264-269, 318-334. *)
Definition pheno_mat_par (g : genopheno) (xs : list (list R)) (out : list col) : Prop :=
  exists m1, custom_pheno_par g (map Ok xs) m1 /\
  match gp_bound g, gp_scale g with
  | NoBound, NoScaling => m1 = out
  | NoBound, LinScaling l => loop_to (scale_to_f l) m1 out
  | PwqBound p, s => exists m2, loop_to (pwq_to_f p) m1 m2 /\ scale_par s scale_f_step m2 out
  end.

(** geno(dMat), genopheno.h:161-188. *)
Definition geno_mat_par (g : genopheno) (ys : list (list R)) (out : list col) : Prop :=
  match gp_bound g with
  | NoBound => False
  | PwqBound p =>
      exists m1 m2, scale_par (gp_scale g) scale_i_step (map Ok ys) m1 /\
        loop_to (pwq_to_internal p) m1 m2 /\ custom_geno_par g m2 out
  end.
