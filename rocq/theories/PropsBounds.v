(** Properties C01-C09 and C54: bounds, scaling, genotype/phenotype transforms. *)
From Coq Require Import Reals Lra Lia List ZArith.
From Verif Require Import Base EoMatrix Pwq Scaling GenoPheno Par GpPar SpecBounds SpecGeno
  PwqProofs GenoPhenoProofs ScalingProofs EoMatrixProofs ParProofs GpParProofs BoundsExtra.
Import ListNotations.
Open Scope R_scope.

(** Concrete data used by the examples. *)
Example ex_ordered : ordered [0; -1] [1; 3].
Proof. repeat constructor; lra. Qed.
Example ex_gp : exists g, gp_bounds None [0; -1] [1; 3] = Ok g.
Proof. eexists; reflexivity. Qed.
Example ex_inside : inside [0; -1] [1; 3] [1/2; 3].
Proof.
  repeat split; try reflexivity; destruct i as [|[|[|i]]]; cbn in *; try congruence;
  injection H as <-; injection H0 as <-; injection H1 as <-; lra.
Qed.

(** C01 *)
Theorem C01_feasible : forall cust lb ub g x,
  ordered lb ub -> len_pres cust -> gp_bounds cust lb ub = Ok g -> length x = length lb ->
  (exists y, pheno g x = Ok y /\ inside lb ub y) \/ pheno g x = Fault IntCast.
Proof. exact feasible. Qed.
Print Assumptions C01_feasible.

Theorem C01_feasible_within_range : forall lb ub g x,
  ordered lb ub -> gp_bounds None lb ub = Ok g -> length x = length lb ->
  within_widths 4294967296 lb ub x ->
  exists y, pheno g x = Ok y /\ inside lb ub y.
Proof. exact feasible_total. Qed.
Print Assumptions C01_feasible_within_range.

Example C01_example : exists g y, gp_bounds None [0; -1] [1; 3] = Ok g /\
  within_widths 4294967296 [0; -1] [1; 3] [100; -7] /\ pheno g [100; -7] = Ok y /\ inside [0; -1] [1; 3] y.
Proof.
  destruct ex_gp as [g Hg]. assert (W : within_widths 4294967296 [0; -1] [1; 3] [100; -7]).
  { intros i l u v; destruct i as [|[|i]]; cbn; intros A B C; try discriminate;
    [injection A as <-; injection B as <-; injection C as <-; lra ..|destruct i; discriminate]. }
  destruct (feasible_total _ _ _ [100; -7] ex_ordered Hg eq_refl W) as (y & H1 & H2).
  exists g, y; auto.
Qed.

(** C02 *)
Theorem C02_round_trip : forall lb ub g y,
  ordered lb ub -> gp_bounds None lb ub = Ok g -> inside lb ub y ->
  exists x, geno g y = Ok x /\ pheno g x = Ok y.
Proof. exact round_trip. Qed.
Print Assumptions C02_round_trip.

Example C02_example : exists g x, gp_bounds None [0; -1] [1; 3] = Ok g /\
  geno g [1/2; 3] = Ok x /\ pheno g x = Ok [1/2; 3].
Proof.
  destruct ex_gp as [g Hg]. destruct (round_trip _ _ _ _ ex_ordered Hg ex_inside) as (x & H).
  exists g, x; tauto.
Qed.

(** C03 *)
Theorem C03_core_identity : forall lb ub g x,
  ordered lb ub -> gp_bounds None lb ub = Ok g -> length x = length lb ->
  (forall i l u v, nth_error lb i = Some l -> nth_error ub i = Some u -> nth_error x i = Some v ->
     l + strip l u l <= v <= u - strip l u u) ->
  pheno g x = Ok x.
Proof. exact core_identity. Qed.
Print Assumptions C03_core_identity.

Theorem C03_monotone : forall lb ub g x x' y y',
  ordered lb ub -> gp_bounds None lb ub = Ok g -> length x = length lb -> length x' = length lb ->
  (forall i l u v v', nth_error lb i = Some l -> nth_error ub i = Some u ->
     nth_error x i = Some v -> nth_error x' i = Some v' ->
     l - strip l u l <= v /\ v <= v' /\ v' <= u + strip l u u) ->
  pheno g x = Ok y -> pheno g x' = Ok y' ->
  pointwise (fun _ a b => a <= b) y y'.
Proof. exact mono_ext. Qed.
Print Assumptions C03_monotone.

Theorem C03_periodic : forall lb ub g x x' y,
  ordered lb ub -> gp_bounds None lb ub = Ok g -> length x = length lb -> length x' = length lb ->
  (forall i l u v v', nth_error lb i = Some l -> nth_error ub i = Some u ->
     nth_error x i = Some v -> nth_error x' i = Some v' ->
     exists k : Z, v' = v + IZR k * period l u) ->
  pheno g x = Ok y ->
  pheno g x' = Ok y \/ pheno g x' = Fault IntCast.
Proof. exact periodic. Qed.
Print Assumptions C03_periodic.

Theorem C03_reached_from_far : forall lb ub g y k,
  ordered lb ub -> gp_bounds None lb ub = Ok g -> inside lb ub y -> (-1000000000 <= k <= 1000000000)%Z ->
  exists x0 x, geno g y = Ok x0 /\ pheno g x = Ok y /\ length x = length lb /\
    forall i l u v0 v, nth_error lb i = Some l -> nth_error ub i = Some u ->
      nth_error x0 i = Some v0 -> nth_error x i = Some v -> v = v0 + IZR k * period l u.
Proof. exact reach_far. Qed.
Print Assumptions C03_reached_from_far.

Example C03_example : exists g, gp_bounds None [0; -1] [1; 3] = Ok g /\ pheno g [1/2; 0] = Ok [1/2; 0].
Proof.
  destruct ex_gp as [g Hg]; exists g; split; [exact Hg|].
  apply (core_identity _ _ _ [1/2; 0] ex_ordered Hg eq_refl).
  intros i l u v; destruct i as [|[|i]]; cbn; intros A B C; try discriminate;
  [injection A as <-; injection B as <-; injection C as <- ..|destruct i; discriminate]; unfold strip.
  - rewrite Rabs_R0, Rabs_R1. rewrite !Rmin_right by lra. lra.
  - rewrite (Rabs_left (-1)), (Rabs_right 3) by lra. rewrite !Rmin_right by lra. lra.
Qed.

(** C04 *)
Theorem C04_endpoints : forall lb ub l,
  ordered lb ub -> lin_make lb ub = Ok l ->
  scale_to_internal l lb = Ok (repeat 0 (length lb)) /\
  scale_to_internal l ub = Ok (repeat 10 (length lb)).
Proof. intros lb ub l H1 H2; exact (conj (scale_lb lb ub l H1 H2) (scale_ub lb ub l H1 H2)). Qed.
Print Assumptions C04_endpoints.

Theorem C04_increasing : forall lb ub l x x' z z',
  ordered lb ub -> lin_make lb ub = Ok l ->
  pointwise (fun _ a b => a < b) x x' ->
  scale_to_internal l x = Ok z -> scale_to_internal l x' = Ok z' ->
  pointwise (fun _ a b => a < b) z z'.
Proof. exact scale_mono. Qed.
Print Assumptions C04_increasing.

Theorem C04_inverse : forall lb ub l x y,
  ordered lb ub -> lin_make lb ub = Ok l ->
  (scale_to_internal l y = Ok x <-> scale_to_f l x = Ok y).
Proof.
  intros lb ub l x y H1 H2.
  exact (conj (scale_f_i l x y (lin_make_lin_ok lb ub l H1 H2)) (scale_i_f l x y (lin_make_lin_ok lb ub l H1 H2))).
Qed.
Print Assumptions C04_inverse.

Theorem C04_user_inverse : forall sc sh l x y,
  lin_user sc sh = Ok l -> (forall i s, nth_error sc i = Some s -> s <> 0) ->
  (scale_to_internal l y = Ok x <-> scale_to_f l x = Ok y).
Proof.
  intros sc sh l x y H1 H2.
  exact (conj (scale_f_i l x y (lin_user_ok sc sh l H1 H2)) (scale_i_f l x y (lin_user_ok sc sh l H1 H2))).
Qed.
Print Assumptions C04_user_inverse.

Example C04_example : exists l, lin_make [0; -1] [1; 3] = Ok l /\ scale_to_internal l [0; -1] = Ok [0; 0].
Proof.
  destruct (lin_make_ok _ _ ex_ordered) as [l Hl]. exists l; split; [exact Hl|].
  exact (scale_lb _ _ _ ex_ordered Hl).
Qed.
Example C04_user_example : exists l, lin_user [2; -3] [0; 1] = Ok l /\ scale_to_internal l [1; 1] = Ok [2; -2].
Proof. eexists; split; [reflexivity|]. cbn. repeat f_equal; ring. Qed.

(** C05 *)
Theorem C05_feasible : forall cust lb ub g x,
  ordered lb ub -> len_pres cust -> gp_bounds_lin cust lb ub = Ok g -> length x = length lb ->
  (exists y, pheno g x = Ok y /\ inside lb ub y) \/ pheno g x = Fault IntCast.
Proof. exact feasible_lin. Qed.
Print Assumptions C05_feasible.

Theorem C05_round_trip : forall lb ub g y,
  ordered lb ub -> gp_bounds_lin None lb ub = Ok g -> inside lb ub y ->
  exists x, geno g y = Ok x /\ pheno g x = Ok y.
Proof. exact round_trip_lin. Qed.
Print Assumptions C05_round_trip.

Theorem C05_reported_bounds : forall cust lb ub g,
  ordered lb ub -> gp_bounds_lin cust lb ub = Ok g -> pheno_bounds g = Some (combine lb ub).
Proof. exact reported_bounds_lin. Qed.
Print Assumptions C05_reported_bounds.

Example C05_example : exists g x, gp_bounds_lin None [0; -1] [1; 3] = Ok g /\
  pheno_bounds g = Some [(0, 1); (-1, 3)] /\ geno g [1/2; 3] = Ok x /\ pheno g x = Ok [1/2; 3].
Proof.
  destruct (gp_bounds_lin_total None _ _ ex_ordered) as [g Hg].
  destruct (round_trip_lin _ _ _ _ ex_ordered Hg ex_inside) as (x & H1 & H2).
  exists g, x. split; [exact Hg|split; [exact (reported_bounds_lin _ _ _ _ ex_ordered Hg)|auto]].
Qed.

(** C06: false as stated; holds for positive factors, as far as feasibility goes. *)
Theorem C06_feasible_positive_partial : forall sc sh lb ub g x,
  (forall i s, nth_error sc i = Some s -> 0 < s) -> length sc = length sh ->
  ordered lb ub -> length lb = length sc ->
  gp_scaling_pwq sc sh (Some (lb, ub)) = Ok g -> length x = length lb ->
  (exists y, pheno g x = Ok y /\ inside lb ub y) \/ pheno g x = Fault IntCast.
Proof. exact feasible_user_scaling. Qed.
Print Assumptions C06_feasible_positive_partial.

Theorem C06_reported_bounds_refuted : exists sc sh lb ub g,
  ordered lb ub /\ (forall i s, nth_error sc i = Some s -> 0 < s) /\
  gp_scaling_pwq sc sh (Some (lb, ub)) = Ok g /\ pheno_bounds g <> Some (combine lb ub).
Proof.
  exists [2], [0], [0], [1]. destruct user_scaling_reports_wrong as (g & H1 & H2). exists g.
  split; [repeat constructor; lra|]. split; [|split; [exact H1|rewrite H2; intros E; injection E; lra]].
  intros [|[|i]] s H; cbn in H; try discriminate; injection H as <-; lra.
Qed.
Print Assumptions C06_reported_bounds_refuted.

Theorem C06_feasible_refuted : exists sc sh lb ub g x y,
  ordered lb ub /\ (forall i s, nth_error sc i = Some s -> s <> 0) /\
  gp_scaling_pwq sc sh (Some (lb, ub)) = Ok g /\ length x = length lb /\
  pheno g x = Ok y /\ ~ inside lb ub y.
Proof.
  destruct user_scaling_negative as (g & y & H1 & H2 & H3).
  exists [-1], [0], [0], [1], g, [1], [y].
  split; [repeat constructor; lra|]. split.
  { intros [|[|i]] s H; cbn in H; try discriminate; injection H as <-; lra. }
  split; [exact H1|split; [reflexivity|split; [exact H2|]]].
  intros (_ & _ & H). specialize (H 0%nat 0 1 y eq_refl eq_refl eq_refl). lra.
Qed.
Print Assumptions C06_feasible_refuted.

Theorem C06_no_bounds_refuted : forall sc sh g v x,
  gp_scaling_pwq sc sh None = Ok g -> pheno g (v :: x) = Fault SizeMismatch.
Proof. exact no_bounds_scaling_faults. Qed.
Print Assumptions C06_no_bounds_refuted.

Example C06_example : exists g, gp_scaling_pwq [2; 1] [0; 1] (Some ([0; -1], [1; 3])) = Ok g.
Proof. eexists; reflexivity. Qed.
Example C06_no_bounds_example : exists g, gp_scaling_pwq [2] [0] None = Ok g.
Proof. eexists; reflexivity. Qed.

(** C07 *)
Theorem C07_population_columns : forall g xs ys,
  pheno_mat g xs = Ok ys <-> mapM (pheno g) xs = Ok ys.
Proof. exact pheno_mat_columns. Qed.
Print Assumptions C07_population_columns.

Theorem C07_geno_population_columns : forall g p ys xs, gp_bound g = PwqBound p ->
  geno_mat g ys = Ok xs <-> mapM (geno g) ys = Ok xs.
Proof. exact geno_mat_columns. Qed.
Print Assumptions C07_geno_population_columns.

Theorem C07_any_schedule : forall g xs out,
  pheno_mat_par g xs out -> out = map (pheno g) xs.
Proof. exact pheno_mat_schedule. Qed.
Print Assumptions C07_any_schedule.

Theorem C07_geno_any_schedule : forall g xs out,
  geno_mat_par g xs out -> out = map (geno g) xs.
Proof. exact geno_mat_schedule. Qed.
Print Assumptions C07_geno_any_schedule.

Theorem C07_schedules_exist : forall g xs, exists out, pheno_mat_par g xs out.
Proof. exact pheno_mat_par_ex. Qed.
Print Assumptions C07_schedules_exist.

Example C07_example : prun [1; 0; 0; 1]%nat (col_loop (fun v => Ok (rev v)) [Ok [1; 2]; Ok [3; 4]])
  = Some (mkPS [Ok [2; 1]; Ok [4; 3]] [(Ok [2; 1], []); (Ok [4; 3], [])] []).
Proof. reflexivity. Qed.

(** C08 *)
Theorem C08_bounds_compose : forall ge ph lb ub g g0 x,
  gp_bounds (Some (ge, ph)) lb ub = Ok g -> gp_bounds None lb ub = Ok g0 ->
  pheno g x = pheno g0 (ph x) /\ geno g x = (do z <- geno g0 x; Ok (ge z)).
Proof. exact custom_bounds. Qed.
Print Assumptions C08_bounds_compose.

Theorem C08_bounds_lin_compose : forall ge ph lb ub g g0 x,
  gp_bounds_lin (Some (ge, ph)) lb ub = Ok g -> gp_bounds_lin None lb ub = Ok g0 ->
  pheno g x = pheno g0 (ph x) /\ geno g x = (do z <- geno g0 x; Ok (ge z)).
Proof. exact custom_bounds_lin. Qed.
Print Assumptions C08_bounds_lin_compose.

Theorem C08_bounds_round_trip : forall ge ph lb ub g y,
  ordered lb ub -> (forall v, ph (ge v) = v) ->
  gp_bounds (Some (ge, ph)) lb ub = Ok g -> inside lb ub y ->
  exists x, geno g y = Ok x /\ pheno g x = Ok y.
Proof. exact round_trip_custom. Qed.
Print Assumptions C08_bounds_round_trip.

Theorem C08_bounds_lin_round_trip : forall ge ph lb ub g y,
  ordered lb ub -> (forall v, ph (ge v) = v) ->
  gp_bounds_lin (Some (ge, ph)) lb ub = Ok g -> inside lb ub y ->
  exists x, geno g y = Ok x /\ pheno g x = Ok y.
Proof. exact round_trip_lin_custom. Qed.
Print Assumptions C08_bounds_lin_round_trip.

Theorem C08_unbounded : forall ge ph x,
  geno (mkGP NoBound (Some (ge, ph)) NoScaling) x = Ok (ge x) /\
  pheno (mkGP NoBound (Some (ge, ph)) NoScaling) x = Ok (ph x).
Proof. exact custom_nb. Qed.
Print Assumptions C08_unbounded.

(** With scaling and no bounds the encode function's result is thrown away. *)
Theorem C08_unbounded_lin_refuted : forall ge ph l y x,
  scale_to_internal l y = Ok x ->
  geno (mkGP NoBound (Some (ge, ph)) (LinScaling l)) y = Fault Uninit.
Proof. exact custom_lin_uninit. Qed.
Print Assumptions C08_unbounded_lin_refuted.

Example C08_example : exists g, gp_bounds (Some (rev (A := R), rev (A := R))) [0; -1] [1; 3] = Ok g /\
  (forall v : list R, rev (rev v) = v).
Proof. eexists; split; [reflexivity|apply rev_involutive]. Qed.
Example C08_lin_example : exists g, gp_bounds_lin (Some (rev (A := R), rev (A := R))) [0; -1] [1; 3] = Ok g.
Proof. apply gp_bounds_lin_total; exact ex_ordered. Qed.
Example C08_unbounded_lin_example : exists g l, gp_nb_lin (Some (rev (A := R), rev (A := R))) [0; -1] [1; 3] = Ok g /\
  lin_make [0; -1] [1; 3] = Ok l /\ g = mkGP NoBound (Some (rev (A := R), rev (A := R))) (LinScaling l) /\
  geno g [0; -1] = Fault Uninit.
Proof.
  destruct (lin_make_ok _ _ ex_ordered) as [l Hl]. unfold gp_nb_lin; rewrite Hl; cbn [bind].
  eexists; exists l; split; [reflexivity|]. split; [reflexivity|split; [reflexivity|]].
  eapply custom_lin_uninit. exact (scale_lb _ _ _ ex_ordered Hl).
Qed.

(** C09: holds for index lists in decreasing order only. *)
Theorem C09_remove_pheno_partial : forall n g ks x y,
  built n g -> (Z.of_nat n < 2147483648)%Z -> high_to_low n ks ->
  pheno g x = Ok y ->
  pheno (gp_remove g (map Z.of_nat ks)) (without ks x) = Ok (without ks y).
Proof. exact remove_pheno. Qed.
Print Assumptions C09_remove_pheno_partial.

Theorem C09_remove_geno_partial : forall n g ks x y,
  built n g -> (Z.of_nat n < 2147483648)%Z -> high_to_low n ks ->
  geno g x = Ok y ->
  geno (gp_remove g (map Z.of_nat ks)) (without ks x) = Ok (without ks y).
Proof. exact remove_geno. Qed.
Print Assumptions C09_remove_geno_partial.

Theorem C09_any_order_refuted : exists n g ks,
  built n g /\ NoDup ks /\ (forall k, In k ks -> (k < n)%nat) /\
  pheno_bounds g = Some [(0, 1); (0, 2); (0, 3)] /\ without ks [1; 2; 3] = [3] /\
  pheno_bounds (gp_remove g (map Z.of_nat ks)) = Some [(0, 2)].
Proof.
  eexists 3%nat, _, [0; 1]%nat.
  split; [eapply (B_bounds 3 [0; 0; 0] [1; 2; 3]); reflexivity|].
  split; [repeat constructor; cbn; intuition lia|].
  split; [cbn; intuition lia|]. repeat split.
Qed.
Print Assumptions C09_any_order_refuted.

Example C09_example : exists g, built 3 g /\ high_to_low 3 [2; 0]%nat /\
  without [2; 0]%nat [1; 2; 3] = [2] /\ pheno_bounds (gp_remove g (map Z.of_nat [2; 0]%nat)) = Some [(0, 2)].
Proof.
  eexists; split; [eapply (B_bounds 3 [0; 0; 0] [1; 2; 3]); reflexivity|].
  split; [|repeat split]. split.
  - intros [|[|[|i]]] k k' A B; cbn in *; try discriminate. injection A as <-; injection B as <-; lia.
  - cbn; intuition lia.
Qed.

(** C54 *)
Theorem C54_remove_then_add : forall (v : list R) (k : Z) a,
  (Z.of_nat (length v) < 2147483648)%Z -> (0 <= k < Z.of_nat (length v))%Z ->
  nth_error v (Z.to_nat k) = Some a ->
  addElement (removeElement v k) k a = v.
Proof. exact (@add_remove_inverse R). Qed.
Print Assumptions C54_remove_then_add.

Theorem C54_add_then_remove : forall (v : list R) (k : Z) a,
  (Z.of_nat (length v) < 2147483648)%Z -> (0 <= k <= Z.of_nat (length v))%Z ->
  removeElement (addElement v k a) k = v.
Proof. exact (@remove_add_inverse R). Qed.
Print Assumptions C54_add_then_remove.

Theorem C54_outside_unchanged : forall (v : list R) (k : Z) a,
  (Z.of_nat (length v) < 2147483648)%Z -> (-2147483648 <= k < 4294967296)%Z ->
  ((k < 0 \/ Z.of_nat (length v) <= k) -> removeElement v k = v)%Z /\
  ((k < 0 \/ Z.of_nat (length v) < k) -> addElement v k a = v)%Z.
Proof.
  intros v k a H1 H2.
  split; intros H; [apply remove_outside|apply add_outside]; unfold small; lia.
Qed.
Print Assumptions C54_outside_unchanged.

Theorem C54_remove_coordinates : forall (v : list R) (k i : nat),
  (Z.of_nat (length v) < 2147483648)%Z -> (k < length v)%nat ->
  nth_error (removeElement v (Z.of_nat k)) i = nth_error v (if (i <? k)%nat then i else S i).
Proof.
  intros v k i H1 H2. rewrite removeElement_nat by lia. exact (nth_error_remove_at v k i H2).
Qed.
Print Assumptions C54_remove_coordinates.

Theorem C54_rows_and_columns : forall (m : list (list R)) k n,
  (forall r, In r m -> length r = n) -> (k < n)%nat -> (k < length m)%nat ->
  removeRow m k = Ok (without [k] m) /\ removeColumn m k = Ok (map (without [k]) m).
Proof.
  intros m k n H1 H2 H3. rewrite removeRow_ok, (removeColumn_ok m k n) by assumption.
  split; f_equal; [|apply map_ext_in; intros r Hr];
  rewrite without_keep, <- (fold_remove_decreasing [k]); try reflexivity;
  cbn; intuition (try lia); subst; try (rewrite (H1 r Hr)); assumption.
Qed.
Print Assumptions C54_rows_and_columns.

Example C54_example : addElement (removeElement [1; 2; 3] 1) 1 2 = [1; 2; 3] /\
  removeElement [1; 2; 3] (-1) = [1; 2; 3] /\
  removeRow [[1; 2]; [3; 4]; [5; 6]] 1 = Ok [[1; 2]; [5; 6]] /\
  removeColumn [[1; 2]; [3; 4]; [5; 6]] 0 = Ok [[2]; [4]; [6]].
Proof. repeat split. Qed.
