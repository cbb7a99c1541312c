(** Property theorems: error estimation (fixed coordinates, profile likelihood, contours). *)
From Coq Require Import Reals Lra.
From Verif Require Import Base EoMatrix GenoPheno SpecGeno Errstats SpecErr ErrVpk ErrPli ErrTerm ErrDemo ErrDemoProofs ErrContour ErrThms.
Local Open Scope R_scope.

(** C55: values given in the search space, with indices from low to high. *)
Theorem C55_values : forall func par cm n sol k vk x0 px s,
  built n (a_gp par) -> (Z.of_nat n < 2147483648)%Z -> keeps_dim cm ->
  low_to_high n k -> (length k < n)%nat -> length vk = length k -> length x0 = n ->
  optimize_vpk func par cm sol k vk x0 px false = Ok s ->
  exists c, best s = Ok c /\ length (ec_x c) = n /\ values_at k vk (ec_x c).
Proof. exact vpk_values. Qed.
Print Assumptions C55_values.
(** Values given in phenotype, when some point of the domain has them. *)
Theorem C55_phenotype_values : forall func par cm n sol k vk x0 px s,
  built n (a_gp par) -> (Z.of_nat n < 2147483648)%Z -> keeps_dim cm ->
  low_to_high n k -> (length k < n)%nat -> length vk = length k -> length x0 = n ->
  optimize_vpk func par cm sol k vk x0 px true = Ok s ->
  forall y x, values_at k vk y -> geno (a_gp par) y = Ok x -> pheno (a_gp par) x = Ok y ->
  exists c, best s = Ok c /\ length (ec_x c) = n /\ forall z, pheno (a_gp par) (ec_x c) = Ok z -> values_at k vk z.
Proof. exact vpk_pheno_values. Qed.
Print Assumptions C55_phenotype_values.
(** With one fixed coordinate the value returned is that of the returned point. *)
Theorem C55_one_coordinate_value : forall func par cm n sol k v x0 px s,
  built n (a_gp par) -> (Z.of_nat n < 2147483648)%Z -> keeps_dim cm ->
  true_value cm -> (k < n)%nat -> (1 < n)%nat -> length x0 = n -> optimize_pk func par cm sol k v x0 px false = Ok s ->
  exists c y, best s = Ok c /\ pheno (a_gp par) (ec_x c) = Ok y /\ ec_f c = func y.
Proof. exact pk_value. Qed.
Print Assumptions C55_one_coordinate_value.
(** So it is for any number of coordinates without bounds nor scaling. *)
Theorem C55_unbounded_value : forall func par cm n, built n (a_gp par) -> (Z.of_nat n < 2147483648)%Z -> keeps_dim cm ->
  forall sol k vk x0 px pv s, true_value cm -> a_gp par = gp_default_nb ->
  low_to_high n k -> (length k < n)%nat -> length vk = length k -> length x0 = n ->
  optimize_vpk func par cm sol k vk x0 px pv = Ok s ->
  exists c, best s = Ok c /\ values_at k vk (ec_x c) /\ ec_f c = func (ec_x c).
Proof. exact vpk_value_plain. Qed.
Print Assumptions C55_unbounded_value.
Example C55_example : exists s c,
  optimize_vpk valley (mkEP 3 gp_default_nb 4 1 0 [10; 10; 10] 0.1) (point_search 10)
    (mkES [mkEC [10; 10; 10] 0] [mkEC [10; 10; 10] 0] [] 1 0 []) [0; 2]%nat [12; 13] [10; 10; 10] false false = Ok s /\
  best s = Ok c /\ ec_x c = [12; 10; 13].
Proof. exact two_of_three. Qed.
Example C55_example_hypotheses : built 3 gp_default_nb /\ keeps_dim (point_search 10) /\ true_value (point_search 10) /\
  low_to_high 3 [0; 2]%nat.
Proof.
  split; [constructor|]. split; [apply point_dim|]. split; [apply point_value|]. split.
  - intros [|[|i]] k k' E1 E2; cbn in *; try discriminate; try (destruct i; discriminate). injection E1 as <-; injection E2 as <-; lia.
  - intros k [<-|[<-|[]]]; lia.
Qed.
(** When every coordinate is fixed the values are not those requested. *)
Theorem C55_all_fixed_refuted : exists s c,
  low_to_high 2 [0; 1]%nat /\
  optimize_vpk valley valley_par (point_search 10) valley_sol [0; 1]%nat [12; 13] [10; 10] false false = Ok s /\
  best s = Ok c /\ ec_x c = [10; 10] /\ ec_f c = 0.
Proof. exact all_fixed. Qed.
Print Assumptions C55_all_fixed_refuted.
(** Indices from high to low: the point returned has too many coordinates. *)
Theorem C55_any_order_refuted : exists s c,
  optimize_vpk valley valley_par (point_search 10) valley_sol [1; 0]%nat [12; 13] [10; 10] false false = Ok s /\
  best s = Ok c /\ length (ec_x c) = 3%nat.
Proof. exact order_size. Qed.
Print Assumptions C55_any_order_refuted.
(** With bounds and two indices from low to high the search uses the bounds of
    another coordinate: the value returned is not that of the point returned. *)
Theorem C55_bounded_value_refuted : exists s c y,
  low_to_high 3 [0; 1]%nat /\ built 3 (a_gp box_par) /\ keeps_dim (point_search 10) /\ true_value (point_search 10) /\
  optimize_vpk third box_par (point_search 10) (mkES [mkEC [1/2; 1/2; 10] 10] [mkEC [1/2; 1/2; 10] 10] [] 1 0 [])
    [0; 1]%nat [1/2; 1/2] [1/2; 1/2; 10] false false = Ok s /\
  best s = Ok c /\ pheno (a_gp box_par) (ec_x c) = Ok y /\ third y = 10 /\ ec_f c <= 2.
Proof. exact order_bounds. Qed.
Print Assumptions C55_bounded_value_refuted.

(** C56: the interval, and the deviations from the optimum. *)
Theorem C56_interval : forall func par cm fuel lfuel sol k curve s fup delta maxiters l sol',
  profile_likelihood func par cm fuel lfuel sol k curve s fup delta maxiters = Ok (l, sol') ->
  p_min l <= p_max l /\ exists b y v, best sol = Ok b /\ pheno (a_gp par) (ec_x b) = Ok y /\ nth_error y k = Some v /\
    p_errmin l = p_min l - v /\ p_errmax l = p_max l - v.
Proof. exact interval_ok. Qed.
Print Assumptions C56_interval.
(** The stored curve: 2s+1 points, the optimum in the middle; the bounds are the
    points on each side whose values are closest to the requested level. *)
Theorem C56_curve : forall func par cm fuel lfuel sol k curve s fup delta maxiters l sol',
  profile_likelihood func par cm fuel lfuel sol k curve s fup delta maxiters = Ok (l, sol') ->
  length (p_fvaluem l) = (2 * s + 1)%nat /\ length (p_xm l) = (2 * s + 1)%nat /\
  (exists b y, best sol = Ok b /\ pheno (a_gp par) (ec_x b) = Ok y /\ nth_error (p_fvaluem l) s = Some (ec_f b) /\ nth_error (p_xm l) s = Some y /\
   exists i j ri rj u w fi fj, (i < s < j)%nat /\ nth_error (p_xm l) i = Some ri /\ nth_error ri k = Some u /\
     nth_error (p_xm l) j = Some rj /\ nth_error rj k = Some w /\ p_min l = Rmin u w /\ p_max l = Rmax u w /\
     nth_error (p_fvaluem l) i = Some fi /\ nth_error (p_fvaluem l) j = Some fj /\
     (forall m f, (m < s)%nat -> nth_error (p_fvaluem l) m = Some f -> Rabs (fi - (ec_f b + fup)) <= Rabs (f - (ec_f b + fup))) /\
     (forall m f, (s < m)%nat -> nth_error (p_fvaluem l) m = Some f -> Rabs (fj - (ec_f b + fup)) <= Rabs (f - (ec_f b + fup)))).
Proof. exact curve_ok. Qed.
Print Assumptions C56_curve.
(** No access out of range, for at least one sample and a solution that has a
    full matrix of eigenvectors. *)
Theorem C56_accesses : forall func par cm n fuel lfuel sol k curve s fup delta maxiters,
  built n (a_gp par) -> (Z.of_nat n < 2147483648)%Z -> a_dim par = n -> keeps_dim cm -> (forall rf ip, in_range (cm rf ip)) ->
  full_solution n sol -> (k < n)%nat -> (0 < s)%nat ->
  in_range (profile_likelihood func par cm fuel lfuel sol k curve s fup delta maxiters).
Proof. exact safe_ok. Qed.
Print Assumptions C56_accesses.
(** The first interval computed for a coordinate is the one kept. *)
Theorem C56_first_kept_partial : forall func par cm fuel lfuel sol k curve s fup delta maxiters l sol',
  profile_likelihood func par cm fuel lfuel sol k curve s fup delta maxiters = Ok (l, sol') ->
  get_pli k sol' = match get_pli k sol with Some l0 => Some l0 | None => Some l end /\
  forall k', k' <> k -> get_pli k' sol' = get_pli k' sol.
Proof. exact pl_cached. Qed.
Print Assumptions C56_first_kept_partial.
Example C56_example : exists l, profile_likelihood valley valley_par (point_search 10) 5 5 valley_sol 0 false 10 2 0.1 100 = Ok (l, insert_pli 0 l valley_sol) /\
  p_min l = 10 - 2 /\ p_max l = 10 + 2 /\ p_errmin l = - (2) /\ p_errmax l = 2.
Proof. apply (valley_interval valley_sol 0 10 2 4 2 100); [repeat split|auto|lia|auto]. Qed.
Example C56_example_solution : full_solution 2 valley_sol.
Proof. exact valley_full. Qed.
(** A second computation, for another level, is not kept. *)
Theorem C56_last_kept_refuted : exists l2 s2 l4 s4,
  profile_likelihood valley valley_par (point_search 10) 5 5 valley_sol 0 false 10 2 0.1 100 = Ok (l2, s2) /\
  profile_likelihood valley valley_par (point_search 10) 5 5 s2 0 false 10 4 0.1 100 = Ok (l4, s4) /\
  p_min l2 = 8 /\ p_max l2 = 12 /\ p_min l4 = 6 /\ p_max l4 = 14 /\ get_pli 0 s4 = Some l2.
Proof. exact second_not_kept. Qed.
Print Assumptions C56_last_kept_refuted.
(** With no sample the call is never successful. *)
Theorem C56_no_sample_refuted : exists f, profile_likelihood valley valley_par (point_search 10) 5 5 valley_sol 0 false 0 2 0.1 100 = Fault f.
Proof. exact no_sample. Qed.
Print Assumptions C56_no_sample_refuted.

(** C57: after the first, every step ends. *)
Theorem C57_later_steps : forall func par fuel k minf fup delta m eigv d x, (m < fuel)%nat ->
  ends (take_linear_step func par fuel k minf fup delta m false eigv d x).
Proof. exact linear_ends. Qed.
Print Assumptions C57_later_steps.
(** The first step ends when some doubling of the step gets out of the level. *)
Theorem C57_first_step_partial : forall func par j fuel k minf fup delta m eigv d x,
  (forall y, pheno (a_gp par) x = Ok y -> func y = minf) -> 0 <= fup -> 0 <= delta -> (0 < j < fuel)%nat ->
  (forall z, after_doublings par eigv k d x j = Ok z -> ~ Rabs (func z - minf) < fup - delta * fup) ->
  ends (take_linear_step func par fuel k minf fup delta m true eigv d x).
Proof. exact first_linear_ends. Qed.
Print Assumptions C57_first_step_partial.
(** The computation ends when its two first steps do. *)
Theorem C57_computation_partial : forall func par cm fuel lfuel sol k curve s fup delta maxiters b xk,
  (forall rf ip, ends (cm rf ip)) -> (10 < lfuel)%nat ->
  (0 < maxiters <= Z.of_nat fuel)%Z -> best sol = Ok b -> nth_error (ec_x b) k = Some xk ->
  (forall d, d = xk / 10 \/ d = - xk / 10 ->
     ends (take_linear_step func par lfuel k (ec_f b) fup delta 10 true (s_eigv sol) d (ec_x b))) ->
  ends (profile_likelihood func par cm fuel lfuel sol k curve s fup delta maxiters).
Proof. exact pl_ends. Qed.
Print Assumptions C57_computation_partial.
Example C57_example : forall fuel, exists x e,
  take_linear_step valley valley_par (S (S (S fuel))) 0 0 2 0.1 10 true (s_eigv valley_sol) 1 [10; 10] = Ok (e, [x; 10]) /\ x = 10 + 2 * 1.
Proof. intros fuel. exact (valley_step 0 1 2 fuel (or_introl eq_refl) (or_introl eq_refl) (or_introl eq_refl)). Qed.
(** A coordinate of the optimum is zero: the step is zero and stays so. *)
Theorem C57_zero_coordinate : forall func par cm fuel lfuel sol k curve s fup delta maxiters b y,
  full_solution (a_dim par) sol -> best sol = Ok b -> nth_error (ec_x b) k = Some 0 ->
  pheno (a_gp par) (ec_x b) = Ok y -> length y = a_dim par -> length (ec_x b) = a_dim par -> func y = ec_f b ->
  0 < fup -> 0 <= delta < 1 -> in_bounds par y k = Ok true ->
  profile_likelihood func par cm fuel lfuel sol k curve s fup delta maxiters = Fault Diverges.
Proof. exact zero_forever. Qed.
Print Assumptions C57_zero_coordinate.
Theorem C57_refuted : exists func par sol, full_solution 2 sol /\ best sol = Ok (mkEC [0; 0] 0) /\
  (forall x, func x = fold_right (fun a s => a * a + s) 0 x) /\ a_gp par = gp_default_nb /\
  forall cm fuel lfuel curve s maxiters, profile_likelihood func par cm fuel lfuel sol 0 curve s 1 0.1 maxiters = Fault Diverges.
Proof. exists bowl, valley_par, bowl_sol. exact (conj bowl_full (conj eq_refl (conj (fun x => eq_refl) (conj eq_refl bowl_forever)))). Qed.
Print Assumptions C57_refuted.

(** C58: the number of points. *)
Theorem C58_count : forall func par cm fuel lfuel px py np fup sol delta m ps sol',
  contour_points func par cm fuel lfuel px py np fup sol delta m = Ok (ps, sol') ->
  (4 <= Z.of_nat (length ps) <= Z.max 4 np)%Z.
Proof. exact count_ok. Qed.
Print Assumptions C58_count.
(** The level, provided intervals known from earlier calls have that level. *)
Theorem C58_level_partial : forall func par cm fuel lfuel px py np fup sol delta m ps sol',
  (forall l, get_pli px sol = Some l \/ get_pli py sol = Some l -> p_fup l = fup) ->
  contour_points func par cm fuel lfuel px py np fup sol delta m = Ok (ps, sol') ->
  exists lx ly, get_pli px sol' = Some lx /\ get_pli py sol' = Some ly /\ p_fup lx = fup /\ p_fup ly = fup /\
    exists b y vx vy, best sol' = Ok b /\ pheno (a_gp par) (ec_x b) = Ok y /\ nth_error y px = Some vx /\ nth_error y py = Some vy /\
    (exists w, In (vx + p_errmin lx, w) ps) /\ (exists w, In (vx + p_errmax lx, w) ps) /\
    (exists w, In (w, vy + p_errmin ly) ps) /\ (exists w, In (w, vy + p_errmax ly) ps).
Proof. exact level_ok. Qed.
Print Assumptions C58_level_partial.
Example C58_example : forall np fup, (np <= 4)%Z -> fup = 2 \/ fup = 4 ->
  exists ps sol', contour_points valley valley_par (point_search 10) 5 5 0 1 np fup valley_sol 0.1 100 = Ok (ps, sol') /\
    ps = [(10 - fup, 10); (10, 10 - fup); (10 + fup, 10); (10, 10 + fup)].
Proof.
  intros np fup H1 H2. destruct (valley_contour 4 2 100 np fup H1 H2) as (ps & sol' & H & E & _). exists ps, sol'. auto.
Qed.
(** Asked for level 4 after level 2, the contour of level 2 is returned. *)
Theorem C58_level_refuted : exists ps sol',
  contour_points valley valley_par (point_search 10) 5 5 0 1 4 2 valley_sol 0.1 100 = Ok (ps, sol') /\
  ps = [(8, 10); (10, 8); (12, 10); (10, 12)] /\
  contour_points valley valley_par (point_search 10) 5 5 0 1 4 4 sol' 0.1 100 = Ok (ps, sol').
Proof. exact contour_stale. Qed.
Print Assumptions C58_level_refuted.

(** C69: the bounds of the interval.  Each is zero, or the optimum, or the
    coordinate of a point found by a search with that coordinate fixed, at the
    requested level within ten percent. *)
Theorem C69_level_partial : forall func par cm fuel lfuel sol k s fup delta maxiters l sol',
  profile_likelihood func par cm fuel lfuel sol k false s fup delta maxiters = Ok (l, sol') ->
  exists b y v, best sol = Ok b /\ pheno (a_gp par) (ec_x b) = Ok y /\ nth_error y k = Some v /\
    forall u, u = p_min l \/ u = p_max l ->
      u = 0 \/ u = v \/ exists f z,
        (exists v0 x0 s1 c, optimize_pk func par cm sol k v0 x0 false false = Ok s1 /\ best s1 = Ok c /\
           pheno (a_gp par) (ec_x c) = Ok z /\ ec_f c = f /\ near_level (ec_f b) fup f /\ ~ f < ec_f b / 10) /\
        nth_error z k = Some u.
Proof. exact pl_bounds. Qed.
Print Assumptions C69_level_partial.
Example C69_example : exists l, profile_likelihood valley valley_par (point_search 10) 5 5 valley_sol 1 false 3 4 0.1 7 = Ok (l, insert_pli 1 l valley_sol) /\
  p_min l = 10 - 4 /\ p_max l = 10 + 4 /\ p_errmin l = - (4) /\ p_errmax l = 4.
Proof. apply (valley_interval valley_sol 1 3 4 4 2 7); [repeat split|auto|lia|auto]. Qed.
(** A sufficiently negative minimum: the interval is made of zero and the optimum. *)
Theorem C69_negative_minimum : forall func par cm fuel lfuel sol k s fup delta maxiters l sol' b,
  profile_likelihood func par cm fuel lfuel sol k false s fup delta maxiters = Ok (l, sol') ->
  best sol = Ok b -> 11 * fup < -9 * ec_f b ->
  exists y v, pheno (a_gp par) (ec_x b) = Ok y /\ nth_error y k = Some v /\
    forall u, u = p_min l \/ u = p_max l -> u = 0 \/ u = v.
Proof. exact pl_negative. Qed.
Print Assumptions C69_negative_minimum.
(** The valley shifted by -100: the interval of level 2 is reduced to a point,
    although the function has the value -98 at distance 2. *)
Theorem C69_negative_refuted : exists l,
  profile_likelihood deep valley_par (point_search 10) 5 5 deep_sol 0 false 10 2 0.1 100 = Ok (l, insert_pli 0 l deep_sol) /\
  p_min l = 10 /\ p_max l = 10.
Proof. exact deep_interval. Qed.
Print Assumptions C69_negative_refuted.
(** One iteration allowed and the level missed: the interval is [0,0], and does
    not contain the optimum 10. *)
Theorem C69_not_reached_refuted : exists l s',
  profile_likelihood valley valley_par (point_search 10) 1 5 valley_sol 0 false 1 3 0.1 1 = Ok (l, s') /\ p_min l = 0 /\ p_max l = 0.
Proof. exact not_reached. Qed.
Print Assumptions C69_not_reached_refuted.

(** C70: after a run with a diagonal covariance matrix the eigenvectors are
    stored as one column, and the profile likelihood adds vectors of different
    sizes. *)
Theorem C70_diagonal_refuted : forall func par cm fuel lfuel sol k curve s fup delta maxiters b y xk,
  best sol = Ok b -> nth_error (ec_x b) k = Some xk -> pheno (a_gp par) (ec_x b) = Ok y -> length y = a_dim par ->
  length (ec_x b) = a_dim par -> (1 < a_dim par)%nat -> func y = ec_f b ->
  0 < fup -> 0 <= delta < 1 -> in_bounds par y k = Ok true ->
  length (s_eigv sol) = a_dim par -> Forall (fun r => length r = 1%nat) (s_eigv sol) ->
  profile_likelihood func par cm (S fuel) (S lfuel) sol k curve s fup delta maxiters = Fault SizeMismatch.
Proof. exact sep_mismatch. Qed.
Print Assumptions C70_diagonal_refuted.
Example C70_example : profile_likelihood valley valley_par (point_search 10) 5 5 (mkES [optimum] [optimum] [[1]; [1]] 20 0 []) 0 false 10 2 0.1 100 = Fault SizeMismatch.
Proof.
  apply (sep_mismatch valley valley_par (point_search 10) 4 4 _ 0 false 10 2 0.1 100 optimum [10; 10] 10); try reflexivity; try (cbn; lia); try lra.
  - rewrite valley_2. cbn [ec_f optimum]. rewrite Rminus_diag_eq, Rabs_R0 by reflexivity. lra.
  - repeat constructor.
Qed.
(** With a full matrix of eigenvectors it does not: C56_accesses. *)
Theorem C70_full_partial : forall func par cm n fuel lfuel sol k curve s fup delta maxiters,
  built n (a_gp par) -> (Z.of_nat n < 2147483648)%Z -> a_dim par = n -> keeps_dim cm -> (forall rf ip, in_range (cm rf ip)) ->
  full_solution n sol -> (k < n)%nat -> (0 < s)%nat ->
  in_range (profile_likelihood func par cm fuel lfuel sol k curve s fup delta maxiters).
Proof. exact safe_ok. Qed.
Print Assumptions C70_full_partial.
