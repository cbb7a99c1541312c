(** Properties C10-C20: strategy parameters and configuration. *)
From Coq Require Import Reals Lra Lia List ZArith String.
From Verif Require Import Base Params SpecParams Config SpecConfig ParamsProofs AdaptProofs ConfigProofs.
Import ListNotations.
Open Scope R_scope.
Local Open Scope list_scope.

(** C10 *)
Theorem C10_weights : forall n lambda, (1 <= n)%nat -> (2 <= lambda)%nat ->
  let p := cma_params n lambda in
  List.length (k_w p) = Nat.div2 lambda /\ k_mu p = Nat.div2 lambda /\ (1 <= k_mu p)%nat /\
  (forall i w, nth_error (k_w p) i = Some w -> 0 < w) /\
  (forall i w w', nth_error (k_w p) i = Some w -> nth_error (k_w p) (S i) = Some w' -> w' < w) /\
  sumR (k_w p) = 1 /\ 1 <= k_muw p <= INR (k_mu p) /\
  k_muw p = 1 / sumR (map (fun w => w * w) (k_w p)).
Proof. exact (fun n lambda Hn Hl => weights_ok (blank n lambda) (conj Hn Hl)). Qed.
Print Assumptions C10_weights.

(** The weights survive every adaptation except the one that changes lambda. *)
Theorem C10_weights_after_restart : forall n lambda k, (1 <= n)%nat -> (2 <= lambda)%nat ->
  let p := Nat.iter k lambda_inc (cma_params n lambda) in
  List.length (k_w p) = Nat.div2 (2 ^ k * lambda) /\ (1 <= List.length (k_w p))%nat /\ sumR (k_w p) = 1 /\
  (forall i w, nth_error (k_w p) i = Some w -> 0 < w).
Proof. exact weights_restarts. Qed.
Print Assumptions C10_weights_after_restart.

Example C10_example : List.length (k_w (cma_params 3 7)) = 3%nat /\ sumR (k_w (cma_params 3 7)) = 1.
Proof. pose proof (C10_weights 3 7 ltac:(lia) ltac:(lia)) as H; cbn zeta in H. split; [apply H|apply H]. Qed.

(** C11 *)
Theorem C11_default_rates : forall n lambda, (1 <= n)%nat -> (2 <= lambda)%nat ->
  let p := cma_params n lambda in
  admissible p /\ 1 + k_csigma p <= k_dsigma p /\ 0 < k_chi p /\ 0 < k_lazy p /\
  0 < k_fact_ps p /\ 0 < k_fact_pc p.
Proof. exact default_admissible. Qed.
Print Assumptions C11_default_rates.
Example C11_example : k_c1 (cma_params 30 2) = 2 / (31.3 * 31.3 + 1).
Proof.
  change (k_c1 (cma_params 30 2)) with (2 / ((INR 30 + 1.3) * (INR 30 + 1.3) + muw_of 1)).
  rewrite muw_lambda2. replace (INR 30) with 30 by (cbn; lra). lra.
Qed.

(** C12: any history in which set_sep is called at most once (set_noisy,
    set_tpa, set_fixed_p and unset_fixed_p any number of times). *)
Theorem C12_adaptations : forall n lambda h, (1 <= n)%nat -> (2 <= lambda)%nat -> (sep_calls h <= 1)%nat ->
  admissible (fold_left do_adapt h (cma_params n lambda)).
Proof. exact adapted_admissible. Qed.
Print Assumptions C12_adaptations.
Theorem C12_free_dimensions : forall p m, (List.length m < k_dim p)%nat -> 0 < k_c1 p + k_cmu p ->
  0 < k_chi (with_fixed p m) /\ 0 < k_lazy (with_fixed p m).
Proof. exact fixed_chi. Qed.
Print Assumptions C12_free_dimensions.
(** The restriction on set_sep is needed. *)
Theorem C12_repeated_sep_inadmissible :
  let p := fold_left do_adapt [Sep; Sep; Sep] (cma_params 30 2) in 1 < k_c1 p /\ k_cmu p < 0.
Proof. exact sep_thrice. Qed.
Print Assumptions C12_repeated_sep_inadmissible.
Example C12_example : admissible (fold_left do_adapt [Fix 0 1; Noisy; Sep; Tpa 2; Unfix 0] (cma_params 5 8)).
Proof. apply C12_adaptations; cbn; lia. Qed.

(** C13 *)
Theorem C13_vd_rates_partial : forall n lambda a, (5 <= n)%nat -> (2 <= lambda)%nat ->
  (a = 12 \/ a = 13 \/ a = 14)%Z ->
  let p := set_vd (set_algo a (cma_params n lambda)) in
  k_vd p = true /\ 0 < k_csigma p < 1 /\ 0 <= k_c1 p < 1 /\ 0 <= k_cmu p /\ k_c1 p + k_cmu p <= 1 /\ 0 < k_dsigma p.
Proof. exact vd_ge5. Qed.
Print Assumptions C13_vd_rates_partial.
Theorem C13_vd_rates_refuted : forall n lambda a, (1 <= n < 5)%nat -> (2 <= lambda)%nat ->
  (a = 12 \/ a = 13 \/ a = 14)%Z ->
  k_c1 (set_vd (set_algo a (cma_params n lambda))) < 0.
Proof. exact vd_lt5. Qed.
Print Assumptions C13_vd_rates_refuted.
Example C13_example : 0 <= k_c1 (set_vd (set_algo 12 (cma_params 10 10))) /\
                      k_c1 (set_vd (set_algo 12 (cma_params 2 6))) < 0.
Proof.
  split; [|apply C13_vd_rates_refuted; lia || tauto].
  pose proof (C13_vd_rates_partial 10 10 12 ltac:(lia) ltac:(lia) ltac:(tauto)) as H. cbn zeta in H. tauto.
Qed.

(** C14 *)
Theorem C14_default_lambda : forall n l, (1 <= n)%nat -> (l < 2)%Z ->
  let v := ctor_lambda n l in (4 <= v)%Z /\ IZR v - 4 <= 3 * ln (INR n) < IZR v - 3.
Proof. exact default_lambda_spec. Qed.
Print Assumptions C14_default_lambda.
Theorem C14_given_lambda : forall n l, (2 <= l)%Z -> ctor_lambda n l = l.
Proof. exact given_lambda. Qed.
Print Assumptions C14_given_lambda.
Example C14_example : (4 <= ctor_lambda 10 (-1))%Z /\ ctor_lambda 10 50 = 50%Z.
Proof. split; [apply C14_default_lambda; lia|reflexivity]. Qed.

(** C15 *)
Theorem C15_restart_plain_partial : forall n lambda k,
  Nat.iter k lambda_inc (cma_params n lambda) = cma_params n (2 ^ k * lambda).
Proof. exact restarts_plain. Qed.
Print Assumptions C15_restart_plain_partial.
Theorem C15_restart_refuted :
  (forall n lambda, (2 <= n)%nat -> (2 <= lambda)%nat ->
     k_c1 (lambda_inc (set_sep (cma_params n lambda))) < k_c1 (set_sep (cma_params n (2 * lambda)))) /\
  (forall n lambda, (1 <= n)%nat -> (2 <= lambda)%nat ->
     k_lambda (lambda_inc (set_noisy (cma_params n lambda))) = k_lambda (set_noisy (cma_params n (2 * lambda))) /\
     k_c1 (lambda_inc (set_noisy (cma_params n lambda))) = 5 * k_c1 (set_noisy (cma_params n (2 * lambda)))) /\
  (forall lambda, (2 <= lambda)%nat ->
     k_dsigma (lambda_inc (set_tpa 2 (cma_params 1 lambda))) > k_dsigma (set_tpa 2 (cma_params 1 (2 * lambda)))) /\
  (forall lambda v, k_chi (lambda_inc (set_fixed_p 0 v (cma_params 2 lambda))) >
                    k_chi (set_fixed_p 0 v (cma_params 2 (2 * lambda)))).
Proof. exact restart_refuted. Qed.
Print Assumptions C15_restart_refuted.
Example C15_example : k_lambda (Nat.iter 3 lambda_inc (cma_params 4 10)) = 80%nat.
Proof. reflexivity. Qed.

(** C16 *)
Theorem C16_fixed_iff_last_call_set : forall n lambda h i,
  (exists v, map_find (k_fixed (run_hist n lambda h)) i = Some v) <->
  (exists v, last_such (about i) h = Some (Fix i v)).
Proof. exact fixed_iff. Qed.
Print Assumptions C16_fixed_iff_last_call_set.
Theorem C16_value_partial : forall n lambda a b i v,
  (last_such (about i) a = None \/ last_such (about i) a = Some (Unfix i)) ->
  (forall j, In (Unfix j) b -> j <> i) ->
  map_find (k_fixed (run_hist n lambda (a ++ Fix i v :: b))) i = Some v.
Proof. exact fixed_first. Qed.
Print Assumptions C16_value_partial.
Theorem C16_last_value_refuted :
  map_find (k_fixed (run_hist 3 4 [Fix 0 1; Fix 0 2])) 0 = Some 1.
Proof. reflexivity. Qed.
Print Assumptions C16_last_value_refuted.
Theorem C16_free_dimensions : forall n lambda h a, (exists i, about i a = true) ->
  NoDup (map fst (k_fixed (run_hist n lambda (h ++ [a])))) /\
  k_chi (run_hist n lambda (h ++ [a])) =
  chi_of (INR n - INR (List.length (k_fixed (run_hist n lambda (h ++ [a]))))).
Proof. exact (fun n lambda h a H => conj (fixed_nodup n lambda _) (fixed_free n lambda h a H)). Qed.
Print Assumptions C16_free_dimensions.
Example C16_example :
  map_find (k_fixed (run_hist 3 4 [Fix 0 1; Fix 2 7; Unfix 0; Fix 0 2])) 0 = Some 2 /\
  map_find (k_fixed (run_hist 3 4 [Fix 0 1; Fix 2 7; Unfix 0])) 0 = None.
Proof. split; reflexivity. Qed.

(** C17 *)
Theorem C17_first_call_wins_partial : forall h c, In c criteria_codes ->
  map_find (flags_of_ctor (stop_map h)) c =
  Some (match first_such (for_code c) h with Some (_, b) => b | None => true end).
Proof. exact flags_first_wins. Qed.
Print Assumptions C17_first_call_wins_partial.
Theorem C17_last_call_wins_partial : forall h c, In c criteria_codes ->
  (forall b1 b2, In (c, b1) h -> In (c, b2) h -> b1 = b2) ->
  map_find (flags_of_ctor (stop_map h)) c =
  Some (match last_such (for_code c) h with Some (_, b) => b | None => true end).
Proof. exact flags_last_wins. Qed.
Print Assumptions C17_last_call_wins_partial.
Theorem C17_last_call_refuted :
  map_find (flags_of_ctor (stop_map [(8, false); (8, true)]%Z)) 8 = Some false /\
  map_find (flags_of_ctor_from_solution (stop_map [(8, false)]%Z)) 8 = Some true.
Proof. split; reflexivity. Qed.
Print Assumptions C17_last_call_refuted.
Example C17_example : In 8%Z criteria_codes /\
  map_find (flags_of_ctor (stop_map [(6, false); (8, false); (99, true)]%Z)) 6 = Some false /\
  map_find (flags_of_ctor (stop_map [(6, false); (8, false); (99, true)]%Z)) 7 = Some true.
Proof. split; [cbn; tauto|split; reflexivity]. Qed.

(** C18 *)
Theorem C18_last_scheme_partial : forall h,
  (last_such valid_elitism h = Some 0%Z -> last_such nonzero_elitism h <> Some 3%Z) ->
  elit_run h = expected_elit (last_such valid_elitism h).
Proof. exact elit_last_wins. Qed.
Print Assumptions C18_last_scheme_partial.
(** Otherwise (0 after 3, with only 0 and invalid codes since) every scheme is on. *)
Theorem C18_zero_after_three_refuted : forall h,
  last_such valid_elitism h = Some 0%Z -> last_such nonzero_elitism h = Some 3%Z ->
  elit_run h = mkElit true true true.
Proof. exact elit_zero_after_three. Qed.
Print Assumptions C18_zero_after_three_refuted.
Example C18_example : elit_run [1; 3; 0]%Z = mkElit true true true /\ elit_run [3; 1; 0]%Z = elit0 /\
  elit_run [3; 7; 2]%Z = mkElit false true false.
Proof. repeat split. Qed.

(** C19 *)
Theorem C19_documented_names_partial : forall name a p, In (name, a) documented ->
  (a <> 10 /\ a <> 11)%Z ->
  set_str_algo name p =
    (let q := set_algo a p in
     if (6 <=? a)%Z && (a <=? 11)%Z then set_sep q else if (12 <=? a)%Z then set_vd q else q) /\
  k_algo (set_str_algo name p) = a.
Proof. exact str_algo_documented. Qed.
Print Assumptions C19_documented_names_partial.
Theorem C19_unknown_name_partial : forall name p,
  (forall a, ~ In (name, a) documented) -> contains "sep" name = false -> contains "vd" name = false ->
  set_str_algo name p = p.
Proof. exact str_algo_unknown. Qed.
Print Assumptions C19_unknown_name_partial.
Theorem C19_names_refuted :
  (forall p, k_algo (set_str_algo "sepaipop" p) = k_algo p) /\
  (forall p, k_algo (set_str_algo "sepabipop" p) = k_algo p) /\
  (forall p, k_sep (set_str_algo "separable" p) = true).
Proof. repeat split; intros; reflexivity. Qed.
Print Assumptions C19_names_refuted.
Example C19_example : k_algo (set_str_algo "sepipop" (cma_params 4 8)) = 7%Z /\
  k_sep (set_str_algo "sepipop" (cma_params 4 8)) = true /\
  set_str_algo "nosuch" (cma_params 4 8) = cma_params 4 8.
Proof. repeat split. Qed.

(** C20 *)
Theorem C20_nonzero_seeds_partial : forall s0 h s c, s0 <> 0%Z ->
  (forall e, In e (h ++ [(s, c)]) -> (- 2 ^ 31 <= fst e < 2 ^ 31)%Z /\ fst e <> 0%Z) ->
  seed_run s0 (h ++ [(s, c)]) = (s mod 2 ^ 64)%Z /\ get_seed (seed_run s0 (h ++ [(s, c)])) = s.
Proof. exact seed_last_wins. Qed.
Print Assumptions C20_nonzero_seeds_partial.
Theorem C20_constructor : forall s c, (0 < s < 2 ^ 31)%Z -> get_seed (ctor_seed s c) = s /\ ctor_seed 0 c = c /\
  forall h s' c', (forall e, In e (h ++ [(s', c')]) -> (- 2 ^ 31 <= fst e < 2 ^ 31)%Z /\ fst e <> 0%Z) ->
  get_seed (seed_run (ctor_seed s c) (h ++ [(s', c')])) = s'.
Proof. exact seed_ctor. Qed.
Print Assumptions C20_constructor.
(** set_seed(0) yields the seed 0 instead of the clock, and the next call then
    yields the clock instead of its argument. *)
Theorem C20_zero_seed_refuted : forall s0 s c1 c2, s0 <> 0%Z ->
  seed_run s0 [(0, c1)]%Z = 0%Z /\ seed_run s0 [(0, c1); (s, c2)]%Z = c2.
Proof. exact seed_zero. Qed.
Print Assumptions C20_zero_seed_refuted.
Example C20_example : get_seed (seed_run (ctor_seed 0 1700000000000) [(42, 1); (-7, 2)]%Z) = (-7)%Z.
Proof. reflexivity. Qed.
