(** Property C77: cmaes() and surrcmaes() run the selected algorithm. *)
From Coq Require Import Reals String List Lia Lra.
From Verif Require Import Base Params SpecParams Config SpecConfig AdaptProofs Update Dispatch SpecDispatch DispatchProofs.
Import ListNotations.
Local Open Scope Z_scope.

(** A parameter object not yet adapted to a restriction of the covariance.  The
    first algorithm is selected by code; the program then selects algorithms of
    the same restriction and runs them, in any order and any number of times.
    Each run is one of the algorithm selected last, with the restarts and the
    update it is documented to have, and with the initial parameters adapted
    once. *)
Theorem C77_codes_partial : forall r p0 a h n, k_sep p0 = false /\ k_vd p0 = false ->
  has_restriction r a -> Forall (steady r) h ->
  Forall2 (runs_algorithm p0) (in_force (SelCode a :: h) (k_algo p0)) (launches (SelCode a :: h) (p0, n)).
Proof. exact code_first. Qed.
Print Assumptions C77_codes_partial.
(** The same when the first algorithm is selected by name. *)
Theorem C77_names_partial : forall r p0 s a h n, k_sep p0 = false /\ k_vd p0 = false ->
  In (s, a) documented -> a <> 10 /\ a <> 11 -> has_restriction r a -> Forall (steady r) h ->
  Forall2 (runs_algorithm p0) (in_force (SelName s :: h) (k_algo p0)) (launches (SelName s :: h) (p0, n)).
Proof. exact name_first. Qed.
Print Assumptions C77_names_partial.
(** After a separable or a VD run with the same parameter object, selecting the
    unrestricted algorithm runs a restricted one ... *)
Theorem C77_after_sep_refuted : forall p0 grad n, exists l1 l2,
  launches [SelCode 6; Run 0 grad; SelCode 0; Run 0 grad] (p0, n) = [Some l1; Some l2] /\
  l_update l2 = Full /\ k_sep (l_par l2) = true.
Proof. exact back_from_sep. Qed.
Print Assumptions C77_after_sep_refuted.
Theorem C77_after_vd_refuted : forall p0 grad n, exists l1 l2,
  launches [SelCode 12; Run 0 grad; SelCode 0; Run 0 grad] (p0, n) = [Some l1; Some l2] /\
  l_update l2 = Full /\ k_vd (l_par l2) = true.
Proof. exact back_from_vd. Qed.
Print Assumptions C77_after_vd_refuted.
(** ... and so it is when a separable algorithm was only named before. *)
Theorem C77_renamed_refuted : forall p0 grad n, exists l,
  launches [SelName "sepcmaes"; SelName "cmaes"; Run 0 grad] (p0, n) = [Some l] /\
  l_strategy l = Single /\ l_update l = Full /\ k_sep (l_par l) = true.
Proof. exact back_by_name. Qed.
Print Assumptions C77_renamed_refuted.
(** With a surrogate the adaptation is repeated at every call: the third run
    has a learning rate above 1 and a negative one. *)
Theorem C77_surrogate_refuted : exists p0 l1 l2 l3, p0 = cma_params 30 2 /\
  launches [SelCode 6; Surr; Surr; Surr] (p0, 0%nat) = [Some l1; Some l2; Some l3] /\
  (1 < k_c1 (l_par l3) /\ k_cmu (l_par l3) < 0)%R.
Proof.
  exists (cma_params 30 2). destruct (surr_adapts (cma_params 30 2) 0) as (l1 & l2 & l3 & E & E1 & E2 & E3).
  exists l1, l2, l3. split; [reflexivity|]. split; [exact E|]. rewrite E3, E2, E1. exact sep_thrice.
Qed.
Print Assumptions C77_surrogate_refuted.
(** Another code: nothing is run, the parameters are left alone. *)
Theorem C77_unknown_code : forall p cov grad, ~ (0 <= k_algo p <= 14) -> cmaes p cov grad = (None, p) /\ surrcmaes p = (None, p).
Proof. exact unknown_code. Qed.
Print Assumptions C77_unknown_code.
(** The gradient and progress functions are passed on, and the plot function in
    all cases but the next. *)
Theorem C77_functions_partial : forall p cov grad l, fst (cmaes p cov grad) = Some l ->
  l_grad l = grad /\ l_progress l = true /\ (cov = 0%nat \/ ~ (8 <= k_algo p <= 11) -> l_plot l = true).
Proof. exact forwarded. Qed.
Print Assumptions C77_functions_partial.
Theorem C77_plot_refuted : forall p cov grad, (8 <= k_algo p <= 11) -> (0 < cov)%nat ->
  exists l, fst (cmaes p cov grad) = Some l /\ l_plot l = false.
Proof. exact plot_lost. Qed.
Print Assumptions C77_plot_refuted.
(** The solution of a run, passed to the next call, is used by the algorithms
    of the full covariance; the others start from scratch. *)
Theorem C77_continue_partial : forall p0 a grad grad' n, k_sep p0 = false /\ k_vd p0 = false -> (0 < k_dim p0)%nat -> (0 <= a < 6) ->
  exists l l', launches [SelCode a; Run 0 grad; Again grad'] (p0, n) = [Some l; Some l'] /\ l_from l = false /\ l_from l' = true.
Proof. exact continue_full. Qed.
Print Assumptions C77_continue_partial.
Theorem C77_continue_refuted : forall p0 a grad grad' n, (6 <= a <= 14) ->
  exists l l', launches [SelCode a; Run 0 grad; Again grad'] (p0, n) = [Some l; Some l'] /\ l_from l' = false.
Proof. exact continue_restricted. Qed.
Print Assumptions C77_continue_refuted.
Example C77_example : let p0 := cma_params 5 8 in
  (k_sep p0 = false /\ k_vd p0 = false) /\ has_restriction Diagonal 7 /\
  Forall (steady Diagonal) [Run 0 false; SelCode 10; Run 25 true; Again false] /\
  map (option_map (fun l => (l_strategy l, l_update l, k_sep (l_par l), l_from l)))
      (launches [SelCode 7; Run 0 false; SelCode 10; Run 25 true; Again false] (p0, 0%nat)) =
  [Some (Ipop, Full, true, false); Some (Ipop, Active, true, true); Some (Ipop, Active, true, true)].
Proof.
  cbv zeta. split; [split; reflexivity|]. split; [exists Ipop, Full; cbn; tauto|]. split; [|reflexivity].
  repeat constructor. exists Ipop, Active. cbn. tauto.
Qed.
