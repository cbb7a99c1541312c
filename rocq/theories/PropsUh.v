(** Uncertainty handling (C59, C60). *)
From Coq Require Import Permutation.
From Verif Require Import Base Dbl Config Search SpecSearch SpecSafe SpecUh UhProofs SearchThms2 UhLevel Demo DemoProofs.
Local Open Scope Z_scope.

(** C59: one generation, evaluated then ranked; [s_cuh] is the list of ranked
    candidates.  Failure of the sort (C60) is excluded by the [Ok] hypotheses. *)
Theorem C59_generation_partial : forall T N (no : numops T N) (e : env T N) (g : cfg T) s s1 s2 cols phen,
  std_sort_ok e -> g_uh g = true -> no_elitism g -> length cols = length (s_cands (t_sol s)) -> (1 <= length cols)%nat ->
  eval no e g cols phen s = Ok s1 -> tell no e g s1 = Ok s2 ->
  (exists r, (1 <= r <= length cols)%nat /\ length (t_log s2) = (length (t_log s) + length cols + r)%nat /\
     s_nevals (t_sol s2) = s_nevals (t_sol s) + Z.of_nat (length cols + r)) /\
  map c_x (s_cands (t_sol s1)) = cols /\ map c_id (s_cands (t_sol s1)) = upto (length cols) /\
  Permutation (s_cands (t_sol s2)) (s_cands (t_sol s1)) /\
  Permutation (map (fun c => (r_idx c, r_f c)) (s_cuh (t_sol s2))) (combine (seq 0 (length cols)) (map c_f (s_cands (t_sol s1)))) /\
  ranks_by r_f r_r1 (s_cuh (t_sol s2)) /\ ranks_by r_mut r_r2 (s_cuh (t_sol s2)) /\
  (forall i a, nth_error (s_cuh (t_sol s2)) i = Some a -> nth_error (s_cands (t_sol s2)) i = nth_error (s_cands (t_sol s1)) (r_idx a)).
Proof. exact @uh_generation. Qed.
Print Assumptions C59_generation_partial.
Example C59_example : let g := set_g_uh true (mk_cfg 1 3) in std_sort_ok (table [0; 10; 20; 25; 5]) /\ no_elitism g /\
  exists s s1 s2, st_new line_no g [0] 0%nat = Ok s /\ length (s_cands (t_sol s)) = 3%nat /\
    eval line_no (table [0; 10; 20; 25; 5]) g [[1]; [2]; [3]] [] s = Ok s1 /\ tell line_no (table [0; 10; 20; 25; 5]) g s1 = Ok s2 /\
    map c_x (s_cands (t_sol s2)) = [[2]; [3]; [1]] /\ length (t_log s2) = 5%nat.
Proof.
  split; [apply mk_env_sort|]. split; [reflexivity|]. do 3 eexists. split; [vm_compute; reflexivity|]. split; [reflexivity|].
  split; [vm_compute; reflexivity|]. split; [vm_compute; reflexivity|]. split; vm_compute; reflexivity.
Qed.

(** C59: second values, rank changes, noise level, its effect on the step size,
    and the final order: by the sum of the two ranks, except against a candidate
    with r1(b) + r2(b) = 2 r2(a) (C60). *)
Theorem C59_noise_partial : forall T N (no : numops T N) (e : env T N) (g : cfg T), std_sort_ok e -> forall s s1 s2 cols phen,
  g_uh g = true -> length cols = g_lambda g -> (1 <= length cols)%nat ->
  eval no e g cols phen s = Ok s1 -> tell no e g s1 = Ok s2 ->
  exists r L, length (t_log s2) = (length (t_log s) + length cols + r)%nat /\
    Forall (reevaluated (t_log s2) (length (t_log s) + length cols) r) (s_cuh (t_sol s2)) /\
    (forall d, rank_limit (g_lambda g) d (L d)) /\
    (exists m, s_num (t_sol s2) = let n := n_update no (s_niter (t_sol s2)) (map c_x (s_cands (t_sol s2))) m in
       if 0 <? noise L r (s_cuh (t_sol s2)) then n_uh_scale no n else n) /\
    (forall i j a b, (i < j)%nat -> nth_error (s_cuh (t_sol s2)) i = Some a -> nth_error (s_cuh (t_sol s2)) j = Some b ->
       r_r1 a + r_r2 a <= r_r1 b + r_r2 b \/ r_r1 b + r_r2 b = 2 * r_r2 a).
Proof. exact @uh_noise. Qed.
Print Assumptions C59_noise_partial.
Example C59_noise_example : let g := set_g_uh true (mk_cfg 1 3) in g_lambda g = 3%nat /\
  exists s s1 s2, st_new line_no g [0] 0%nat = Ok s /\ eval line_no (table [0; 10; 20; 25; 5]) g [[1]; [2]; [3]] [] s = Ok s1 /\
    tell line_no (table [0; 10; 20; 25; 5]) g s1 = Ok s2 /\
    map (fun a => (r_idx a, r_r1 a, r_r2 a, r_delta a)) (s_cuh (t_sol s2)) = [(1%nat, 1, 0, 0); (2%nat, 2, 1, 0); (0%nat, 0, 2, 1)].
Proof.
  split; [reflexivity|]. do 3 eexists. split; [vm_compute; reflexivity|]. split; [vm_compute; reflexivity|]. split; [vm_compute; reflexivity|]. vm_compute; reflexivity.
Qed.

(** C60: the comparison is a strict weak order on the candidates of a
    population when no two distinct ones meet r1(a) + r2(a) = 2 r2(b). *)
Theorem C60_order_partial : forall reev tot l,
  (forall a b, In a l -> In b l -> r_r1 a + r_r2 a = 2 * r_r2 b -> a = b) ->
  strict_weak_order (cmp_ranks reev tot) (fun c => In c l).
Proof. exact cmp_ranks_swo. Qed.
Print Assumptions C60_order_partial.
Theorem C60_irreflexive_partial : forall reev tot a, cmp_ranks reev tot a a = false.
Proof. exact cmp_ranks_irrefl. Qed.
Print Assumptions C60_irreflexive_partial.
(** In general it is not: a population of seven, two of them re-evaluated,
    reaches the sort with a comparison that is no strict weak order. *)
Theorem C60_order_refuted : exists (no : numops Z nat) (e : env Z nat) (g : cfg Z) x0,
  real_values e /\ std_sort_ok e /\ dims_ok no g /\ g_uh g = true /\ no_elitism g /\ opt no e g x0 0 3 = Fault BadCompare.
Proof.
  exists line_no, (table [0; 2; 4; 6; 8; 10; 12; 13; 11]), (set_g_uh true (set_g_max_iter 1 (mk_cfg 1 7))), [0].
  split; [apply mk_env_real|]. split; [apply mk_env_sort|]. split; [apply line_dims; reflexivity|]. split; [reflexivity|]. split; [reflexivity|vm_compute; reflexivity].
Qed.
Print Assumptions C60_order_refuted.
(** The comparison itself is not asymmetric. *)
Theorem C60_asymmetry_refuted : exists reev tot a b, cmp_ranks reev tot a b = true /\ cmp_ranks reev tot b a = true.
Proof. exists 2%nat, 4, (mkR (dint 4) 0 (dint 2) 4 2 (-1)), (mkR (dint 2) 3 (dint 3) 2 3 0). split; reflexivity. Qed.
Print Assumptions C60_asymmetry_refuted.
Example C60_example : strict_weak_order (cmp_ranks 2 3)
  (fun c => In c [mkR (dint 0) 0 (dint 25) 0 5 0; mkR (dint 10) 1 (dint 5) 3 2 0]).
Proof. apply C60_order_partial. intros a b [<-|[<-|[]]] [<-|[<-|[]]]; cbn; lia. Qed.
