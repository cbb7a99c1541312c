(** Property C94: the names of the parameters. *)
From Coq Require Import Reals List Lia Lra.
From Verif Require Import Base Dbl Vec Params SpecParams Config Search SpecSearch SpecInvar SpecMorph SpecSafe SpecUh Update SpecUpdate ParamSound DemoNum DemoNumProofs NumThms SpecAffine AffineThms SpecRot SpecPerm PermThms.
Import ListNotations.
Open Scope R_scope.

(** [s] is any renaming of the parameters and [r] undoes it.  The second search
    is given the renamed starting point, the objective that undoes the renaming
    and the same normal draws renamed.  Both go wrong at the same point or reach
    states that correspond: points, means, variances, evolution paths and
    objective calls renamed; values, counters, status and step size equal, so
    that every stopping criterion fires in both or in neither.  This holds for
    sep-CMA-ES, its active form and VD-CMA. *)
Theorem C94_renaming : forall s r p e g pr x0 n n' hs,
  renames (k_dim (p_k p)) s r -> no_matrix p -> same_problem p g -> plain_space p e g -> std_sort_ok e ->
  (forall so so', moved_sol (perm s) (permuted_num (k_dim (p_k p)) s) so so' -> pr so' = e_progress e so) ->
  length x0 = k_dim (p_k p) -> perm_stream (k_dim (p_k p)) s n n' -> Forall (point_op g) hs -> initial_known g hs ->
  moved_result (perm s) (permuted_num (k_dim (p_k p)) s)
    (do q <- st_new (cma_num p) g x0 n; run_ops (cma_num p) e g hs q)
    (do q <- st_new (cma_num (perm_par s p)) g (perm s x0) n'; run_ops (cma_num (perm_par s p)) (perm_env r pr e) g (map (move_op (perm s)) hs) q).
Proof. exact renaming. Qed.
Print Assumptions C94_renaming.
(** The same for m iterations of the user's own ask, evaluate and tell loop. *)
Theorem C94_iterations : forall s r p e g pr x0 n n' m,
  renames (k_dim (p_k p)) s r -> no_matrix p -> same_problem p g -> plain_space p e g -> std_sort_ok e ->
  (forall so so', moved_sol (perm s) (permuted_num (k_dim (p_k p)) s) so so' -> pr so' = e_progress e so) ->
  length x0 = k_dim (p_k p) -> perm_stream (k_dim (p_k p)) s n n' -> needs_initial g = false ->
  moved_result (perm s) (permuted_num (k_dim (p_k p)) s)
    (do q <- st_new (cma_num p) g x0 n; rounds (cma_num p) g e m q)
    (do q <- st_new (cma_num (perm_par s p)) g (perm s x0) n'; rounds (cma_num (perm_par s p)) g (perm_env r pr e) m q).
Proof. exact renaming_rounds. Qed.
Print Assumptions C94_iterations.
(** What is renamed: draw i of a block is draw s i of the same block of the
    first search, coordinate i of a point is coordinate s i, and [r] undoes [s]. *)
Theorem C94_draws : forall d s z c i, (i < d)%nat -> perm_draws d s z (c * d + i)%nat = z (c * d + s i)%nat.
Proof. exact draws_renamed. Qed.
Print Assumptions C94_draws.
Theorem C94_points : forall s r x, renames (length x) s r ->
  perm r (perm s x) = x /\ length (perm s x) = length x /\ forall i, (i < length x)%nat -> at0 (perm s x) i = at0 x (s i).
Proof. exact perm_inverse. Qed.
Print Assumptions C94_points.
Example C94_example : let p := npar_of (set_sep k24) Active in let g := cfg_of (set_sep k24) in
  renames (k_dim (p_k p)) swap swap /\ no_matrix p /\ same_problem p g /\ plain_space p point_env g /\ std_sort_ok point_env /\
  (forall so so', e_progress point_env so' = e_progress point_env so) /\ perm_stream (k_dim (p_k p)) swap num0 num0 /\
  Forall (point_op g) h24 /\ initial_known g h24 /\ needs_initial g = false /\ perm swap [1; 2] = [2; 1] /\
  exists s0 s, st_new (cma_num p) g [1; 2] num0 = Ok s0 /\ run_ops (cma_num p) point_env g h24 s0 = Ok s.
Proof.
  cbv zeta. split; [apply swap_renames; cbn; lia|]. split; [repeat split; auto|]. split; [repeat split|]. split; [repeat split|]. split; [apply point_env_sort|]. split; [reflexivity|].
  split; [repeat split; exists 0%nat; reflexivity|].
  split; [repeat constructor|]. split; [discriminate|]. split; [reflexivity|]. split; [reflexivity|]. apply run_point; [cbn; lia|reflexivity|reflexivity|]. repeat constructor.
Qed.
Example C94_vd_example : let k := set_vd (set_algo 12 k24) in let p := npar_of k Vd in let g := cfg_of k in
  renames (k_dim (p_k p)) swap swap /\ no_matrix p /\ same_problem p g /\ plain_space p point_env g /\ perm_stream (k_dim (p_k p)) swap num0 num0 /\
  exists s0 s, st_new (cma_num p) g [1; 2] num0 = Ok s0 /\ run_ops (cma_num p) point_env g h24 s0 = Ok s.
Proof.
  cbv zeta. split; [apply swap_renames; cbn; lia|]. split; [repeat split; auto|]. split; [repeat split|]. split; [repeat split|].
  split; [repeat split; exists 0%nat; reflexivity|]. apply run_point; [cbn; lia|reflexivity|reflexivity|]. repeat constructor.
Qed.
