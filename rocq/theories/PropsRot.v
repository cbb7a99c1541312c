(** Property C83: rotation of the search space. *)
From Coq Require Import Reals List Lia Lra.
From Verif Require Import Base Dbl Vec Params SpecParams Config Search SpecSearch SpecInvar SpecMorph SpecSafe SpecUh Update SpecUpdate SpecAffine SpecRot RotProofs RotThms DemoNum DemoNumProofs NumThms AffineThms ActiveThms RotDemo.
Import ListNotations.
Open Scope R_scope.

(** q is any rotation or reflection, the second objective is f(q^T x), started
    at q x0.  Both searches go wrong at the same point or reach states that
    correspond: points, means, evolution paths and objective calls rotated,
    covariance q C q^T; values, counters, status and step size equal.  [hs] is
    any sequence of ask, of evaluation and update with a population, of stop and
    of optimize.  The eigensolver of the second search returns the same
    eigenvalues and the rotated eigenvectors. *)
Theorem C83_rotation : forall q p e g pr x0 n n' hs,
  orthogonal (k_dim (p_k p)) q -> good_weights (p_k p) -> full_matrix p -> same_problem p g -> plain_space p e g ->
  g_uh g = false -> no_coordinate_criteria g -> std_sort_ok e ->
  (forall so so', moved_sol (rot q) (rotated_num (k_dim (p_k p)) q) so so' -> pr so' = e_progress e so) ->
  length x0 = k_dim (p_k p) -> rot_stream (k_dim (p_k p)) q n n' -> Forall (point_op g) hs -> initial_known g hs ->
  moved_result (rot q) (rotated_num (k_dim (p_k p)) q)
    (do s <- st_new (cma_num p) g x0 n; run_ops (cma_num p) e g hs s)
    (do s <- st_new (cma_num (rot_par q p)) g (rot q x0) n'; run_ops (cma_num (rot_par q p)) (rot_env q pr e) g (map (move_op (rot q)) hs) s).
Proof. intros q p e g pr x0 n n' hs HQ HW HF HG HP HH HC HU HPr. exact (rot_history q p HQ HW HF e g pr HG HP HH HC HU HPr x0 n n' hs). Qed.
Print Assumptions C83_rotation.
(** That eigensolver is a correct one. *)
Theorem C83_solver : forall q p, orthogonal (k_dim (p_k p)) q -> eigensolver_ok p -> eigensolver_ok (rot_par q p).
Proof. exact (fun q p => rot_solver_ok p q). Qed.
Print Assumptions C83_solver.
(** The same for m iterations of the user's own ask, evaluate and tell loop. *)
Theorem C83_iterations : forall q p e g pr x0 n n' m,
  orthogonal (k_dim (p_k p)) q -> good_weights (p_k p) -> full_matrix p -> same_problem p g -> plain_space p e g ->
  g_uh g = false -> no_coordinate_criteria g -> std_sort_ok e ->
  (forall so so', moved_sol (rot q) (rotated_num (k_dim (p_k p)) q) so so' -> pr so' = e_progress e so) ->
  length x0 = k_dim (p_k p) -> rot_stream (k_dim (p_k p)) q n n' -> needs_initial g = false ->
  moved_result (rot q) (rotated_num (k_dim (p_k p)) q)
    (do s <- st_new (cma_num p) g x0 n; rounds (cma_num p) g e m s)
    (do s <- st_new (cma_num (rot_par q p)) g (rot q x0) n'; rounds (cma_num (rot_par q p)) g (rot_env q pr e) m s).
Proof. intros q p e g pr x0 n n' m HQ HW HF HG HP HH HC HU HPr. exact (rot_rounds q p HQ HW HF e g pr HG HP HH HC HU HPr x0 n n' m). Qed.
Print Assumptions C83_iterations.
(** Whatever correct eigensolver [eig'] and whatever normal draws [w] the second
    search uses: when it is told the rotated populations, all it learns is
    rotated. *)
Theorem C83_told : forall q p eig' w e g pr x0 n n' hs,
  orthogonal (k_dim (p_k p)) q -> good_weights (p_k p) -> full_matrix p -> eigensolver_ok p -> eigensolver_ok (with_source eig' w p) ->
  same_problem p g -> plain_space p e g -> g_uh g = false -> no_coordinate_criteria g -> std_sort_ok e ->
  (forall so so', moved_sol (rot q) (equivalent_num (k_dim (p_k p)) q) so so' -> pr so' = e_progress e so) ->
  length x0 = k_dim (p_k p) -> rot_stream (k_dim (p_k p)) q n n' -> Forall (told_op g) hs -> needs_initial g = false ->
  moved_result (rot q) (equivalent_num (k_dim (p_k p)) q)
    (do s <- st_new (cma_num p) g x0 n; run_ops (cma_num p) e g hs s)
    (do s <- st_new (cma_num (with_source eig' w p)) g (rot q x0) n';
     run_ops (cma_num (with_source eig' w p)) (rot_env q pr e) g (map (move_op (rot q)) hs) s).
Proof. intros q p eig' w e g pr x0 n n' hs HQ HW HF HE HE' HG HP HH HC HU HPr. exact (told_history q p eig' w HQ HW HF HE HE' e g pr HG HP HH HC HU HPr x0 n n' hs). Qed.
Print Assumptions C83_told.
(** And the points it then asks for are the rotated ones, up to an orthogonal
    change v of the coordinates of each block of normal draws, which does not
    depend on the draws and does not change their distribution. *)
Theorem C83_ask : forall q p eig' w0 e g pr x0 n n' hs s,
  orthogonal (k_dim (p_k p)) q -> good_weights (p_k p) -> full_matrix p -> eigensolver_ok p -> eigensolver_ok (with_source eig' w0 p) ->
  same_problem p g -> plain_space p e g -> g_uh g = false -> no_coordinate_criteria g -> std_sort_ok e ->
  (forall so so', moved_sol (rot q) (equivalent_num (k_dim (p_k p)) q) so so' -> pr so' = e_progress e so) ->
  length x0 = k_dim (p_k p) -> rot_stream (k_dim (p_k p)) q n n' -> Forall (told_op g) hs -> needs_initial g = false ->
  (do s <- st_new (cma_num p) g x0 n; run_ops (cma_num p) e g hs s) = Ok s ->
  exists s', (do s <- st_new (cma_num (with_source eig' w0 p)) g (rot q x0) n';
              run_ops (cma_num (with_source eig' w0 p)) (rot_env q pr e) g (map (move_op (rot q)) hs) s) = Ok s' /\
  exists v, orthogonal (k_dim (p_k p)) v /\
  forall w pop s1, turned_draws (k_dim (p_k p)) v (x_pos (s_num (t_sol s))) (p_normal p) w -> ask (cma_num p) e g s = Ok (pop, s1) ->
  exists s1', ask (cma_num (with_source eig' w p)) (rot_env q pr e) g s' = Ok (map (rot q) pop, s1').
Proof. intros q p eig' w0 e g pr x0 n n' hs s HQ HW HF HE HE' HG HP HH HC HU HPr. exact (told_ask q p eig' w0 HQ HW HF HE HE' e g pr HG HP HH HC HU HPr x0 n n' hs s). Qed.
Print Assumptions C83_ask.
(** The 3-4-5 rotation; active CMA-ES with an exact eigensolver, which is not
    rotated for [C83_told] and [C83_ask], and other draws. *)
Example C83_example : let p := npar_eig k24 Active eig2 in let g := cfg_free k24 in let q := turn345 in
  orthogonal (k_dim (p_k p)) q /\ good_weights (p_k p) /\ full_matrix p /\ eigensolver_ok p /\ eigensolver_ok (with_source eig2 (fun i => INR (i + 5)) p) /\
  same_problem p g /\ plain_space p point_env g /\ g_uh g = false /\ no_coordinate_criteria g /\ std_sort_ok point_env /\
  (forall so so', e_progress point_env so' = e_progress point_env so) /\ rot_stream (k_dim (p_k p)) q num0 (num_turned q) /\
  Forall (point_op g) h24 /\ Forall (told_op g) h24 /\ initial_known g h24 /\ needs_initial g = false /\ rot q [1; 2] = [0 + 3 / 5 * 1 + - (4 / 5) * 2; 0 + 4 / 5 * 1 + 3 / 5 * 2] /\
  exists s0 s, st_new (cma_num p) g [1; 2] num0 = Ok s0 /\ run_ops (cma_num p) point_env g h24 s0 = Ok s.
Proof.
  cbv zeta. split; [apply turn345_orthogonal|]. split; [apply k24_good|]. split; [repeat split; discriminate|]. split; [apply eig2_ok; reflexivity|].
  split; [exact (eig2_ok k24 Active eq_refl)|]. split; [repeat split|]. split; [repeat split|]. split; [reflexivity|]. split; [apply cfg_free_criteria|]. split; [apply point_env_sort|].
  split; [reflexivity|]. split; [apply num_turned_stream|]. split; [repeat constructor|]. split; [repeat constructor|]. split; [discriminate|]. split; [reflexivity|]. split; [reflexivity|].
  apply run_free; [cbn; lia|reflexivity|reflexivity|]. repeat constructor.
Qed.
