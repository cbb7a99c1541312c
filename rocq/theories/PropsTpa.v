(** C80: two-point adaptation of the step size.  Exact real arithmetic.
    [mirrored_pair p g prev s pop r]: two points of [pop] are the mean of [s] plus
    and minus a multiple of its last move from the mean of [prev], as far from it
    as sigma r in the metric of the distribution; [ranked_at s cols i r]: point
    number [i] of the last population is the one of rank [r]. *)
From Coq Require Import Reals List ZArith Lia Lra.
From Verif Require Import Base Dbl Vec Params SpecParams Config Search SpecSearch SpecSafe SpecUh SearchInv Update SpecUpdate Corr SpecSample SpecTpa TpaThms Demo DemoProofs DemoNum DemoNumProofs NumThms ActiveProofs ActiveThms.
Import ListNotations.
Open Scope R_scope.

Theorem C80_pair_partial : forall p e g h cols phen x0 n0 s0 prev s pop s',
  constructed (p_k p) -> k_tpa (p_k p) = 2%Z -> g_tpa g = 2%Z -> same_problem p g ->
  st_new (cma_num p) g x0 n0 = Ok s0 -> Forall (okop (fun _ => True)) h -> run_ops (cma_num p) e g h s0 = Ok prev ->
  run_ops (cma_num p) e g [OGen cols phen] prev = Ok s -> (exists i, (i < k_dim (p_k p))%nat /\ mean_of s i <> mean_of prev i) ->
  ask (cma_num p) e g s = Ok (pop, s') ->
  p_upd p = Full -> p_lazy p = false -> eigensolver_ok p -> k_c1 (p_k p) + k_cmu (p_k p) < 1 ->
  mirrored_pair p g prev s pop (fun i => p_normal p (drawn s + k_lambda (p_k p) * k_dim (p_k p) + i)%nat).
Proof. exact mirror_full. Qed.
Print Assumptions C80_pair_partial.
Theorem C80_active_pair_partial : forall p e g h cols phen x0 n0 s0 prev s pop s',
  constructed (p_k p) -> k_tpa (p_k p) = 2%Z -> g_tpa g = 2%Z -> same_problem p g ->
  st_new (cma_num p) g x0 n0 = Ok s0 -> Forall (okop (fun _ => True)) h -> run_ops (cma_num p) e g h s0 = Ok prev ->
  run_ops (cma_num p) e g [OGen cols phen] prev = Ok s -> (exists i, (i < k_dim (p_k p))%nat /\ mean_of s i <> mean_of prev i) ->
  ask (cma_num p) e g s = Ok (pop, s') ->
  p_upd p = Active -> p_lazy p = false -> eigensolver_ok p -> k_c1 (p_k p) + 0.66 * k_cmu (p_k p) < 0.66 -> asked false (h ++ [OGen cols phen]) ->
  mirrored_pair p g prev s pop (fun i => p_normal p (drawn s + k_lambda (p_k p) * k_dim (p_k p) + i)%nat).
Proof. exact mirror_active. Qed.
Print Assumptions C80_active_pair_partial.
(** The pair of VD-CMA is at another distance. *)
Theorem C80_vd_refuted : exists p e g x0 n cols s0 s pop s', k_vd (p_k p) = true /\ k_tpa (p_k p) = 2%Z /\ g_tpa g = 2%Z /\ same_problem p g /\
  st_new (cma_num p) g x0 n = Ok s0 /\ run_ops (cma_num p) e g [OGen cols []] s0 = Ok s /\ ask (cma_num p) e g s = Ok (pop, s') /\
  (forall i, (i < k_dim (p_k p))%nat -> mean_of s i <> mean_of s0 i) /\
  ~ mirrored_pair p g s0 s pop (fun i => p_normal p (drawn s + k_lambda (p_k p) * k_dim (p_k p) + i)%nat).
Proof. exact vd_pair. Qed.
Print Assumptions C80_vd_refuted.
(** The step size follows the ranks of the pair: any variant. *)
Theorem C80_effect_partial : forall p e g h x0 n0 s0 s1 pop s2 cols phen s,
  no_elitism g -> g_uh g = false -> g_tpa g = 2%Z -> k_tpa (p_k p) = 2%Z -> g_lambda g = k_lambda (p_k p) ->
  room g -> std_sort_ok e -> 0 <= p_tpac p <= 1 -> st_new (cma_num p) g x0 n0 = Ok s0 -> Forall (whole_gen g) h -> run_ops (cma_num p) e g h s0 = Ok s1 ->
  (0 < s_niter (t_sol s1))%Z -> ask (cma_num p) e g s1 = Ok (pop, s2) -> length cols = g_lambda g -> run_ops (cma_num p) e g [OGen cols phen] s2 = Ok s ->
  exists r1 r2, ranked_at s cols (pair_first g) r1 /\ ranked_at s cols (S (pair_first g)) r2 /\
    path_of s = (1 - p_tpac p) * path_of s1 + p_tpac p * (INR r2 - INR r1) / (INR (g_lambda g) - 1) /\
    sigma_of s = sigma_of s1 * exp (path_of s / k_dsigma (p_k p)).
Proof. exact effect_thm. Qed.
Print Assumptions C80_effect_partial.

Example C80_pair_example : let p := npar_eig k24t Full eig2 in let g := cfg_of k24t in
  constructed (p_k p) /\ k_tpa (p_k p) = 2%Z /\ g_tpa g = 2%Z /\ same_problem p g /\ eigensolver_ok p /\ k_c1 (p_k p) + k_cmu (p_k p) < 1 /\
  exists s0 prev s pop s', st_new (cma_num p) g [1; 2] num0 = Ok s0 /\ run_ops (cma_num p) flat_env g [OAsk] s0 = Ok prev /\
    run_ops (cma_num p) flat_env g [OGen moved_cols []] prev = Ok s /\
    (exists i, (i < k_dim (p_k p))%nat /\ mean_of s i <> mean_of prev i) /\ ask (cma_num p) flat_env g s = Ok (pop, s').
Proof.
  cbv zeta. split; [apply k24t_constructed|]. split; [reflexivity|]. split; [reflexivity|]. split; [split; [|split]; reflexivity|].
  split; [apply eig2_ok; reflexivity|]. split; [apply k24_rates|]. apply (mirror_instance Full). discriminate.
Qed.
Example C80_active_pair_example : let p := npar_eig k24t Active eig2 in let g := cfg_of k24t in
  constructed (p_k p) /\ k_tpa (p_k p) = 2%Z /\ g_tpa g = 2%Z /\ same_problem p g /\ eigensolver_ok p /\
  k_c1 (p_k p) + 0.66 * k_cmu (p_k p) < 0.66 /\ asked false [OAsk; OGen moved_cols []] /\
  exists s0 prev s pop s', st_new (cma_num p) g [1; 2] num0 = Ok s0 /\ run_ops (cma_num p) flat_env g [OAsk] s0 = Ok prev /\
    run_ops (cma_num p) flat_env g [OGen moved_cols []] prev = Ok s /\
    (exists i, (i < k_dim (p_k p))%nat /\ mean_of s i <> mean_of prev i) /\ ask (cma_num p) flat_env g s = Ok (pop, s').
Proof.
  cbv zeta. split; [apply k24t_constructed|]. split; [reflexivity|]. split; [reflexivity|]. split; [split; [|split]; reflexivity|].
  split; [apply eig2_ok; reflexivity|]. split; [apply k24_active_rates|]. split; [cbn; auto|]. apply (mirror_instance Active). discriminate.
Qed.
Example C80_effect_example : let p := npar_of k24t Full in let g := cfg_of k24t in
  no_elitism g /\ g_uh g = false /\ g_tpa g = 2%Z /\ k_tpa (p_k p) = 2%Z /\ g_lambda g = k_lambda (p_k p) /\ room g /\ std_sort_ok (call_env zig) /\
  0 <= p_tpac p <= 1 /\ Forall (whole_gen g) h24 /\ length moved_cols = g_lambda g /\
  exists s0 s1 pop s2 s, st_new (cma_num p) g [1; 2] num0 = Ok s0 /\ run_ops (cma_num p) (call_env zig) g h24 s0 = Ok s1 /\
    (0 < s_niter (t_sol s1))%Z /\ ask (cma_num p) (call_env zig) g s1 = Ok (pop, s2) /\ run_ops (cma_num p) (call_env zig) g [OGen moved_cols []] s2 = Ok s.
Proof.
  cbv zeta. do 5 (split; [reflexivity|]). split; [split; [cbn; lia|discriminate]|]. split; [apply call_env_sort|].
  split; [cbn; lra|]. split; [repeat constructor|]. split; [reflexivity|]. apply effect_instance.
Qed.
