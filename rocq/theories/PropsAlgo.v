(** C82: one generation is the published CMA-ES update, in exact real arithmetic. *)
From Coq Require Import Reals List ZArith Lia Lra Permutation.
From Verif Require Import Base Dbl Vec Params SpecParams Config Search SpecSearch SpecSafe SearchInv Update SpecUpdate SpecRate SpecAlgo AlgoProofs AlgoThms AlgoDemo ActiveThms TpaThms Demo DemoProofs DemoNum DemoNumProofs NumThms SampleThms.
Import ListNotations.
Open Scope R_scope.

(** Standard algorithm: after any history, ask, eval and tell together change
    the search distribution as the published algorithm does. *)
Theorem C82_full_partial : forall p e g h s0 s1 pop s2 cols phen s3 s4,
  constructed (p_k p) -> p_upd p = Full -> k_sep (p_k p) = false -> p_lazy p = false -> eigensolver_ok p -> k_c1 (p_k p) + k_cmu (p_k p) < 1 -> (k_tpa (p_k p) < 2)%Z -> g_uh g = false ->
  started p e g s0 -> Forall iteration h -> run_ops (cma_num p) e g h s0 = Ok s1 ->
  ask (cma_num p) e g s1 = Ok (pop, s2) -> eval (cma_num p) e g cols phen s2 = Ok s3 -> tell (cma_num p) e g s3 = Ok s4 ->
  ranked_points s3 s4 /\ exists b, inverse_root (k_dim (p_k p)) b (d_cov (dist_of p s1)) /\
    cma_step (p_k p) (s_niter (t_sol s1)) (map c_x (s_cands (t_sol s4))) b (dist_of p s1) (dist_of p s4).
Proof. exact full_thm. Qed.
Print Assumptions C82_full_partial.
(** Active algorithm: the negative rate is the largest allowed one. *)
Theorem C82_active_partial : forall p e g h s0 s1 pop s2 cols phen s3 s4,
  constructed (p_k p) -> p_upd p = Active -> k_sep (p_k p) = false -> p_lazy p = false -> eigensolver_ok p -> k_c1 (p_k p) + 0.66 * k_cmu (p_k p) < 0.66 -> (k_tpa (p_k p) < 2)%Z -> g_uh g = false ->
  started p e g s0 -> asked false h -> run_ops (cma_num p) e g h s0 = Ok s1 ->
  ask (cma_num p) e g s1 = Ok (pop, s2) -> eval (cma_num p) e g cols phen s2 = Ok s3 -> tell (cma_num p) e g s3 = Ok s4 ->
  ranked_points s3 s4 /\ exists b, inverse_root (k_dim (p_k p)) b (d_cov (dist_of p s1)) /\
    active_step (p_k p) (s_niter (t_sol s1)) (map c_x (s_cands (t_sol s4))) b (dist_of p s1) (dist_of p s4).
Proof. exact active_thm. Qed.
Print Assumptions C82_active_partial.
(** Separable algorithm: as published, except that the increment of the
    covariance path stays normalised for the rate of the standard algorithm. *)
Theorem C82_separable_partial : forall p e g x0 n0 h s0 s1 pop s2 cols phen s3 s4,
  constructed (p_k p) -> p_upd p = Full -> k_sep (p_k p) = true -> k_vd (p_k p) = false -> k_c1 (p_k p) + k_cmu (p_k p) < 1 -> (k_tpa (p_k p) < 2)%Z -> g_uh g = false ->
  st_new (cma_num p) g x0 n0 = Ok s0 -> Forall iteration h -> run_ops (cma_num p) e g h s0 = Ok s1 ->
  ask (cma_num p) e g s1 = Ok (pop, s2) -> eval (cma_num p) e g cols phen s2 = Ok s3 -> tell (cma_num p) e g s3 = Ok s4 ->
  ranked_points s3 s4 /\ exists b, inverse_root (k_dim (p_k p)) b (d_cov (dist_of p s1)) /\
    sep_step (p_k p) (s_niter (t_sol s1)) (map c_x (s_cands (t_sol s4))) b (default_cc (p_k p)) (dist_of p s1) (dist_of p s4).
Proof. exact sep_thm. Qed.
Print Assumptions C82_separable_partial.
(** Active separable algorithm, with the same exception; the negative rate is the
    largest allowed one. *)
Theorem C82_active_separable_partial : forall p e g x0 n0 h s0 s1 pop s2 cols phen s3 s4,
  constructed (p_k p) -> p_upd p = Active -> k_sep (p_k p) = true -> k_c1 (p_k p) + 0.66 * k_cmu (p_k p) < 0.66 -> (k_tpa (p_k p) < 2)%Z -> g_uh g = false ->
  st_new (cma_num p) g x0 n0 = Ok s0 -> Forall iteration h -> run_ops (cma_num p) e g h s0 = Ok s1 ->
  ask (cma_num p) e g s1 = Ok (pop, s2) -> eval (cma_num p) e g cols phen s2 = Ok s3 -> tell (cma_num p) e g s3 = Ok s4 ->
  ranked_points s3 s4 /\ exists b, inverse_root (k_dim (p_k p)) b (d_cov (dist_of p s1)) /\
    active_sep_step (p_k p) (s_niter (t_sol s1)) (map c_x (s_cands (t_sol s4))) b (default_cc (p_k p)) (dist_of p s1) (dist_of p s4).
Proof. exact active_sep_full_thm. Qed.
Print Assumptions C82_active_separable_partial.
(** With the rate in use the published separable step is not what is made. *)
Theorem C82_separable_refuted : exists p e g x0 n0 s0 pop s2 cols s3 s4,
  constructed (p_k p) /\ p_upd p = Full /\ k_sep (p_k p) = true /\ k_vd (p_k p) = false /\ k_c1 (p_k p) + k_cmu (p_k p) < 1 /\ (k_tpa (p_k p) < 2)%Z /\ g_uh g = false /\
  st_new (cma_num p) g x0 n0 = Ok s0 /\ ask (cma_num p) e g s0 = Ok (pop, s2) /\ eval (cma_num p) e g cols [] s2 = Ok s3 /\ tell (cma_num p) e g s3 = Ok s4 /\
  forall b, ~ sep_step (p_k p) 0 (map c_x (s_cands (t_sol s4))) b (k_cc (p_k p)) (dist_of p s0) (dist_of p s4).
Proof. exact sep_refuted_thm. Qed.
Print Assumptions C82_separable_refuted.
(** VD-CMA: no inverse square root of the covariance gives the step-size path. *)
Theorem C82_vd_path_refuted : exists p e g x0 n0 s0 pop s2 cols s3 s4,
  constructed_any (p_k p) /\ p_upd p = Vd /\ k_vd (p_k p) = true /\ (k_tpa (p_k p) < 2)%Z /\ g_uh g = false /\
  st_new (cma_num p) g x0 n0 = Ok s0 /\ ask (cma_num p) e g s0 = Ok (pop, s2) /\ eval (cma_num p) e g cols [] s2 = Ok s3 /\ tell (cma_num p) e g s3 = Ok s4 /\
  pos_def (k_dim (p_k p)) (d_cov (dist_of p s0)) /\
  forall b, inverse_root (k_dim (p_k p)) b (d_cov (dist_of p s0)) -> ~ sigma_path_rule (p_k p) (dist_of p s0) (dist_of p s4) b.
Proof. exact vd_refuted_thm. Qed.
Print Assumptions C82_vd_path_refuted.

Example C82_full_example : let p := npar_eig k24 Full eig2 in let g := cfg_of k24 in
  constructed (p_k p) /\ p_upd p = Full /\ k_sep (p_k p) = false /\ p_lazy p = false /\ eigensolver_ok p /\ k_c1 (p_k p) + k_cmu (p_k p) < 1 /\ (k_tpa (p_k p) < 2)%Z /\ g_uh g = false /\
  Forall iteration h24 /\ exists s0 s1 pop s2 s3 s4, started p (call_env zig) g s0 /\ run_ops (cma_num p) (call_env zig) g h24 s0 = Ok s1 /\
    ask (cma_num p) (call_env zig) g s1 = Ok (pop, s2) /\ eval (cma_num p) (call_env zig) g [[1; 2]; [3; 1]; [0; 2]; [1; 5]] [] s2 = Ok s3 /\ tell (cma_num p) (call_env zig) g s3 = Ok s4.
Proof.
  cbv zeta. split; [apply k24_constructed|]. do 3 (split; [reflexivity|]). split; [apply eig2_ok; reflexivity|]. split; [apply k24_rates|]. split; [cbn; lia|]. split; [reflexivity|].
  split; [repeat constructor|]. destruct (gen_instance (npar_eig k24 Full eig2) (or_introl eq_refl)) as (s0 & s1 & pop & s2 & s3 & s4 & E0 & E).
  exists s0, s1, pop, s2, s3, s4. split; [econstructor; exact E0|exact E].
Qed.
Example C82_active_example : let p := npar_eig k24 Active eig2 in let g := cfg_of k24 in
  constructed (p_k p) /\ p_upd p = Active /\ k_sep (p_k p) = false /\ p_lazy p = false /\ eigensolver_ok p /\ k_c1 (p_k p) + 0.66 * k_cmu (p_k p) < 0.66 /\ (k_tpa (p_k p) < 2)%Z /\ g_uh g = false /\
  asked false h24 /\ exists s0 s1 pop s2 s3 s4, started p (call_env zig) g s0 /\ run_ops (cma_num p) (call_env zig) g h24 s0 = Ok s1 /\
    ask (cma_num p) (call_env zig) g s1 = Ok (pop, s2) /\ eval (cma_num p) (call_env zig) g [[1; 2]; [3; 1]; [0; 2]; [1; 5]] [] s2 = Ok s3 /\ tell (cma_num p) (call_env zig) g s3 = Ok s4.
Proof.
  cbv zeta. split; [apply k24_constructed|]. do 3 (split; [reflexivity|]). split; [apply eig2_ok; reflexivity|]. split; [apply k24_active_rates|]. split; [cbn; lia|]. split; [reflexivity|].
  split; [cbn; auto|]. destruct (gen_instance (npar_eig k24 Active eig2) (or_introl eq_refl)) as (s0 & s1 & pop & s2 & s3 & s4 & E0 & E).
  exists s0, s1, pop, s2, s3, s4. split; [econstructor; exact E0|exact E].
Qed.
Example C82_separable_example : let p := npar_of ksep Full in let g := cfg_of ksep in
  constructed (p_k p) /\ p_upd p = Full /\ k_sep (p_k p) = true /\ k_vd (p_k p) = false /\ k_c1 (p_k p) + k_cmu (p_k p) < 1 /\ (k_tpa (p_k p) < 2)%Z /\ g_uh g = false /\
  Forall iteration h24 /\ exists s0 s1 pop s2 s3 s4, st_new (cma_num p) g [1; 2] num0 = Ok s0 /\ run_ops (cma_num p) (call_env zig) g h24 s0 = Ok s1 /\
    ask (cma_num p) (call_env zig) g s1 = Ok (pop, s2) /\ eval (cma_num p) (call_env zig) g [[1; 2]; [3; 1]; [0; 2]; [1; 5]] [] s2 = Ok s3 /\ tell (cma_num p) (call_env zig) g s3 = Ok s4.
Proof.
  cbv zeta. split; [apply k24_sep_constructed|]. do 3 (split; [reflexivity|]). split; [apply k24_sep_rates|]. split; [cbn; lia|]. split; [reflexivity|].
  split; [repeat constructor|]. exact (gen_instance (npar_of ksep Full) (or_intror eq_refl)).
Qed.
Example C82_active_separable_example : let p := npar_of ksep Active in let g := cfg_of ksep in
  constructed (p_k p) /\ p_upd p = Active /\ k_sep (p_k p) = true /\ k_c1 (p_k p) + 0.66 * k_cmu (p_k p) < 0.66 /\ (k_tpa (p_k p) < 2)%Z /\ g_uh g = false /\
  Forall iteration h24 /\ exists s0 s1 pop s2 s3 s4, st_new (cma_num p) g [1; 2] num0 = Ok s0 /\ run_ops (cma_num p) (call_env zig) g h24 s0 = Ok s1 /\
    ask (cma_num p) (call_env zig) g s1 = Ok (pop, s2) /\ eval (cma_num p) (call_env zig) g [[1; 2]; [3; 1]; [0; 2]; [1; 5]] [] s2 = Ok s3 /\ tell (cma_num p) (call_env zig) g s3 = Ok s4.
Proof.
  cbv zeta. split; [apply k24_sep_constructed|]. do 2 (split; [reflexivity|]). split; [apply k24_sep_active_rates|]. split; [cbn; lia|]. split; [reflexivity|].
  split; [repeat constructor|]. exact (gen_instance (npar_of ksep Active) (or_intror eq_refl)).
Qed.
