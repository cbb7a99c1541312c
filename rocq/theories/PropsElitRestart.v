(** C87: the elitist restart of set_elitism(3). *)
From Verif Require Import Base Dbl Config Search SpecSearch SpecSafe SpecElitRestart ElitRestartProofs ElitRestartDemo ElitRestartThms Demo.
From Verif Require Import Vec Params Update.
From Coq Require Import Reals.
Local Open Scope Z_scope.

(** A search with scheme 3 is a sequence of runs of the search loop.  After each
    but the last the best point seen is better than the last best candidate and
    at least three iterations old, and the next run starts over from that point,
    keeping only the calls made; after the last this is not so. *)
Theorem C87_restarts : forall T N (no : numops T N) (e : env T N) (g : cfg T) rf fuel s r z,
  e_restart (g_elit g) = true -> optimize no e g (round no e g) rf fuel s = Ok (r, z) ->
  exists l, runs no e g fuel s l z /\ (length l <= S rf)%nat.
Proof. intros T N no e g rf fuel s r z E. exact (optimize_runs no e g fuel E rf s r z). Qed.
Print Assumptions C87_restarts.
(** With a deterministic objective and no scaling: the first call after a restart
    is at the best point seen, with its value; the best value seen never gets
    worse from run to run, and gets strictly better in every run that is
    restarted after the first; so the final one is the best of all runs. *)
Theorem C87_never_worse_partial : forall T N (no : numops T N) (e : env T N) (g : cfg T) f,
  computes e f -> no_nan e -> dims_ok no g -> (1 <= g_dim g)%nat -> (2 <= g_lambda g)%nat -> g_uh g = false -> scheme3 g ->
  starts_where_told no g -> forall x0 n s0, st_new no g x0 n = Ok s0 -> forall rf fuel r z,
  optimize no e g (round no e g) rf fuel s0 = Ok (r, z) ->
  exists l, runs no e g fuel s0 l z /\ (length l <= S rf)%nat /\
  (forall k a b c d, nth_error l k = Some (a, b) -> nth_error l (S k) = Some (c, d) ->
     (exists y more, e_pheno e (c_x (s_best (t_sol b))) = Ok y /\ t_log d = t_log b ++ (y, c_f (s_best (t_sol b))) :: more) /\
     dle (c_f (s_best (t_sol d))) (c_f (s_best (t_sol b))) = true /\
     ((S (S k) < length l)%nat -> dlt (c_f (s_best (t_sol d))) (c_f (s_best (t_sol b))) = true)) /\
  (forall a b, In (a, b) l -> (1 < length l)%nat -> dle (c_f (s_best (t_sol z))) (c_f (s_best (t_sol b))) = true).
Proof. exact @restart_facts. Qed.
Print Assumptions C87_never_worse_partial.
(** The code's own start: without scaling and fixed parameters a new solution
    object has the given point for its mean. *)
Theorem C87_library_start : forall p (g : cfg R),
  k_dim (p_k p) = g_dim g -> k_fixed (p_k p) = [] -> (forall x, p_scale p x = x) -> starts_where_told (cma_num p) g.
Proof. exact library_start. Qed.
Print Assumptions C87_library_start.
(** With a linear scaling the restart scales the point a second time: it starts
    elsewhere, and the search ends worse than it was. *)
Theorem C87_scaling_refuted : exists (no : numops Z (Z * nat)) (e : env Z (Z * nat)) (g : cfg Z) f x0 n s0 l z,
  computes e f /\ no_nan e /\ dims_ok no g /\ g_uh g = false /\ scheme3 g /\
  (forall x n, n_xmean no (n_new no x n) = [2 * hd 0 x]) /\ (forall x, e_pheno e x = Ok [hd 0 x / 2]) /\
  st_new no g x0 n = Ok s0 /\ runs no e g 10 s0 l z /\
  exists a b c d y v more, nth_error l 1 = Some (a, b) /\ nth_error l 2 = Some (c, d) /\
    t_log d = t_log b ++ (y, v) :: more /\ e_pheno e (c_x (s_best (t_sol b))) <> Ok y /\
    dlt (c_f (s_best (t_sol b))) (c_f (s_best (t_sol z))) = true.
Proof. exact scaling_restart. Qed.
Print Assumptions C87_scaling_refuted.
(** The test for a restart is defined, unless a run that is itself a restart
    ends after its first iteration. *)
Theorem C87_test_defined_partial : forall T N (no : numops T N) (e : env T N) (g : cfg T) f,
  computes e f -> no_nan e -> dims_ok no g -> (1 <= g_dim g)%nat -> (2 <= g_lambda g)%nat -> g_uh g = false -> scheme3 g ->
  forall fuel x0 n a b, run_start no e g fuel x0 n a -> one_run no e g fuel a b ->
  t_niter b <> 1 \/ t_initel b = false -> exists w, restart_wanted no g b = Ok w.
Proof. exact @test_defined. Qed.
Print Assumptions C87_test_defined_partial.
(** Then it reads a number that was never written: a budget of evaluations
    that ends the first run ends the second one after one iteration. *)
Theorem C87_test_refuted : exists (no : numops Z (Z * nat)) (e : env Z (Z * nat)) (g : cfg Z) f x0 n s0,
  computes e f /\ real_values e /\ dims_ok no g /\ g_uh g = false /\ scheme3 g /\ starts_where_told no g /\ g_max_fevals g = 20 /\
  st_new no g x0 n = Ok s0 /\ optimize no e g (round no e g) 3 10 s0 = Fault Uninit.
Proof. exact budget_restart. Qed.
Print Assumptions C87_test_refuted.

(** A search with two restarts. *)
Example C87_example : let no := line_ops 1 e3_pts in let e := line_env 1 sq in
  computes e (fun x => small (sq (hd 0 x))) /\ no_nan e /\ dims_ok no e3_cfg /\ scheme3 e3_cfg /\ starts_where_told no e3_cfg /\
  exists s0 l z r, st_new no e3_cfg [7] (0, 0%nat) = Ok s0 /\ optimize no e e3_cfg (round no e e3_cfg) 3 10 s0 = Ok (r, z) /\
    runs no e e3_cfg 10 s0 l z /\ length l = 3%nat /\
    map (fun p => c_f (s_best (t_sol (snd p)))) l = [small 4; small 1; small 1] /\ c_x (s_best (t_sol z)) = [1].
Proof. exact e3_example. Qed.
