(** Same seed, same run (C68). *)
From Verif Require Import Base Dbl Config Search SpecSearch Demo Rng SpecRng RngProofs RngDemo RngDemoProofs.
Local Open Scope Z_scope.

(** Whatever the program did before, an optimiser with a given start point runs
    as it would alone, until another optimiser is created or draws. *)
Theorem C68_as_if_alone_partial : forall (T L G : Type) (seeded : Z -> G) (rnd : nat -> list T) (device : nat -> L) g0 sp p w0 w1 w,
  seeded_only sp ->
  step seeded rnd device (New sp) w0 = Ok w1 -> steps seeded rnd device p w1 = Ok w ->
  undisturbed seeded rnd device (length (w_opts w0)) p w1 ->
  exists w', alone seeded rnd device g0 sp (calls_on (length (w_opts w0)) p) = Ok w' /\ same_run (length (w_opts w0)) w 0 w'.
Proof. intros. eapply solo; eauto. Qed.
Print Assumptions C68_as_if_alone_partial.

(** A new optimiser leaves the generator as its seed sets it, whatever was drawn
    before or while it was built. *)
Theorem C68_creation_seeds : forall (T L G : Type) (seeded : Z -> G) (rnd : nat -> list T) (device : nat -> L) sp w w',
  step seeded rnd device (New sp) w = Ok w' -> w_gen w' = seeded (sp_seed sp).
Proof. intros. eapply step_new_gen; eauto. Qed.
Print Assumptions C68_creation_seeds.

(** Two optimisers of one configuration and seed run alike, in any two programs
    that leave the generator alone while they run. *)
Theorem C68_same_seed_partial : forall (T L G : Type) (seeded : Z -> G) (rnd : nat -> list T) (device : nat -> L) sp p1 p2 wa wb wa1 wb1 wa2 wb2,
  seeded_only sp ->
  step seeded rnd device (New sp) wa = Ok wa1 -> steps seeded rnd device p1 wa1 = Ok wa2 ->
  step seeded rnd device (New sp) wb = Ok wb1 -> steps seeded rnd device p2 wb1 = Ok wb2 ->
  undisturbed seeded rnd device (length (w_opts wa)) p1 wa1 ->
  undisturbed seeded rnd device (length (w_opts wb)) p2 wb1 ->
  calls_on (length (w_opts wa)) p1 = calls_on (length (w_opts wb)) p2 ->
  same_run (length (w_opts wa)) wa2 (length (w_opts wb)) wb2.
Proof. exact @same_run_two. Qed.
Print Assumptions C68_same_seed_partial.

(** Two optimisers run one after the other, the second among quiet calls of the first. *)
Example C68_case : exists w1, ctr_run case_p = Ok w1 /\ undisturbed (fun z => z) ctr_rnd ctr_dev 1 case_q w1 /\
  exists w2, steps (fun z => z) ctr_rnd ctr_dev case_q w1 = Ok w2 /\ points 1 w2 = [[5]; [6]; [7]; [8]; [9]; [10]] /\ seeded_only sp5.
Proof. exact rng_case. Qed.

(** A second optimiser of the same configuration, run in between, changes the
    candidates of the first. *)
Theorem C68_interleaving_refuted : exists (sp : spec Z nat Z) w w', seeded_only sp /\
  ctr_run [New sp; New sp; On 0 OAsk; On 1 OAsk] = Ok w /\ ctr_run [New sp; On 0 OAsk] = Ok w' /\
  next_population 0 w <> next_population 0 w'.
Proof. exact RngDemoProofs.rng_interleaving. Qed.
Print Assumptions C68_interleaving_refuted.

(** So does the mere creation of another one, which is never called. *)
Theorem C68_creation_refuted : exists (sp sp' : spec Z nat Z) w w', seeded_only sp /\ seeded_only sp' /\
  ctr_run [New sp; On 0 OAsk; New sp'] = Ok w /\ ctr_run [New sp; On 0 OAsk] = Ok w' /\
  next_population 0 w <> next_population 0 w'.
Proof. exact RngDemoProofs.rng_creation. Qed.
Print Assumptions C68_creation_refuted.

(** And an optimiser created later starts over, so that one created in the
    middle of a run makes it draw the same candidates again. *)
Theorem C68_repeated_candidates_refuted : exists (sp : spec Z nat Z) w w', seeded_only sp /\
  ctr_run [New sp] = Ok w /\ ctr_run [New sp; On 0 OAsk; New sp] = Ok w' /\
  next_population 0 w = next_population 0 w' /\ next_population 0 w <> Ok [].
Proof. exact RngDemoProofs.rng_repeated. Qed.
Print Assumptions C68_repeated_candidates_refuted.

(** Without a start point, the seed does not determine the run even when
    nothing happens in between. *)
Theorem C68_random_start_refuted : exists (sp : spec Z nat Z) w w', sp_x0 sp = None /\ g_uh (sp_g sp) = false /\
  ctr_run [New sp; full_run 0] = Ok w /\ ctr_run [New sp; full_run 0; New sp; full_run 1] = Ok w' /\
  points 0 w <> points 1 w'.
Proof. exact RngDemoProofs.rng_random_start. Qed.
Print Assumptions C68_random_start_refuted.

(** With uncertainty handling, the device decides what is evaluated again. *)
Theorem C68_uncertainty_refuted : exists (sp : spec Z nat Z) w w', sp_x0 sp <> None /\ g_uh (sp_g sp) = true /\
  ctr_run [New sp; full_run 0] = Ok w /\ ctr_run [New sp; full_run 0; New sp; full_run 1] = Ok w' /\
  points 0 w <> points 1 w'.
Proof. exact RngDemoProofs.rng_uncertainty. Qed.
Print Assumptions C68_uncertainty_refuted.
