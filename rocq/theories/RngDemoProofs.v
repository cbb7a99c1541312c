(** Concrete programs with several optimisers. *)
From Verif Require Import Base Dbl Config Search SpecSearch Demo Rng SpecRng RngProofs RngDemo.
Local Open Scope Z_scope.

Lemma quiet_ctr : updates_draw_nothing ctr_no.
Proof. repeat split. Qed.
Definition sp5 := ctr_sp (Some [7]) 5.
Lemma sp5_ok : seeded_only sp5.
Proof. split; [discriminate|reflexivity]. Qed.
Definition case_p : list (event Z nat Z) := [New sp5; full_run 0; New sp5].
Definition case_q : list (event Z nat Z) := [full_run 1; On 0 OStop; On 1 OAsk].
Lemma case_run : match ctr_run case_p with
  | Ok w1 => match steps (fun z => z) ctr_rnd ctr_dev case_q w1 with Ok w2 => points 1 w2 = [[5]; [6]; [7]; [8]; [9]; [10]] | Fault _ => False end
  | Fault _ => False end.
Proof. vm_compute. reflexivity. Qed.
Lemma case_quiet : Forall (quiet_event 1 [sp5; sp5]) case_q.
Proof.
  constructor; [now left|]. constructor; [|constructor; [now left|constructor]].
  right. intros sp Hs. injection Hs as <-. split; [reflexivity|]. split; [exact quiet_ctr|exact I].
Qed.
Lemma rng_case_gen (p q : list (event Z nat Z)) i sps (sp : spec Z nat Z) x : created p = sps -> Forall (quiet_event i sps) q -> seeded_only sp ->
  match ctr_run p with
  | Ok w1 => match steps (fun z => z) ctr_rnd ctr_dev q w1 with Ok w2 => points i w2 = x | Fault _ => False end
  | Fault _ => False end ->
  exists w1, ctr_run p = Ok w1 /\ undisturbed (fun z => z) ctr_rnd ctr_dev i q w1 /\
  exists w2, steps (fun z => z) ctr_rnd ctr_dev q w1 = Ok w2 /\ points i w2 = x /\ seeded_only sp.
Proof.
  intros C Q S H. destruct (ctr_run p) as [w1|] eqn:E; [|contradiction]. exists w1. split; auto. split.
  - eapply undisturbed_by; [|exact Q]. unfold ctr_run in E. apply specs_steps in E. rewrite E. exact C.
  - destruct (steps _ _ _ q w1) as [w2|]; [|contradiction]. exists w2. auto.
Qed.
Lemma rng_case : exists w1, ctr_run case_p = Ok w1 /\ undisturbed (fun z => z) ctr_rnd ctr_dev 1 case_q w1 /\
  exists w2, steps (fun z => z) ctr_rnd ctr_dev case_q w1 = Ok w2 /\ points 1 w2 = [[5]; [6]; [7]; [8]; [9]; [10]] /\ seeded_only sp5.
Proof. apply (rng_case_gen case_p case_q 1 [sp5; sp5] sp5 [[5]; [6]; [7]; [8]; [9]; [10]]).
  - reflexivity.
  - exact case_quiet.
  - exact sp5_ok.
  - exact case_run.
Qed.
Lemma rng_two (p p' : list (event Z nat Z)) (P : world Z nat Z -> world Z nat Z -> Prop) :
  match ctr_run p with Ok w => match ctr_run p' with Ok w' => P w w' | Fault _ => False end | Fault _ => False end ->
  exists w w', ctr_run p = Ok w /\ ctr_run p' = Ok w' /\ P w w'.
Proof. destruct (ctr_run p) as [w|]; [|contradiction]. destruct (ctr_run p') as [w'|]; [|contradiction]. intros. exists w, w'. auto. Qed.
Lemma rng_interleaving : exists (sp : spec Z nat Z) w w', seeded_only sp /\
  ctr_run [New sp; New sp; On 0 OAsk; On 1 OAsk] = Ok w /\ ctr_run [New sp; On 0 OAsk] = Ok w' /\
  next_population 0 w <> next_population 0 w'.
Proof.
  exists sp5. destruct (rng_two [New sp5; New sp5; On 0 OAsk; On 1 OAsk] [New sp5; On 0 OAsk] (fun w w' => next_population 0 w <> next_population 0 w')) as (w & w' & A & B & C).
  { vm_compute. discriminate. }
  exists w, w'. exact (conj sp5_ok (conj A (conj B C))).
Qed.
Lemma rng_creation : exists (sp sp' : spec Z nat Z) w w', seeded_only sp /\ seeded_only sp' /\
  ctr_run [New sp; On 0 OAsk; New sp'] = Ok w /\ ctr_run [New sp; On 0 OAsk] = Ok w' /\
  next_population 0 w <> next_population 0 w'.
Proof.
  exists sp5, (ctr_sp (Some [7]) 50).
  destruct (rng_two [New sp5; On 0 OAsk; New (ctr_sp (Some [7]) 50)] [New sp5; On 0 OAsk] (fun w w' => next_population 0 w <> next_population 0 w')) as (w & w' & A & B & C).
  { vm_compute. discriminate. }
  exists w, w'. split; [exact sp5_ok|]. split; [split; [discriminate|reflexivity]|]. exact (conj A (conj B C)).
Qed.
Lemma rng_repeated : exists (sp : spec Z nat Z) w w', seeded_only sp /\
  ctr_run [New sp] = Ok w /\ ctr_run [New sp; On 0 OAsk; New sp] = Ok w' /\
  next_population 0 w = next_population 0 w' /\ next_population 0 w <> Ok [].
Proof.
  exists sp5.
  destruct (rng_two [New sp5] [New sp5; On 0 OAsk; New sp5] (fun w w' => next_population 0 w = next_population 0 w' /\ next_population 0 w <> Ok [])) as (w & w' & A & B & C).
  { vm_compute. split; [reflexivity|discriminate]. }
  exists w, w'. exact (conj sp5_ok (conj A (conj B C))).
Qed.
Definition start_no : numops Z (nat * Z) :=
  mkNum (n_xmean ctr_no) (fun x n => (Z.to_nat (nth 0 x 0), snd n)) (n_reset ctr_no) (n_eigen ctr_no)
    (fun k n => (map (fun i => [Z.of_nat (fst n) + snd n + Z.of_nat i]) (seq 0 k), (fst n, snd n + Z.of_nat k)))
    (n_gradpt ctr_no) (n_gradcol ctr_no) (n_tpa_points ctr_no) (n_coin ctr_no) (n_mutate ctr_no) (n_tpa ctr_no) (n_update ctr_no)
    (n_uh_scale ctr_no) (n_edm ctr_no) (n_crit ctr_no).
Definition sp_start := mkSpec start_no ctr_e ctr_g 5 None 0%nat.
Lemma rng_random_start : exists (sp : spec Z nat Z) w w', sp_x0 sp = None /\ g_uh (sp_g sp) = false /\
  ctr_run [New sp; full_run 0] = Ok w /\ ctr_run [New sp; full_run 0; New sp; full_run 1] = Ok w' /\
  points 0 w <> points 1 w'.
Proof.
  exists sp_start. destruct (rng_two [New sp_start; full_run 0] [New sp_start; full_run 0; New sp_start; full_run 1] (fun w w' => points 0 w <> points 1 w')) as (w & w' & A & B & C).
  { vm_compute. discriminate. }
  exists w, w'. exact (conj eq_refl (conj eq_refl (conj A (conj B C)))).
Qed.
Definition sp_uh := uh_sp 5.
Lemma rng_uncertainty : exists (sp : spec Z nat Z) w w', sp_x0 sp <> None /\ g_uh (sp_g sp) = true /\
  ctr_run [New sp; full_run 0] = Ok w /\ ctr_run [New sp; full_run 0; New sp; full_run 1] = Ok w' /\
  points 0 w <> points 1 w'.
Proof.
  exists sp_uh. destruct (rng_two [New sp_uh; full_run 0] [New sp_uh; full_run 0; New sp_uh; full_run 1] (fun w w' => points 0 w <> points 1 w')) as (w & w' & A & B & C).
  { vm_compute. discriminate. }
  exists w, w'. split; [discriminate|]. exact (conj eq_refl (conj A (conj B C))).
Qed.
