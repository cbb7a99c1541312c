(** Reproducibility of runs that share the generator. *)
From Verif Require Import Base Dbl Config Search SpecSearch SearchInv StopProofs CounterProofs Rng SpecRng.
Local Open Scope Z_scope.

Section RngProofs.
Context {T L G : Type}.
Variable seeded : Z -> G.
Variable rnd : nat -> list T.
Variable device : nat -> L.
Notation world := (world T L G).
Notation spec := (spec T L G).
Notation st := (st T (L * G)).
Notation step := (step seeded rnd device).
Notation steps := (steps seeded rnd device).

Lemma put_gen_id (s : st) : put_gen (gen_of s) s = s.
Proof. destruct s as [s]; destruct s; cbn. unfold put_gen, gen_of. cbn. now destruct s_num. Qed.
Lemma gen_put w (s : st) : gen_of (put_gen w s) = w.
Proof. reflexivity. Qed.
Lemma log_put w (s : st) : t_log (put_gen w s) = t_log s.
Proof. reflexivity. Qed.

(** Quiet calls *)
Lemma eval_num no e g cols phen (s s' : st) : g_uh g = false -> eval no e g cols phen s = Ok s' -> s_num (t_sol s') = s_num (t_sol s).
Proof. intros U H. apply eval_spec in H as (_ & _ & K & _ & _ & _ & _ & Nm & _). auto. Qed.
Lemma tell_num no e g (s s' : st) : g_uh g = false -> updates_draw_nothing no -> tell no e g s = Ok s' -> gen_of s' = gen_of s.
Proof.
  intros U (D1 & D2 & D3) H. apply tell_spec in H as (s1 & s2 & s3 & n4 & R & E2 & E3 & -> & E4). rewrite (E4 U). unfold gen_of. cbn [t_sol set_t_sol s_num set_s_num].
  rewrite D2. apply ubc_spec in E3 as (K & _). unfold kept_by_tell in K.
  assert (N3 : s_num s3 = s_num s2) by congruence. rewrite N3.
  destruct R as [(_ & _ & ->)|(Q & _)]; [|congruence].
  subst s2. destruct (_ && _); cbn; auto.
Qed.
Lemma stop_num no e g (s : st) p : stop no e g s = Ok p -> gen_of (snd p) = gen_of s.
Proof. intros H. destruct p as [b s']. apply stop_spec in H as [(_ & -> & _)|(_ & _ & [(_ & _ & ->)|(_ & r & _ & _ & ->)])]; reflexivity. Qed.
Lemma quiet_op no e g o (s s' : st) : g_uh g = false -> updates_draw_nothing no ->
  match o with OStop | OTell | OInc | OEval _ _ | OGen _ _ => True | OAsk | OOptimize _ _ => False end ->
  do_op no e g o s = Ok s' -> gen_of s' = gen_of s.
Proof.
  intros U D Q H. destruct o; cbn [do_op] in H; try contradiction.
  - apply eval_num in H; auto. unfold gen_of. now rewrite H.
  - eapply tell_num; eauto.
  - apply Ok_inj in H. subst s'. reflexivity.
  - inv_do H. apply Ok_inj in H. subst s'. eapply stop_num; eauto.
  - inv_do H. inv_do H. apply Ok_inj in H. subst s'. change (gen_of (inc_iter a0)) with (gen_of a0). rewrite (tell_num no e g a a0); auto.
    apply eval_num in H0; auto. unfold gen_of. now rewrite H0.
Qed.

(** Invariant: optimiser [i] has state [s] and the generator is the one it left. *)
Definition holds i sp (s : st) (w : world) : Prop := nth_error (w_opts w) i = Some (sp, s) /\ w_gen w = gen_of s.
Lemma upd_nth {A} (l l' : list A) i a j : upd_at l (Z.of_nat i) a = Ok l' -> nth_error l' j = if (j =? i)%nat then Some a else nth_error l j.
Proof.
  intros H. apply upd_at_ok in H as [B ->]. rewrite Nat2Z.id. destruct (Nat.eqb_spec j i) as [->|NE].
  - rewrite nth_error_app2 by (rewrite firstn_length; lia). rewrite firstn_length, Nat.min_l, Nat.sub_diag by lia. reflexivity.
  - destruct (Nat.lt_ge_cases j i).
    + rewrite nth_error_app1 by (rewrite firstn_length; lia). apply SortProofs.nth_error_firstn'. lia.
    + rewrite nth_error_app2 by (rewrite firstn_length; lia). rewrite firstn_length, Nat.min_l by lia.
      destruct (j - i)%nat as [|d] eqn:E; [lia|]. cbn [nth_error]. rewrite SortProofs.nth_error_skipn'. f_equal. lia.
Qed.
Lemma step_on i sp s w o w' : holds i sp s w -> step (On i o) w = Ok w' ->
  exists s', do_op (sp_no sp) (sp_e sp) (sp_g sp) o s = Ok s' /\ holds i sp s' w'.
Proof.
  intros [H1 H2] H. cbn [Rng.step] in H. inv_do H. apply at_ok in H0 as [_ H0]. rewrite Nat2Z.id, H1 in H0. injection H0 as <-. cbn [fst snd] in H.
  rewrite H2, put_gen_id in H. inv_do H. inv_do H. apply Ok_inj in H. subst w'. exists a. split; auto. split; [|reflexivity].
  cbn [w_opts]. erewrite upd_nth by eauto. now rewrite Nat.eqb_refl.
Qed.
Lemma step_new_gen sp w w' : step (New sp) w = Ok w' -> w_gen w' = seeded (sp_seed sp).
Proof.
  intros H. cbn [Rng.step] in H. apply bind_ok in H as (s & C & H). apply Ok_inj in H. subst w'.
  unfold construct in C. apply bind_ok in C as (s1 & _ & C). apply Ok_inj in C. subst s. apply gen_put.
Qed.
Lemma step_quiet i sp s w j o w' : holds i sp s w -> j <> i -> others_quiet i w (On j o) -> step (On j o) w = Ok w' -> holds i sp s w'.
Proof.
  intros [H1 H2] NE Q H. cbn [Rng.step] in H. inv_do H. apply at_ok in H0 as [_ H0]. rewrite Nat2Z.id in H0. cbn in Q. rewrite H0 in Q.
  destruct Q as [Q|(U & D & Q)]; [contradiction|]. inv_do H. inv_do H. apply Ok_inj in H. subst w'. split; cbn [w_opts w_gen].
  - erewrite upd_nth by eauto. apply Nat.eqb_neq in NE. rewrite Nat.eqb_sym, NE. auto.
  - eapply quiet_op in H3; eauto. now rewrite H3, gen_put.
Qed.
(** The optimisers of a world keep their specification. *)
Lemma steps_quiet i sp : forall p w w' s, holds i sp s w ->
  (forall p1 ev p2 w1, p = p1 ++ ev :: p2 -> steps p1 w = Ok w1 -> others_quiet i w1 ev) ->
  steps p w = Ok w' -> exists s', run_ops (sp_no sp) (sp_e sp) (sp_g sp) (calls_on i p) s = Ok s' /\ holds i sp s' w'.
Proof.
  induction p as [|ev p IH]; intros w w' s Hh Q H; cbn [Rng.steps] in H.
  - apply Ok_inj in H. subst w'. exists s. split; auto.
  - inv_do H. rename a into w1. pose proof (Q [] ev p w eq_refl eq_refl) as Q0.
    assert (Q' : forall p1 ev0 p2 w2, p = p1 ++ ev0 :: p2 -> steps p1 w1 = Ok w2 -> others_quiet i w2 ev0).
    { intros p1 ev0 p2 w2 -> E. apply (Q (ev :: p1) ev0 p2 w2 eq_refl). cbn [Rng.steps]. rewrite H0. exact E. }
    destruct ev as [sp'|j o]; [contradiction|]. cbn [calls_on flat_map]. destruct (Nat.eqb_spec j i) as [->|NE].
    + destruct (step_on _ _ _ _ _ _ Hh H0) as (s1 & D & Hh1). cbn [app run_ops]. rewrite D. cbn [bind]. eapply IH; eauto.
    + apply (step_quiet i sp s) in H0; auto. cbn [app]. eapply IH; eauto.
Qed.
Lemma step_new sp w w' : step (New sp) w = Ok w' -> exists s, nth_error (w_opts w') (length (w_opts w)) = Some (sp, s) /\ w_gen w' = gen_of s /\
  construct seeded sp (match sp_x0 sp with Some x => x | None => rnd (w_rand w) end) (if g_uh (sp_g sp) then device (w_dev w) else sp_local sp) = Ok s.
Proof.
  intros H. cbn [Rng.step] in H. inv_do H. apply Ok_inj in H. subst w'. exists a. cbn [w_opts w_gen]. split; [|auto].
  rewrite nth_error_app2, Nat.sub_diag by lia. reflexivity.
Qed.
Lemma steps_app p1 p2 w w' : steps (p1 ++ p2) w = Ok w' -> exists w1, steps p1 w = Ok w1 /\ steps p2 w1 = Ok w'.
Proof.
  revert w; induction p1 as [|ev p1 IH]; intros w H; cbn [app Rng.steps] in *; [eauto|].
  inv_do H. rewrite H0. cbn [bind]. apply IH in H. auto.
Qed.
Lemma solo g0 sp p w0 w w1 : seeded_only sp ->
  step (New sp) w0 = Ok w1 -> steps p w1 = Ok w -> undisturbed seeded rnd device (length (w_opts w0)) p w1 ->
  exists w', alone seeded rnd device g0 sp (calls_on (length (w_opts w0)) p) = Ok w' /\ same_run (length (w_opts w0)) w 0 w'.
Proof.
  intros [S1 S2] H1 H2 Q. destruct (sp_x0 sp) as [x|] eqn:Ex; [|congruence]. clear S1.
  pose proof (step_new _ _ _ H1) as (s & N1 & N2 & N3). rewrite Ex, S2 in N3.
  destruct (steps_quiet _ sp p w1 w s (conj N1 N2) Q H2) as (s' & R & [H3 H4]).
  set (i := length (w_opts w0)) in *.
  assert (A : exists w', alone seeded rnd device g0 sp (calls_on i p) = Ok w' /\ w' = mkWorld (gen_of s') 0 0 [(sp, s')]).
  { unfold alone. cbn [Rng.steps Rng.step fresh w_rand w_dev w_opts app]. rewrite Ex, S2, N3. cbn [bind].
    assert (G1 : forall h (sa sb : st) wa, wa = mkWorld (gen_of sa) 0 0 [(sp, sa)] -> run_ops (sp_no sp) (sp_e sp) (sp_g sp) h sa = Ok sb ->
      exists w', steps (map (On 0) h) wa = Ok w' /\ w' = mkWorld (gen_of sb) 0 0 [(sp, sb)]).
    { induction h as [|o h IH]; intros sa sb wa -> E; cbn [run_ops] in E.
      - apply Ok_inj in E. subst sb. eexists. split; reflexivity.
      - inv_do E. cbn [map Rng.steps Rng.step w_opts at_ Z.of_nat Z.ltb Z.compare Z.to_nat nth_error bind fst snd w_gen]. rewrite put_gen_id, H. cbn [bind].
        cbn [upd_at length Z.of_nat Pos.of_succ_nat Z.ltb Z.leb Z.compare orb bind firstn skipn Z.to_nat app w_rand w_dev]. eapply IH; eauto. }
    eapply G1; [reflexivity|exact R]. }
  destruct A as (w' & A1 & ->). eexists. split; [exact A1|]. unfold same_run, points, next_population. cbn [w_opts nth_error at_ Z.of_nat Z.ltb Z.compare Z.to_nat bind fst snd w_gen].
  rewrite H3, H4. split; [reflexivity|]. split; [|reflexivity].
  assert (At : at_ (w_opts w) (Z.of_nat i) = Ok (sp, s')) by (unfold at_; destruct (Z.ltb_spec (Z.of_nat i) 0); [lia|]; now rewrite Nat2Z.id, H3).
  rewrite At. reflexivity.
Qed.
(** Two runs of one configuration, in any two programs. *)
Lemma same_run_two sp p1 p2 wa wb wa1 wb1 wa2 wb2 : seeded_only sp ->
  step (New sp) wa = Ok wa1 -> steps p1 wa1 = Ok wa2 -> step (New sp) wb = Ok wb1 -> steps p2 wb1 = Ok wb2 ->
  undisturbed seeded rnd device (length (w_opts wa)) p1 wa1 ->
  undisturbed seeded rnd device (length (w_opts wb)) p2 wb1 ->
  calls_on (length (w_opts wa)) p1 = calls_on (length (w_opts wb)) p2 ->
  same_run (length (w_opts wa)) wa2 (length (w_opts wb)) wb2.
Proof.
  intros S A1 A2 B1 B2 QA QB E.
  destruct (solo (w_gen wa) sp p1 wa wa2 wa1 S A1 A2 QA) as (w & X1 & X2 & X3 & X4).
  destruct (solo (w_gen wa) sp p2 wb wb2 wb1 S B1 B2 QB) as (w' & Y1 & Y2 & Y3 & Y4).
  rewrite E in X1. rewrite X1 in Y1. apply Ok_inj in Y1. subst w'. split; [congruence|]. split; congruence.
Qed.

(** The specifications present in a program. *)
Definition created (p : list (event T L G)) : list spec := flat_map (fun ev => match ev with New sp => [sp] | On _ _ => [] end) p.
Lemma list_nth_ext {A} : forall l l' : list A, (forall j, nth_error l j = nth_error l' j) -> l = l'.
Proof.
  induction l as [|a l IH]; intros [|b l'] H; auto; try (specialize (H O); discriminate).
  pose proof (H O) as H0. injection H0 as ->. f_equal. apply IH. intros j. apply (H (S j)).
Qed.
Lemma specs_step ev w w' : step ev w = Ok w' -> map fst (w_opts w') = map fst (w_opts w) ++ created [ev].
Proof.
  intros H. destruct ev as [sp|i o].
  - cbn [Rng.step] in H. inv_do H. apply Ok_inj in H. subst w'. cbn [w_opts]. rewrite map_app. reflexivity.
  - cbn [Rng.step] in H. inv_do H. inv_do H. inv_do H. apply Ok_inj in H. subst w'. cbn [w_opts created flat_map app]. rewrite app_nil_r.
    apply at_ok in H0 as [_ H0]. rewrite Nat2Z.id in H0. apply list_nth_ext. intros j. rewrite !nth_error_map. rewrite (upd_nth _ _ _ _ j H2).
    destruct (Nat.eqb_spec j i) as [->|NE]; auto. now rewrite H0.
Qed.
Lemma specs_steps : forall p w w', steps p w = Ok w' -> map fst (w_opts w') = map fst (w_opts w) ++ created p.
Proof.
  induction p as [|ev p IH]; intros w w' H; cbn [Rng.steps] in H.
  - apply Ok_inj in H. subst w'. now rewrite app_nil_r.
  - inv_do H. rewrite (IH _ _ H), (specs_step _ _ _ H0), <- app_assoc. f_equal. change (ev :: p) with ([ev] ++ p). unfold created. now rewrite !flat_map_app.
Qed.
(** A test of undisturbedness that looks at the specifications only. *)
Definition quiet_event (i : nat) (sps : list spec) (ev : event T L G) : Prop :=
  match ev with
  | New _ => False
  | On j o => j = i \/ forall sp, nth_error sps j = Some sp -> g_uh (sp_g sp) = false /\ updates_draw_nothing (sp_no sp) /\
      match o with OStop | OTell | OInc | OEval _ _ | OGen _ _ => True | OAsk | OOptimize _ _ => False end
  end.
Lemma undisturbed_by i p w sps : map fst (w_opts w) = sps -> Forall (quiet_event i sps) p -> undisturbed seeded rnd device i p w.
Proof.
  intros E F p1 ev p2 w1 -> H. pose proof (specs_steps _ _ _ H) as Sp. apply Forall_app in F as [F1 F2]. inversion F2; subst.
  assert (C : created p1 = []).
  { clear - F1. induction F1 as [|x l Hx F IH]; auto. destruct x; [contradiction|]. exact IH. }
  rewrite C, app_nil_r in Sp. destruct ev as [sp|j o]; [contradiction|]. cbn in H2 |- *. destruct H2 as [->|H2]; [now left|right].
  destruct (nth_error (w_opts w1) j) as [q|] eqn:En; auto. apply H2. rewrite <- Sp, nth_error_map, En. reflexivity.
Qed.
Lemma res_ok {A} (r : res A) (P : A -> Prop) : match r with Ok a => P a | Fault _ => False end -> exists a, r = Ok a /\ P a.
Proof. destruct r; [eauto|contradiction]. Qed.
End RngProofs.
