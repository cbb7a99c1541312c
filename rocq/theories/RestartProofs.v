(** Proofs about the restart strategies. *)
From Coq Require Import Reals.
From Verif Require Import Base Dbl DblProofs Config Search SpecInvar SpecSearch SpecStop SpecSafe SearchInv CounterProofs StopProofs RunProofs Restart SpecRestart FrameProofs.
Local Open Scope Z_scope.

Section Kept.
Context {T N : Type}.
Variable no : numops T N.
Variable e : env T N.
Variable g : cfg T.
Definition kept (x : list T) (s : st T N) : Prop := t_x0 s = x /\ t_initel s = false /\ s_cands (t_sol s) <> [].
Lemma kept_optimize x rf fuel s r s' : e_restart (g_elit g) = false -> kept x s -> optimize no e g (round no e g) rf fuel s = Ok (r, s') -> kept x s'.
Proof.
  intros HE HK H. eapply (P_optimize no e g (kept x) (fun _ => True)) in H; [exact H| | | | | | | |exact HK]; clear -HE.
  - auto.
  - intros s pop s' (X & I & C) H. apply ask_spec in H as ((K & _ & HC & _) & _). unfold keep in K. injection K as K1 K2 K3 K4 K5 K6 K7 K8 K9 K10 K11 K12 K13 K14 K15.
    unfold kept. rewrite K14, K15, HC. auto.
  - intros s cols phen s1 s2 (X & I & C) _ H1 H2.
    apply eval_spec in H1 as (_ & _ & K & _). unfold keep in K. injection K as K1 K2 K3 K4 K5 K6 K7 K8 K9 K10 K11 K12 K13 K14 K15.
    apply tell_effect in H2 as (_ & _ & _ & _ & T3 & T4 & _ & _ & _ & _ & _ & _ & _ & c0 & ck & cl & m & rest & lim & Hc & _).
    unfold kept, inc_iter; cbn. split; [congruence|]. split; [congruence|]. cbn in Hc. intros Q. rewrite Q in Hc. discriminate.
  - intros s b s' HK H. apply stop_same in H as [r ->]. exact HK.
  - intros s s' HK H. apply eval_initial_spec in H as [(_ & ->)|(_ & y & _ & ->)]; exact HK.
  - intros s s' (X & I & C) H. apply edm_spec in H as ((K & _ & HC & _) & _). unfold keep in K. injection K as K1 K2 K3 K4 K5 K6 K7 K8 K9 K10 K11 K12 K13 K14 K15.
    unfold kept. rewrite K14, K15, HC. auto.
  - intros s s' _ H. unfold restart_wanted in H. rewrite HE in H. discriminate.
Qed.
Lemma kept_new x n s : st_new no g x n = Ok s -> kept x s.
Proof.
  intros H. apply st_new_spec in H as (Hl & so & H & ->). apply sol_new_spec in H as (_ & ->). unfold kept; cbn. repeat split; auto.
  destruct (g_lambda g); [lia|discriminate].
Qed.
(** Generations have lambda points. *)
Lemma gens_optimize rf fuel s r s' : samples_ok no -> e_restart (g_elit g) = false -> Forall (fun gen => length gen = g_lambda g) (t_gens s) ->
  optimize no e g (round no e g) rf fuel s = Ok (r, s') -> Forall (fun gen => length gen = g_lambda g) (t_gens s').
Proof.
  intros HS HE HK H.
  eapply (P_optimize no e g (fun s => Forall (fun gen => length gen = g_lambda g) (t_gens s)) (fun pop => length pop = g_lambda g)) in H; [exact H| | | | | | | |exact HK]; clear -HE HS.
  - intros s pop s' _ H. apply ask_spec in H as (_ & H & _). auto.
  - intros s pop s' G H. apply ask_spec in H as ((_ & HG & _) & _). now rewrite HG.
  - intros s cols phen s1 s2 G L H1 H2.
    apply eval_spec in H1 as (_ & _ & _ & HG & _). apply tell_effect in H2 as (_ & HG2 & _). unfold inc_iter; cbn. rewrite HG2, HG. apply Forall_app. split; auto.
    constructor; auto. rewrite new_gen_length. auto.
  - intros s b s' HK H. apply stop_same in H as [r ->]. exact HK.
  - intros s s' HK H. apply eval_initial_spec in H as [(_ & ->)|(_ & y & _ & ->)]; exact HK.
  - intros s s' G H. apply edm_spec in H as ((_ & HG & _) & _). now rewrite HG.
  - intros s s' _ H. unfold restart_wanted in H. rewrite HE in H. discriminate.
Qed.
(** Every run makes an iteration unless the progress function says no. *)
Lemma one_iteration x n s0 rf fuel r s : samples_ok no -> (forall so, e_progress e so = 0) -> e_restart (g_elit g) = false ->
  st_new no g x n = Ok s0 -> optimize no e g (round no e g) rf fuel s0 = Ok (r, s) -> 1 <= s_niter (t_sol s) /\ t_gens s <> [].
Proof.
  intros HS HPr HE H0 H. apply cnt_new in H0 as (C0 & G0 & L0 & N0 & I0 & IE & S0 & _).
  apply optimize_unfold in H as (s1 & s2 & s3 & w & H1 & H2 & H3 & H4 & H5 & H6).
  destruct (cnt_init _ _ _ _ _ C0 H1) as (C1 & G1 & I1 & S1 & _).
  assert (Y : t_niter s3 = t_niter s2 /\ t_gens s3 = t_gens s2 /\ (cnt s2 -> cnt s3)).
  { destruct (g_edm g); [|subst; auto]. split; [|split].
    - apply edm_spec in H3 as ((K & _ & _) & _). unfold keep in K. now injection K.
    - apply edm_spec in H3 as ((_ & K & _) & _). exact K.
    - intros C. now destruct (cnt_edm _ _ _ _ _ C H3). }
  destruct Y as (I3 & G3 & C3).
  unfold restart_wanted in H4. rewrite HE in H4. cbn in H4. injection H4 as <-. destruct H5 as [[_ ->]|(Q & _)]; [|discriminate].
  destruct fuel as [|fuel]; cbn [loop] in H2; [discriminate|]. inv_do H2. destruct a as [b s1']. cbn [fst snd] in H2.
  destruct b.
  - apply stop_spec in H as [(_ & _ & [Q|Q])|(_ & _ & [(_ & Q & _)|(Q & _)])]; [lia|rewrite HPr in Q; lia|discriminate|lia].
  - apply bind_ok in H2. destruct H2 as (a & H7 & H2). destruct (cnt_stop _ _ _ _ _ _ C1 H) as (C1' & N1 & N2 & N3). pose proof (cnt_round _ _ _ _ _ HS C1' H7) as C4.
    apply round_counts in H7 as (R1 & R2 & R3 & _); auto.
    assert (GL : (length (t_gens a) <= length (t_gens s2))%nat).
    { clear -H2 HS. revert a s2 H2. induction fuel as [|fuel IH]; cbn [loop]; intros s s' H; [discriminate|].
      inv_do H. destruct a as [b s1]. cbn [fst snd] in H. apply stop_same in H0 as [r ->]. destruct b; [apply Ok_inj in H; subst; cbn; lia|].
      inv_do H. apply IH in H. apply round_counts in H0 as (_ & _ & R3 & _); auto. cbn in R3. lia. }
    apply loop_grows in H2 as (C5 & _ & H2); auto. destruct (C3 C5) as (C6 & _). rewrite <- C6, G3. split; [lia|].
    intros Q. rewrite Q in GL. cbn in GL. lia.
Qed.
End Kept.

Section Proofs.
Context {T N : Type}.
Variable ops : nat -> R -> numops T N.
Variable e : env T N.
Variable g : cfg T.
Notation st := (st T N).
Notation sol := (sol T N).
Implicit Types (p : rpar) (s : st) (u : urun T N).

(** A strategy that is about to start a run. *)
Definition ready p (x0 : list T) s : Prop := exists n s0,
  restart_new ops g p x0 n = Ok s0 /\ s = behind (t_log s) (t_gens s) (t_nevals s) s0.
Lemma ready_new p x0 n s : restart_new ops g p x0 n = Ok s -> ready p x0 s /\ t_log s = [] /\ t_nevals s = 0 /\ t_gens s = [].
Proof.
  intros H. pose proof H as C. unfold restart_new in C. apply cnt_new in C as (C0 & G0 & L0 & N0 & _).
  split; [|auto]. exists n, s. split; auto. rewrite G0, L0, N0. unfold behind. cbn. now destruct s.
Qed.
Lemma ready_reset p x0 s s' : t_x0 s = x0 -> t_initel s = false -> (1 <= q_lambda p)%nat -> reset_search_state ops g p s = Ok s' ->
  ready p x0 s' /\ t_log s' = t_log s /\ t_nevals s' = t_nevals s /\ t_gens s' = t_gens s /\ t_x0 s' = x0.
Proof.
  intros <- I Hl H. unfold reset_search_state in H. inv_do H. apply Ok_inj in H. subst s'. cbn.
  split; [|auto]. exists (s_num (t_sol s)), (mkSt a 0 0 false (t_x0 s) [] []). split.
  - unfold restart_new, st_new. cbn [g_lambda cfg_at set_g_max_fevals set_g_reev set_g_lambda]. destruct (Nat.eqb_spec (q_lambda p) 0); [lia|]. rewrite H0. reflexivity.
  - unfold behind, set_t_niter, set_t_sol; cbn. now rewrite Z.add_0_r, !app_nil_r, I.
Qed.

Section NoRestart.
Hypothesis HE : e_restart (g_elit g) = false.
Lemma inner_fresh p x0 rf fuel s s' : ready p x0 s -> inner ops e g p rf fuel s = Ok s' ->
  exists n s0 rc s1, restart_new ops g p x0 n = Ok s0 /\
    optimize (ops_at ops p) (after (length (t_log s)) e) (cfg_at g p) (round (ops_at ops p) (after (length (t_log s)) e) (cfg_at g p)) rf fuel s0 = Ok (rc, s1) /\
    s' = behind (t_log s) (t_gens s) (t_nevals s) s1 /\ kept x0 s1.
Proof.
  intros (n & s0 & H0 & E) H. unfold inner in H. inv_do H. destruct a as [rc s2]. apply Ok_inj in H. cbn in H. subst s2.
  rewrite E in H1. rewrite optimize_pre in H1 by exact HE.
  destruct (optimize _ _ _ _ _ _ s0) as [[rc1 s1]|] eqn:EO; [|discriminate]. cbn [rmap bind fst snd] in H1. injection H1 as <- <-.
  exists n, s0, rc1, s1. split; [auto|]. split; [exact EO|]. split; [reflexivity|].
  eapply (kept_optimize _ _ (cfg_at g p)); [exact HE| |exact EO]. eapply kept_new, H0.
Qed.
Lemma ready_x0 p x0 s : ready p x0 s -> t_x0 s = x0 /\ t_initel s = false /\ (1 <= q_lambda p)%nat.
Proof.
  intros (n & s0 & H & ->). pose proof H as C. unfold restart_new in C. apply cnt_new in C as (_ & _ & _ & _ & _ & _ & _ & C). unfold restart_new in H.
  apply kept_new in H as (A & B & _). cbn. auto.
Qed.
Lemma inner_run b p x0 rf fuel s s' : ready p x0 s -> inner ops e g p rf fuel s = Ok s' ->
  fresh_run ops e g (mkU b p s s') /\ kept x0 s' /\ t_x0 s = x0.
Proof.
  intros R H. destruct (ready_x0 _ _ _ R) as (X & _). destruct (inner_fresh _ _ _ _ _ _ R H) as (n & s0 & rc & s1 & A & B & -> & D).
  split; [|split; [exact D|exact X]]. exists n, rf, fuel, s0, rc, s1. cbn [u_par u_before u_after]. rewrite X. repeat split; auto.
Qed.
(** A run that starts from [ready] keeps what the run of a new optimiser keeps. *)
Lemma inner_evals p x0 rf fuel s s' : ready p x0 s -> t_nevals s = Z.of_nat (length (t_log s)) -> inner ops e g p rf fuel s = Ok s' -> t_nevals s' = Z.of_nat (length (t_log s')).
Proof.
  intros R E H. destruct (inner_fresh _ _ _ _ _ _ R H) as (n & s0 & rc & s1 & A & B & -> & D). cbn. rewrite app_length.
  assert (counted s1) as [CO _].
  { eapply optimize_counted; [exact B|]. unfold restart_new in A. apply cnt_new in A as ((_ & _ & A1 & _) & A2 & A3 & A4 & _). split; rewrite A3; cbn; lia. }
  lia.
Qed.
End NoRestart.

(** * Shape of an IPOP run *)
Lemma capture_par p p' b so : capture ops p b so = capture ops p' b so.
Proof. unfold capture, best_candidate. destruct b as [b|]; auto. destruct (rev (s_hist so)), (rev (s_hist b)); auto; destruct (c_x (s_init so)), (c_x (s_init b)); auto. Qed.
Definition fold_best (us : list (urun T N)) (best : option sol) : option sol :=
  fold_left (fun b u => capture ops (u_par u) b (t_sol (u_after u))) us best.

Lemma lambda_double_ok p p' : lambda_double p = Ok p' -> p' = with_q_lambda (2 * q_lambda p) p /\ 2 * Z.of_nat (q_lambda p) <= int_max.
Proof. unfold lambda_double. destruct (Z.ltb_spec int_max (2 * Z.of_nat (q_lambda p))); [discriminate|]. intros Q. apply Ok_inj in Q. auto. Qed.

Lemma ipop_shape n rf fuel : forall p best runs s best' runs' s', ipop_loop ops e g n rf fuel p best runs s = Ok (best', runs', s') ->
  exists new, runs' = runs ++ new /\ (length new <= n)%nat /\
    (forall k u, nth_error new k = Some u -> u_par u = with_q_lambda (q_lambda p * 2 ^ k) p /\ u_small u = false /\
       inner ops e g (u_par u) rf fuel (u_before u) = Ok (u_after u)) /\
    (forall k u u', nth_error new k = Some u -> nth_error new (S k) = Some u' ->
       reset_search_state ops g (u_par u') (u_after u) = Ok (u_before u') /\ (0 < q_maxf p -> t_nevals (u_before u') < q_maxf p)) /\
    best' = fold_best new best /\
    match new with [] => s' = s | u :: _ => u_before u = s end /\
    (forall u, nth_error new (length new - 1) = Some u -> exists p', q_lambda p' = (2 * q_lambda (u_par u))%nat /\ reset_search_state ops g p' (u_after u) = Ok s') /\
    ((length new < n)%nat -> 0 < q_maxf p /\ q_maxf p <= t_nevals s') /\
    (new <> [] -> Z.of_nat (q_lambda p) * 2 ^ Z.of_nat (length new) <= int_max).
Proof.
  induction n as [|n IH]; intros p best runs s best' runs' s' H; cbn [ipop_loop] in H.
  { apply Ok_inj in H. injection H as <- <- <-. exists []. rewrite app_nil_r. repeat split; auto; try (intros; destruct k; discriminate); cbn; intros; try lia; try discriminate; congruence. }
  inv_do H. rename a into s1. inv_do H. rename a into p2. inv_do H. rename a into s2.
  apply lambda_double_ok in H1 as (-> & HM). cbn [q_maxf with_q_lambda] in H.
  destruct ((0 <? q_maxf p) && (q_maxf p <=? t_nevals s2)) eqn:EB.
  - apply Ok_inj in H. injection H as <- <- <-. exists [mkU false p s s1]. apply andb_true_iff in EB as [B1 B2]. apply Z.ltb_lt in B1. apply Z.leb_le in B2.
    split; [reflexivity|]. split; [cbn; lia|]. split.
    { intros [|[|k]] u Q; cbn in Q; try discriminate. injection Q as <-. cbn. rewrite Nat.mul_1_r. destruct p; auto. }
    split; [intros [|[|k]] u u' Q Q'; discriminate|]. split; [reflexivity|]. split; [reflexivity|].
    split; [cbn; intros u Q; injection Q as <-; eexists; split; [|exact H2]; reflexivity|]. split; [auto|]. intros _. cbn [length]. change (2 ^ Z.of_nat 1) with 2. lia.
  - apply IH in H as (new & -> & L & S1 & S2 & -> & S3 & S4 & S5 & S6). exists (mkU false p s s1 :: new). rewrite <- app_assoc.
    split; [reflexivity|]. split; [cbn; lia|]. cbn [with_q_lambda q_lambda q_maxf] in *. split; [|split; [|split; [|split; [|split; [|split]]]]].
    + intros [|k] u Q; cbn in Q; [injection Q as <-; cbn; rewrite Nat.mul_1_r; destruct p; auto|]. destruct (S1 _ _ Q) as (-> & Q1 & Q2).
      split; [|auto]. unfold with_q_lambda; cbn [q_sigma q_maxf]. f_equal. cbn [Nat.pow]. nia.
    + intros [|k] u u' Q Q'; cbn in Q, Q'.
      * injection Q as <-. cbn [u_after]. destruct new as [|u1 new]; [discriminate|]. injection Q' as <-. destruct (S1 0%nat u1 eq_refl) as (E1 & _).
        rewrite S3. split. { rewrite E1. cbn [Nat.pow]. rewrite Nat.mul_1_r. unfold with_q_lambda in *; cbn in *. exact H2. }
        intros B. apply andb_false_iff in EB as [EB|EB]; [apply Z.ltb_ge in EB; lia|apply Z.leb_gt in EB; auto].
      * eapply S2; eauto.
    + reflexivity.
    + reflexivity.
    + intros u. destruct new as [|u1 new].
      * cbn. intros Q. injection Q as <-. eexists. cbn [u_after u_par]. split; [|rewrite S3; exact H2]. reflexivity.
      * replace (length (mkU false p s s1 :: u1 :: new) - 1)%nat with (S (length (u1 :: new) - 1)) by (cbn; lia). cbn [nth_error]. apply S4.
    + cbn [length]. intros Q. apply S5. lia.
    + intros _. cbn [length]. destruct new as [|u1 new].
      * cbn [length]. change (2 ^ Z.of_nat 1) with 2. lia.
      * specialize (S6 ltac:(discriminate)). rewrite (Nat2Z.inj_succ (length (u1 :: new))), Z.pow_succ_r by lia. rewrite Nat2Z.inj_mul in S6. lia.
Qed.

Lemma nth_Forall {A} (P : A -> Prop) l : (forall k a, nth_error l k = Some a -> P a) -> Forall P l.
Proof. intros H. apply Forall_forall. intros a Ha. apply In_nth_error in Ha as [k Hk]. eauto. Qed.

Section NoRestart2.
Hypothesis HE : e_restart (g_elit g) = false.
(** Every inner run of IPOP is a fresh run. *)
Lemma chain_fresh rf fuel x0 : forall us, (forall k u, nth_error us k = Some u -> inner ops e g (u_par u) rf fuel (u_before u) = Ok (u_after u)) ->
  (forall k u u', nth_error us k = Some u -> nth_error us (S k) = Some u' -> reset_search_state ops g (u_par u') (u_after u) = Ok (u_before u') /\ (1 <= q_lambda (u_par u'))%nat) ->
  forall u us', us = u :: us' -> ready (u_par u) x0 (u_before u) -> t_nevals (u_before u) = Z.of_nat (length (t_log (u_before u))) ->
  Forall (fun u => fresh_run ops e g u /\ t_x0 (u_before u) = x0 /\ ready (u_par u) x0 (u_before u) /\ kept x0 (u_after u) /\
            t_nevals (u_before u) = Z.of_nat (length (t_log (u_before u))) /\ t_nevals (u_after u) = Z.of_nat (length (t_log (u_after u)))) us /\
  consecutive (length (t_log (u_before u))) us.
Proof.
  induction us as [|v us IH]; intros HI HC u us' E R EV; [discriminate|]. injection E as -> ->.
  pose proof (HI 0%nat u eq_refl) as I0. destruct (inner_run HE false _ _ _ _ _ _ R I0) as (F & K & X).
  pose proof (inner_evals HE _ _ _ _ _ _ R EV I0) as EV1.
  assert (F' : fresh_run ops e g u) by (destruct u; exact F).
  destruct us' as [|u1 us'].
  - split; [constructor; [exact (conj F' (conj X (conj R (conj K (conj EV EV1)))))|constructor]|split; [reflexivity|exact I]].
  - destruct (HC 0%nat u u1 eq_refl eq_refl) as (C1 & C2). pose proof K as (K1 & K2 & K3).
    destruct (ready_reset _ _ _ _ K1 K2 C2 C1) as (R1 & L1 & N1 & G1 & X1).
    edestruct (IH) as (IA & IB); [intros k w Q; exact (HI (S k) w Q)|intros k w w' Q Q'; exact (HC (S k) w w' Q Q')|reflexivity|exact R1|rewrite N1, L1; auto|].
    split; [constructor; [exact (conj F' (conj X (conj R (conj K (conj EV EV1)))))|exact IA]|]. split; [reflexivity|]. rewrite <- L1. exact IB.
Qed.
End NoRestart2.

Definition fresh_at rf fuel x0 u : Prop := fresh_run ops e g u /\ t_x0 (u_before u) = x0 /\ ready (u_par u) x0 (u_before u) /\ kept x0 (u_after u) /\
  t_nevals (u_before u) = Z.of_nat (length (t_log (u_before u))) /\ t_nevals (u_after u) = Z.of_nat (length (t_log (u_after u))) /\
  inner ops e g (u_par u) rf fuel (u_before u) = Ok (u_after u).
Lemma mul_pow_pos l k : (1 <= l -> 1 <= l * 2 ^ k)%nat.
Proof. intros H. pose proof (Nat.pow_nonzero 2 k). nia. Qed.
Lemma ipop_fresh p x0 n s0 nr rf fuel rc best runs s : e_restart (g_elit g) = false -> restart_new ops g p x0 n = Ok s0 ->
  ipop ops e g nr rf fuel p s0 = Ok (rc, best, runs, s) ->
  Forall (fresh_at rf fuel x0) runs /\ consecutive 0 runs /\
  (forall u, nth_error runs (length runs - 1) = Some u -> t_log s = t_log (u_after u) /\ t_nevals s = t_nevals (u_after u)).
Proof.
  intros HE H0 H. unfold ipop in H. inv_do H. destruct a as [[best' runs'] s']. apply Ok_inj in H. injection H as <- <- <- <-.
  apply ipop_shape in H1 as (new & -> & L & S1 & S2 & _ & S3 & S4 & _). cbn [app].
  apply ready_new in H0 as (R0 & L0 & N0 & G0). destruct (ready_x0 _ _ _ R0) as (_ & _ & HL).
  destruct new as [|u new].
  { split; [constructor|]. split; [exact I|]. intros u Q. discriminate. }
  assert (X : Forall (fresh_at rf fuel x0) (u :: new) /\ consecutive 0 (u :: new)).
  { destruct (S1 0%nat u eq_refl) as (E0 & _ & _).
    destruct (chain_fresh HE rf fuel x0 (u :: new)) with (u := u) (us' := new) as (F & C); auto.
    - intros k w Q. apply (S1 k w Q).
    - intros k w w' Q Q'. split; [apply (S2 k w w' Q Q')|]. destruct (S1 _ _ Q') as (-> & _). cbn [with_q_lambda q_lambda]. apply mul_pow_pos, HL.
    - rewrite S3, E0. cbn [Nat.pow]. rewrite Nat.mul_1_r. destruct p; exact R0.
    - rewrite S3, L0. exact N0.
    - split; [|rewrite S3, L0 in C; exact C]. apply Forall_forall. intros w Hw. rewrite Forall_forall in F. destruct (F w Hw) as (A1 & A2 & A3 & A4 & A5 & A6).
      apply In_nth_error in Hw as [k Hk]. destruct (S1 k w Hk) as (_ & _ & A7). exact (conj A1 (conj A2 (conj A3 (conj A4 (conj A5 (conj A6 A7)))))). }
  destruct X as (F & C). split; [exact F|]. split; [exact C|].
  intros w Q. destruct (S4 w Q) as (p' & Ep & Hr). rewrite Forall_forall in F. destruct (F w (nth_error_In _ _ Q)) as (_ & _ & _ & (A1 & A2 & A3) & _ & _ & _).
  destruct (S1 _ _ Q) as (E1 & _). assert (HL' : (1 <= q_lambda p')%nat). { rewrite Ep, E1. cbn [with_q_lambda q_lambda]. pose proof (mul_pow_pos _ (length (u :: new) - 1) HL). lia. }
  destruct (ready_reset _ _ _ _ A1 A2 HL' Hr) as (_ & B1 & B2 & _). auto.
Qed.

(** * The best solution *)
Definition bval (so : sol) : dbl := match rev (s_hist so) with [] => match c_x (s_init so) with [] => NaN | _ => c_f (s_init so) end | c :: _ => c_f c end.
Lemma bval_spec no so : c_f (best_candidate no so) = bval so.
Proof. unfold best_candidate, bval. destruct (rev (s_hist so)); auto. destruct (c_x (s_init so)); auto. Qed.
Lemma fold_best_min us : (forall u, In u us -> bval (t_sol (u_after u)) <> NaN /\ s_cands (t_sol (u_after u)) <> []) -> forall best,
  (forall b, best = Some b -> bval b <> NaN /\ s_cands b <> []) -> us <> [] \/ best <> None ->
  exists b, fold_best us best = Some b /\ (best = Some b \/ exists u, In u us /\ b = t_sol (u_after u)) /\
    (forall u, In u us -> dle (bval b) (bval (t_sol (u_after u))) = true) /\ (forall b0, best = Some b0 -> dle (bval b) (bval b0) = true).
Proof.
  induction us as [|u us IH]; intros HF best HB NE.
  { destruct best as [b|]; [|tauto]. exists b. cbn. split; auto. split; auto. split; [tauto|]. intros b0 Q. injection Q as <-. apply dle_refl, (HB b eq_refl). }
  destruct (HF u (or_introl eq_refl)) as (V & C).
  destruct (IH (fun w Hw => HF w (or_intror Hw)) (capture ops (u_par u) best (t_sol (u_after u)))) as (b & E & S & M & MB).
  { intros b. unfold capture. destruct best as [b0|]; [|intros Q; injection Q as <-; auto]. destruct (_ || _); intros Q; injection Q as <-; auto. }
  { right. unfold capture. destruct best; [destruct (_ || _)|]; discriminate. }
  exists b. split; [exact E|].
  assert (CB : forall b0, best = Some b0 -> exists b1, capture ops (u_par u) best (t_sol (u_after u)) = Some b1 /\ dle (bval b1) (bval b0) = true /\ dle (bval b1) (bval (t_sol (u_after u))) = true).
  { intros b0 ->. destruct (HB b0 eq_refl) as (V0 & C0). unfold capture. destruct (s_cands b0); [congruence|]. cbn [orb]. rewrite !bval_spec.
    destruct (dlt _ _) eqn:D; eexists; (split; [reflexivity|]); (split; [|]); try (apply dle_refl; assumption); [apply dlt_dle; auto|apply dlt_false_le; auto]. }
  split; [|split].
  - destruct S as [S|(w & S1 & S2)]; [|right; exists w; split; [right; auto|auto]].
    revert S. unfold capture. destruct best as [b0|]; [destruct (_ || _)|]; intros Q; [injection Q as <-; right; exists u; split; [left; auto|auto]|auto|injection Q as <-; right; exists u; split; [left; auto|auto]].
  - intros w [<-|Hw]; [|auto]. destruct best as [b0|]; [|apply MB; reflexivity]. destruct (CB b0 eq_refl) as (b1 & E1 & _ & D). eapply dle_trans; [apply MB, E1|exact D].
  - intros b0 ->. destruct (CB b0 eq_refl) as (b1 & E1 & D & _). eapply dle_trans; [apply MB, E1|exact D].
Qed.
End Proofs.
