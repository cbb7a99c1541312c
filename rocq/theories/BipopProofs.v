(** Proofs about the schedule of BIPOP. *)
From Coq Require Import Reals Lra.
From Verif Require Import Base Dbl DblProofs Config Search SpecInvar SpecSearch SpecStop SpecSafe SearchInv CounterProofs StopProofs RunProofs Restart SpecRestart FrameProofs RestartProofs.
Local Open Scope Z_scope.

(** * Population size of a small run *)
Lemma ceilR_ge x k : (IZR k < x)%R -> k + 1 <= ceilR x.
Proof.
  intros H. unfold ceilR, Int_part. destruct (archimed (- x)) as [A B].
  assert (IZR (up (- x)) < IZR (1 - k))%R by (rewrite minus_IZR; lra). apply lt_IZR in H0. lia.
Qed.
Lemma r2_lambda_ge ldef ll u : (2 <= ldef)%nat -> (ldef <= ll)%nat -> (0 <= u < 1)%R -> (2 <= r2_lambda ldef ll u)%nat.
Proof.
  intros H1 H2 [U0 U1]. unfold r2_lambda.
  assert (P : (2 <= INR ldef)%R) by (change 2%R with (INR 2); now apply le_INR). assert (Q : (INR ldef <= INR ll)%R) by now apply le_INR.
  assert (F : (1 < INR ldef * Rpower (0.5 * (INR ll / INR ldef)) u)%R).
  { set (r := (0.5 * (INR ll / INR ldef))%R).
    assert (R : (0.5 <= r)%R). { unfold r. assert (1 <= INR ll / INR ldef)%R; [|lra]. apply Rmult_le_reg_r with (INR ldef); [lra|]. unfold Rdiv. rewrite Rmult_assoc, Rinv_l; lra. }
    assert (L : (0.5 < Rpower r u)%R).
    { apply Rlt_le_trans with (Rpower 0.5 u).
      - rewrite <- (Rpower_1 0.5) at 1 by lra. unfold Rpower. apply exp_increasing. assert (ln 0.5 < 0)%R; [|nra]. rewrite <- ln_1. apply ln_increasing; lra.
      - unfold Rpower. destruct (Req_dec u 0) as [->|NE]; [rewrite !Rmult_0_l; lra|]. assert (ln 0.5 <= ln r)%R. { destruct R as [R|<-]; [left; apply ln_increasing; lra|lra]. }
        destruct (Rle_lt_or_eq_dec _ _ H) as [H'|H']; [left; apply exp_increasing; nra|right; now rewrite H']. }
    nra. }
  assert (2 <= ceilR (INR ldef * Rpower (0.5 * (INR ll / INR ldef)) u)) by (apply (ceilR_ge _ 1); exact F). lia.
Qed.

Lemma consec_app {T N} (us l : list (urun T N)) u : forall c, consecutive c us -> us <> [] -> nth_error us (length us - 1) = Some u -> (consecutive c (us ++ l) <-> consecutive (length (t_log (u_after u))) l).
Proof.
  induction us as [|v us IH]; intros c H NE Q; [congruence|]. destruct H as (H1 & H2). destruct us as [|w us].
  - cbn in Q. injection Q as <-. cbn. tauto.
  - cbn [app consecutive]. replace (length (v :: w :: us) - 1)%nat with (S (length (w :: us) - 1)) in Q by (cbn; lia). cbn [nth_error] in Q.
    rewrite <- (IH _ H2 ltac:(discriminate) Q). cbn [app consecutive]. tauto.
Qed.

Section Bipop.
Context {T N : Type}.
Variable ops : nat -> R -> numops T N.
Variable e : env T N.
Variable g : cfg T.
Variable ldef : nat.
Variables (sigma : R) (m : Z).
Variable draw : nat -> R.
Notation st := (st T N).
Notation sol := (sol T N).
Implicit Types (p : rpar) (s : st) (u : urun T N) (b : bst T N).

Lemma spent_app sm (l1 l2 : list (urun T N)) : spent sm (l1 ++ l2) = spent sm l1 + spent sm l2.
Proof.
  unfold spent. rewrite filter_app, map_app, fold_right_app. generalize (fold_right Z.add 0 (map run_cost (filter (fun u => Bool.eqb (u_small u) sm) l2))).
  intros z. induction (map run_cost (filter (fun u => Bool.eqb (u_small u) sm) l1)) as [|a l IH]; cbn; lia.
Qed.
Lemma spent_one sm u : spent sm [u] = if Bool.eqb (u_small u) sm then run_cost u else 0.
Proof. unfold spent; cbn. destruct (Bool.eqb (u_small u) sm); cbn; lia. Qed.
Definition large (us : list (urun T N)) : list (urun T N) := filter (fun u => negb (u_small u)) us.

(** The schedule of the runs recorded so far, [j] large runs done. *)
Definition run_ok (before : list (urun T N)) u : Prop :=
  if u_small u then
    spent true before < spent false before /\ q_maxf (u_par u) = spent false before / 2 /\
    (exists i, q_lambda (u_par u) = r2_lambda ldef (ldef * 2 ^ (length (large before) - 1)) (draw i) /\ q_sigma (u_par u) = r2_sigma (draw (S i))) /\ large before <> []
  else spent false before <= spent true before /\ u_par u = mkRpar (ldef * 2 ^ length (large before)) sigma m.
Definition sched (us : list (urun T N)) : Prop := forall k u, nth_error us k = Some u -> run_ok (firstn k us) u.
Definition ran rf fuel u : Prop := inner ops e g (u_par u) rf fuel (u_before u) = Ok (u_after u).
Lemma sched_snoc us u : sched us -> run_ok us u -> sched (us ++ [u]).
Proof.
  intros H1 H2 k w Q. destruct (Nat.lt_ge_cases k (length us)) as [L|L].
  - rewrite nth_error_app1 in Q by auto. rewrite firstn_app. replace (k - length us)%nat with 0%nat by lia. cbn. rewrite app_nil_r. auto.
  - rewrite nth_error_app2 in Q by auto. destruct (k - length us)%nat as [|d] eqn:E; [|destruct d; discriminate]. cbn in Q. injection Q as <-.
    replace k with (length us) by lia. rewrite firstn_app, firstn_all, Nat.sub_diag. cbn. now rewrite app_nil_r.
Qed.
Definition bshape rf fuel j b : Prop :=
  sched (b_runs b) /\ Forall (ran rf fuel) (b_runs b) /\ length (large (b_runs b)) = j /\
  b_best b = fold_best ops (b_runs b) None /\ b_b0 b = spent false (b_runs b) /\ b_b1 b = spent true (b_runs b).

Lemma small_run_shape rf fuel j b b' : bshape rf fuel (S j) b -> b_ll b = (ldef * 2 ^ j)%nat -> b_b1 b < b_b0 b -> small_run ops e g ldef draw rf fuel b = Ok b' ->
  bshape rf fuel (S j) b' /\ b_ll b' = b_ll b.
Proof.
  intros (A1 & A2 & A3 & A4 & A5 & A6) LL HB H. unfold small_run in H. cbv zeta in H. inv_do H. rename a into s. inv_do H. rename a into s1. apply Ok_inj in H. subst b'.
  split; [|reflexivity]. unfold bshape. cbn [b_runs b_best b_b0 b_b1].
  split; [|split; [|split; [|split; [|split]]]].
  - apply sched_snoc; auto. unfold run_ok. cbn [u_small u_par q_maxf q_lambda q_sigma]. rewrite A5, A6 in HB. split; [lia|]. split; [now rewrite A5|]. split.
    + exists (b_draws b). rewrite A3, LL. split; [|reflexivity]. f_equal. f_equal. f_equal. lia.
    + intros Q. rewrite Q in A3. discriminate.
  - apply Forall_app. split; auto.
  - unfold large. rewrite filter_app. cbn. now rewrite app_nil_r.
  - unfold fold_best. rewrite fold_left_app. cbn. rewrite A4. reflexivity.
  - rewrite spent_app, spent_one. cbn. lia.
  - rewrite spent_app, spent_one, A6. reflexivity.
Qed.
Lemma small_loop_shape rf fuel j k : forall b b', bshape rf fuel (S j) b -> b_ll b = (ldef * 2 ^ j)%nat -> small_loop ops e g ldef draw k rf fuel b = Ok b' ->
  bshape rf fuel (S j) b' /\ b_ll b' = b_ll b /\ b_b0 b' <= b_b1 b'.
Proof.
  induction k as [|k IH]; intros b b' HB LL H; cbn [small_loop] in H; [discriminate|].
  destruct (Z.ltb_spec (b_b1 b) (b_b0 b)).
  - inv_do H. destruct (small_run_shape _ _ _ _ _ HB LL H0 H1) as (B1 & E1). apply IH in H as (B2 & E2 & E3); auto; [|congruence]. split; auto. split; [congruence|auto].
  - apply Ok_inj in H. subst. auto.
Qed.
(** [b] before a large run. *)
Lemma large_run_shape rf fuel j b b' : bshape rf fuel j b -> b_b0 b <= b_b1 b -> b_ll b = (ldef * 2 ^ j)%nat -> q_lambda (b_par b) = b_ll b -> q_sigma (b_par b) = sigma ->
  large_run ops e g (Some m) rf fuel b = Ok b' -> bshape rf fuel (S j) b' /\ b_ll b' = b_ll b.
Proof.
  intros (A1 & A2 & A3 & A4 & A5 & A6) HB LL PL PS H. unfold large_run in H. cbv zeta in H. inv_do H. rename a into s1. apply Ok_inj in H. subst b'.
  split; [|reflexivity]. unfold bshape. cbn [b_runs b_best b_b0 b_b1].
  split; [|split; [|split; [|split; [|split]]]].
  - apply sched_snoc; auto. unfold run_ok. cbn [u_small u_par]. rewrite <- A5, <- A6. split; [lia|]. unfold with_q_maxf. f_equal; auto. rewrite A3, PL, LL. reflexivity.
  - apply Forall_app. split; auto.
  - unfold large. rewrite filter_app. cbn. rewrite app_length. cbn. unfold large in A3. lia.
  - unfold fold_best. rewrite fold_left_app. cbn. rewrite A4. reflexivity.
  - rewrite spent_app, spent_one, A5. reflexivity.
  - rewrite spent_app, spent_one. cbn. lia.
Qed.
Lemma r1_shape rf fuel j b b' : bshape rf fuel (S j) b -> b_ll b = (ldef * 2 ^ j)%nat -> r1 ops g (Some sigma) b = Ok b' ->
  bshape rf fuel (S j) b' /\ b_ll b' = (ldef * 2 ^ S j)%nat /\ q_lambda (b_par b') = b_ll b' /\ q_sigma (b_par b') = sigma /\ b_b0 b' = b_b0 b /\ b_b1 b' = b_b1 b /\
  2 * Z.of_nat (b_ll b) <= int_max /\ b_draws b' = b_draws b.
Proof.
  intros HB LL H. unfold r1 in H. inv_do H. apply lambda_double_ok in H0 as (-> & HM). cbv zeta in H. inv_do H. apply Ok_inj in H. subst b'. cbn [b_ll b_par q_lambda q_sigma with_q_sigma with_q_lambda b_b0 b_b1 b_draws].
  split; [exact HB|]. rewrite LL. cbn [with_q_lambda q_lambda] in HM. repeat split; auto; [cbn [Nat.pow]; nia|now rewrite <- LL].
Qed.
Lemma bipop_loop_shape rf fuel n : forall j b b', bshape rf fuel (S j) b -> b_ll b = (ldef * 2 ^ j)%nat ->
  bipop_loop ops e g ldef (Some sigma) (Some m) draw n false rf fuel b = Ok b' -> bshape rf fuel (S (j + n)) b' /\ b_ll b' = (ldef * 2 ^ (j + n))%nat.
Proof.
  induction n as [|n IH]; intros j b b' HB LL H; cbn [bipop_loop] in H; [apply Ok_inj in H; subst; rewrite Nat.add_0_r; auto|].
  inv_do H. rename a into b1. inv_do H. rename a into b2. inv_do H. rename a into b3.
  destruct (small_loop_shape _ _ _ _ _ _ HB LL H0) as (B1 & E1 & F1). rewrite LL in E1.
  destruct (r1_shape _ _ _ _ _ B1 E1 H1) as (B2 & E2 & P1 & P2 & F2 & F3 & _).
  destruct (large_run_shape _ _ (S j) _ _ B2 ltac:(lia) E2 P1 P2 H2) as (B3 & E3).
  apply (IH (S j)) in H as (B4 & E4); auto; [|congruence]. replace (j + S n)%nat with (S j + n)%nat by lia. auto.
Qed.
Lemma bipop_shape rf fuel nr p s rc b : q_lambda p = ldef -> q_sigma p = sigma -> bipop ops e g ldef (Some sigma) (Some m) draw nr rf fuel p s = Ok (rc, b) ->
  bshape rf fuel (Z.to_nat nr) b /\ rc = restart_code (b_best b).
Proof.
  intros PL PS H. unfold bipop in H. inv_do H. apply Ok_inj in H. injection H as <- <-. split; [|reflexivity].
  set (b0 := mkB p ldef None s [] 0 0 0) in *.
  assert (B0 : bshape rf fuel 0 b0). { split; [intros k u Q; destruct k; discriminate|]. split; [constructor|]. repeat split. }
  destruct (Z.to_nat nr) as [|n]; cbn [bipop_loop] in H0; [apply Ok_inj in H0; subst; exact B0|].
  inv_do H0. assert (a0 = b0) as ->. { destruct fuel; cbn [small_loop] in H; [discriminate|]. unfold b0 in H. cbn [b_b0 b_b1 Z.ltb Z.compare] in H. apply Ok_inj in H. auto. }
  clear H. cbn [bind] in H0. inv_do H0.
  destruct (large_run_shape rf fuel 0 b0 a0 B0) as (B1 & E1); auto; [cbn; lia|cbn; lia|].
  apply (bipop_loop_shape _ _ n 0) in H0 as (B2 & _); auto. rewrite E1. cbn. lia.
Qed.

(** The runs of BIPOP are fresh runs. *)
Section Fresh.
Hypothesis HE : e_restart (g_elit g) = false.
Hypothesis HD : (2 <= ldef)%nat.
Hypothesis HU : forall i, (0 <= draw i < 1)%R.
Definition binv rf fuel x0 b : Prop :=
  Forall (fresh_at ops e g rf fuel x0) (b_runs b) /\ consecutive 0 (b_runs b) /\ kept x0 (b_st b) /\ t_nevals (b_st b) = Z.of_nat (length (t_log (b_st b))) /\
  (forall l, consecutive 0 (b_runs b ++ l) <-> consecutive (length (t_log (b_st b))) l) /\ (ldef <= b_ll b)%nat.
Lemma ready_kept p x0 s : ready ops g p x0 s -> kept x0 s.
Proof. intros (n & s0 & H & ->). unfold restart_new in H. apply kept_new in H. exact H. Qed.
Lemma add_run rf fuel x0 bb p s s1 b ll : binv rf fuel x0 b -> ready ops g p x0 s -> t_log s = t_log (b_st b) -> t_nevals s = t_nevals (b_st b) ->
  inner ops e g p rf fuel s = Ok s1 -> (ldef <= ll)%nat -> forall best dr z0 z1, binv rf fuel x0 (mkB p ll best s1 (b_runs b ++ [mkU bb p s s1]) dr z0 z1).
Proof.
  intros (A1 & A2 & A3 & A4 & A5 & A6) R L NV H HL best dr z0 z1.
  destruct (inner_run ops e g HE bb _ _ _ _ _ _ R H) as (F & K & X). pose proof (inner_evals ops e g HE _ _ _ _ _ _ R ltac:(congruence) H) as EV.
  assert (C : consecutive 0 (b_runs b ++ [mkU bb p s s1])). { apply A5. cbn. split; [now rewrite L|exact I]. }
  unfold binv. cbn [b_runs b_st b_ll]. split.
  { apply Forall_app. split; auto. constructor; [|constructor]. unfold fresh_at. cbn [u_par u_before u_after]. repeat (split; auto); try apply K; try congruence. }
  split; [exact C|]. split; [exact K|]. split; [exact EV|]. split; [|exact HL].
  intros l. apply (consec_app _ _ (mkU bb p s s1)); auto; [destruct (b_runs b); discriminate|]. rewrite app_length. cbn [length].
  replace (length (b_runs b) + 1 - 1)%nat with (length (b_runs b)) by lia. rewrite nth_error_app2, Nat.sub_diag by lia. reflexivity.
Qed.
Lemma small_run_inv rf fuel x0 b b' : binv rf fuel x0 b -> small_run ops e g ldef draw rf fuel b = Ok b' -> binv rf fuel x0 b'.
Proof.
  intros HB H. pose proof HB as (A1 & A2 & (K1 & K2 & K3) & A4 & A5 & A6). unfold small_run in H. cbv zeta in H. inv_do H. rename a into s. inv_do H. rename a into s1. apply Ok_inj in H. subst b'.
  apply (ready_reset _ _ _ x0) in H0 as (R & L & NV & _); auto.
  - eapply add_run; eauto.
  - cbn [q_lambda]. pose proof (r2_lambda_ge ldef (b_ll b) (draw (b_draws b)) HD A6 (HU _)). lia.
Qed.
Lemma small_loop_inv rf fuel x0 k : forall b b', binv rf fuel x0 b -> small_loop ops e g ldef draw k rf fuel b = Ok b' -> binv rf fuel x0 b'.
Proof.
  induction k as [|k IH]; intros b b' HB H; cbn [small_loop] in H; [discriminate|]. destruct (b_b1 b <? b_b0 b).
  - inv_do H. eapply IH; [|exact H]. eapply small_run_inv; eauto.
  - apply Ok_inj in H. now subst.
Qed.
Lemma r1_inv rf fuel x0 b b' : binv rf fuel x0 b -> r1 ops g (Some sigma) b = Ok b' -> binv rf fuel x0 b' /\ ready ops g (b_par b') x0 (b_st b').
Proof.
  intros (A1 & A2 & (K1 & K2 & K3) & A4 & A5 & A6) H. unfold r1 in H. inv_do H. apply lambda_double_ok in H0 as (-> & HM). cbv zeta in H. inv_do H. apply Ok_inj in H. subst b'.
  apply (ready_reset _ _ _ x0) in H0 as (R & L & NV & _); auto; [|cbn; lia].
  cbn [b_par b_st]. split; [|exact R]. unfold binv. cbn [b_runs b_st b_ll]. rewrite L, NV. split; [exact A1|]. split; [exact A2|]. split; [exact (ready_kept _ _ _ R)|]. split; [exact A4|]. split; [exact A5|cbn; lia].
Qed.
Lemma ready_maxf p x0 s mm : ready ops g p x0 s -> ready ops g (with_q_maxf mm p) x0 s.
Proof.
  intros (n & s0 & H & E). exists n, s0. split; [|exact E]. revert H. unfold restart_new, st_new, sol_new. cbn. auto.
Qed.
Lemma large_run_inv rf fuel x0 b b' : binv rf fuel x0 b -> ready ops g (b_par b) x0 (b_st b) -> large_run ops e g (Some m) rf fuel b = Ok b' -> binv rf fuel x0 b'.
Proof.
  intros HB R H. unfold large_run in H. cbv zeta in H. inv_do H. rename a into s1. apply Ok_inj in H. subst b'. eapply add_run; [exact HB|apply ready_maxf; exact R|reflexivity|reflexivity|exact H0|apply HB].
Qed.
Lemma bipop_loop_inv rf fuel x0 n : forall first b b', binv rf fuel x0 b -> (first = true -> ready ops g (b_par b) x0 (b_st b) /\ b_b0 b <= b_b1 b) ->
  bipop_loop ops e g ldef (Some sigma) (Some m) draw n first rf fuel b = Ok b' -> binv rf fuel x0 b'.
Proof.
  induction n as [|n IH]; intros first b b' HB HF H; cbn [bipop_loop] in H; [apply Ok_inj in H; now subst|].
  inv_do H. rename a into b1. inv_do H. rename a into b2. inv_do H. rename a into b3.
  pose proof (small_loop_inv _ _ _ _ _ _ HB H0) as B1.
  assert (X : binv rf fuel x0 b2 /\ ready ops g (b_par b2) x0 (b_st b2)).
  { destruct first.
    - apply Ok_inj in H1. subst b2. destruct (HF eq_refl) as (R & L). destruct fuel; cbn [small_loop] in H0; [discriminate|]. destruct (Z.ltb_spec (b_b1 b) (b_b0 b)); [lia|]. apply Ok_inj in H0. now subst.
    - eapply r1_inv; eauto. }
  destruct X as (B2 & R2). apply (IH false b3 b'); [eapply large_run_inv; eauto|intros Q; discriminate|exact H].
Qed.
Lemma bipop_inv rf fuel nr p x0 n s rc b : q_lambda p = ldef -> restart_new ops g p x0 n = Ok s -> bipop ops e g ldef (Some sigma) (Some m) draw nr rf fuel p s = Ok (rc, b) -> binv rf fuel x0 b.
Proof.
  intros PL H0 H. unfold bipop in H. inv_do H. apply Ok_inj in H. injection H as <- <-. apply ready_new in H0 as (R & L & NV & G).
  eapply bipop_loop_inv; [|intros _|exact H1]; cbn [b_par b_st b_b0 b_b1].
  - unfold binv; cbn [b_runs b_st b_ll]. rewrite L, NV. split; [constructor|]. split; [exact I|]. split; [exact (ready_kept _ _ _ R)|]. split; [reflexivity|]. split; [intros l; cbn; tauto|lia].
  - split; [exact R|lia].
Qed.
End Fresh.
End Bipop.
