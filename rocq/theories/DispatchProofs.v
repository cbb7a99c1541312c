From Coq Require Import Reals String List Lia Lra.
From Verif Require Import Base Params SpecParams Config SpecConfig ConfigProofs Update Dispatch SpecDispatch.
Import ListNotations.
Local Open Scope Z_scope.

Definition plain (p : cpar) : Prop := k_sep p = false /\ k_vd p = false.

(** Parameters between the calls of a steady program: the adaptation is made
    at the first run. *)
Definition state_ok (r : restriction) (p0 : cpar) (a : Z) (p : cpar) : Prop :=
  p = set_algo a p0 \/ p = adapted r a p0.

Lemma adv_cases a s u r : In (a, (s, u, r)) advertised -> (0 <= a <= 14) /\
  (r = Unrestricted <-> a < 6) /\ (r = Diagonal <-> 6 <= a < 12) /\ (r = RankOne <-> 12 <= a).
Proof.
  cbn [advertised In]. intros H.
  repeat (destruct H as [H|H]; [injection H as <- <- <- <-; repeat split; intros; try discriminate; try lia; try reflexivity|]). destruct H.
Qed.
Lemma set_algo_sep a b p : set_algo a (set_sep (set_algo b p)) = set_sep (set_algo a p).
Proof. reflexivity. Qed.
Lemma vd_on a p : 12 <= a <= 14 -> set_vd (set_algo a p) = set_algo a (set_vd (set_algo 12 p)).
Proof.
  intros H. assert (C : a = 12 \/ a = 13 \/ a = 14) by lia. destruct C as [->|[->| ->]]; reflexivity.
Qed.
Lemma algo_algo a b p : set_algo a (set_algo b p) = set_algo a p.
Proof. reflexivity. Qed.

Lemma sel_ok r p0 a b p : has_restriction r a -> has_restriction r b -> state_ok r p0 a p -> state_ok r p0 b (set_algo b p).
Proof.
  intros (s & u & Ha) (s' & u' & Hb) [-> | ->].
  - left. reflexivity.
  - right. destruct (adv_cases _ _ _ _ Ha) as (_ & A1 & A2 & A3). destruct (adv_cases _ _ _ _ Hb) as (B0 & B1 & B2 & B3).
    destruct (adv_cases _ _ _ _ Ha) as (A0 & _).
    destruct r; cbn [adapted]; try reflexivity.
    rewrite (vd_on a p0), (vd_on b p0); [reflexivity| |]; [assert (12 <= b) by (apply B3; reflexivity) | assert (12 <= a) by (apply A3; reflexivity)]; lia.
Qed.
Lemma sel_any r p0 a b : has_restriction r b -> state_ok r p0 b (set_algo b (set_algo a p0)).
Proof. left. reflexivity. Qed.

Lemma cmaes_ok r p0 a p cov grad : plain p0 -> has_restriction r a -> state_ok r p0 a p ->
  runs_algorithm p0 a (fst (cmaes p cov grad)) /\ snd (cmaes p cov grad) = adapted r a p0.
Proof.
  intros (S0 & V0) (s & u & H) Hp.
  assert (E : k_algo p = a).
  { destruct Hp as [-> | ->]; [reflexivity|]. destruct r; cbn [adapted]; try reflexivity.
    destruct (adv_cases _ _ _ _ H) as (A0 & _ & _ & A3). rewrite vd_on; [reflexivity|]. assert (12 <= a) by (apply A3; reflexivity). lia. }
  assert (G : forall s' u', In (a, (s', u', r)) advertised -> forall cv pl, 
    runs_algorithm p0 a (fresh_or_from s' u' pl (adapted r a p0) cv grad)).
  { intros s' u' H' cv pl. unfold fresh_or_from, runs_algorithm. eexists. exists s', u', r. split; [reflexivity|]. split; [exact H'|].
    destruct (Nat.eqb cv 0); repeat split; reflexivity. }
  assert (G2 : forall s' u', In (a, (s', u', r)) advertised -> 
    runs_algorithm p0 a (Some (mkLaunch s' u' (adapted r a p0) false grad true true))).
  { intros s' u' H'. unfold runs_algorithm. eexists. exists s', u', r. repeat split; auto. }
  unfold cmaes. rewrite E. cbn [advertised In] in H.
  repeat (destruct H as [H|H];
    [injection H as <- <- <- <-;
     match type of E with k_algo _ = ?cc =>
     match goal with
     | |- context [ensure_sep p] => assert (Q : ensure_sep p = adapted Diagonal cc p0) by
         (destruct Hp as [-> | ->]; [unfold ensure_sep; cbn; rewrite S0; reflexivity | reflexivity]);
         cbv zeta; cbn [fst snd]; rewrite Q; split; [apply G; cbn; tauto | reflexivity]
     | |- context [ensure_vd p] => assert (Q : ensure_vd p = adapted RankOne cc p0) by
         (destruct Hp as [-> | ->]; [unfold ensure_vd; cbn; rewrite V0; reflexivity | reflexivity]);
         cbv zeta; cbn [fst snd]; rewrite Q; split; [apply G2; cbn; tauto | reflexivity]
     | |- _ => cbn [fst snd]; assert (Q : p = adapted Unrestricted cc p0) by (destruct Hp as [-> | ->]; reflexivity);
         rewrite Q at 1; split; [apply G; cbn; tauto | exact Q]
     end end|]).
  destruct H.
Qed.
Lemma surr_ok p0 a p : has_restriction Unrestricted a -> state_ok Unrestricted p0 a p ->
  runs_algorithm p0 a (fst (surrcmaes p)) /\ snd (surrcmaes p) = adapted Unrestricted a p0.
Proof.
  intros (s & u & H) Hp. assert (Q : p = set_algo a p0) by (destruct Hp; auto). subst p.
  unfold surrcmaes. change (k_algo (set_algo a p0)) with a. pose proof H as H0. cbn [advertised In] in H.
  repeat (destruct H as [H|H]; [first [discriminate H | injection H as <- <- <-; cbn [fst snd surr_launch]; split; [|reflexivity];
    match type of H0 with In (_, (?x, ?y, ?z)) _ => eexists; exists x, y, z end; split; [reflexivity|]; split; [exact H0|]; repeat split]|]).
  destruct H.
Qed.
Lemma name_find s a : In (s, a) documented -> find (fun e => String.eqb (fst e) s) documented = Some (s, a).
Proof. cbn [documented In]. intros H. repeat (destruct H as [H|H]; [injection H as <- <-; reflexivity|]). destruct H. Qed.
Lemma name_plain s a p : In (s, a) documented -> has_restriction Unrestricted a -> set_str_algo s p = set_algo a p.
Proof.
  intros H (x & y & A). destruct (adv_cases _ _ _ _ A) as (A0 & A1 & _). assert (a < 6) by (apply A1; reflexivity).
  destruct (str_algo_documented s a p H) as [E _]; [lia|]. rewrite E. cbv zeta.
  assert (X : (6 <=? a) = false) by (apply Z.leb_gt; lia). assert (Y : (12 <=? a) = false) by (apply Z.leb_gt; lia). rewrite X, Y. reflexivity.
Qed.

Lemma steady_runs r p0 h : plain p0 -> Forall (steady r) h -> forall a p n, has_restriction r a -> state_ok r p0 a p ->
  Forall2 (runs_algorithm p0) (in_force h a) (launches h (p, n)).
Proof.
  intros P. induction 1 as [|c h Hc _ IH]; intros a p n Ra Sp; [constructor|].
  destruct c as [b|s|gv gr|gr|]; cbn [launches do_call in_force].
  - apply IH; [exact Hc|]. eapply sel_ok; eauto.
  - destruct Hc as (-> & b & D & Rb). rewrite (name_find s b D). rewrite (name_plain s b p D Rb). apply IH; auto. eapply sel_ok; eauto.
  - destruct (cmaes_ok r p0 a p gv gr P Ra Sp) as [R1 R2]. constructor; [exact R1|]. rewrite R2. apply IH; auto. right. reflexivity.
  - destruct (cmaes_ok r p0 a p n gr P Ra Sp) as [R1 R2]. constructor; [exact R1|]. rewrite R2. apply IH; auto. right. reflexivity.
  - cbn in Hc. subst r. destruct (surr_ok p0 a p Ra Sp) as [R1 R2]. constructor; [exact R1|]. rewrite R2. apply IH; auto. right. reflexivity.
Qed.

(** The first selection may be by name, and of any restriction. *)
Lemma code_first r p0 a h n : plain p0 -> has_restriction r a -> Forall (steady r) h ->
  Forall2 (runs_algorithm p0) (in_force (SelCode a :: h) (k_algo p0)) (launches (SelCode a :: h) (p0, n)).
Proof. intros P R F. cbn [launches do_call in_force]. eapply steady_runs; eauto. left. reflexivity. Qed.
Lemma name_first r p0 s a h n : plain p0 -> In (s, a) documented -> a <> 10 /\ a <> 11 -> has_restriction r a -> Forall (steady r) h ->
  Forall2 (runs_algorithm p0) (in_force (SelName s :: h) (k_algo p0)) (launches (SelName s :: h) (p0, n)).
Proof.
  intros P D N R F. cbn [launches do_call in_force]. rewrite (name_find s a D). eapply steady_runs; eauto. right.
  destruct (str_algo_documented s a p0 D N) as [E _]. rewrite E. cbv zeta.
  destruct R as (x & y & A). destruct (adv_cases _ _ _ _ A) as (A0 & A1 & A2 & A3).
  destruct (6 <=? a) eqn:X; [apply Z.leb_le in X | apply Z.leb_gt in X].
  - destruct (a <=? 11) eqn:Y; [apply Z.leb_le in Y | apply Z.leb_gt in Y]; cbn [andb].
    + assert (r = Diagonal) by (apply A2; lia). subst r. reflexivity.
    + assert (r = RankOne) by (apply A3; lia). subst r. assert (Z : (12 <=? a) = true) by (apply Z.leb_le; lia). rewrite Z. reflexivity.
  - cbn [andb]. assert (r = Unrestricted) by (apply A1; lia). subst r. assert (Z : (12 <=? a) = false) by (apply Z.leb_gt; lia). rewrite Z. reflexivity.
Qed.

(** What is passed to the optimiser. *)
Lemma forwarded p cov grad l : fst (cmaes p cov grad) = Some l ->
  l_grad l = grad /\ l_progress l = true /\ (cov = 0%nat \/ ~ (8 <= k_algo p <= 11) -> l_plot l = true).
Proof.
  unfold cmaes, fresh_or_from. 
  destruct (k_algo p) as [|q|q]; [| |discriminate]; cbv zeta.
  - cbn [fst]. intros H. injection H as <-. destruct (Nat.eqb cov 0) eqn:E; auto.
  - do 4 (try destruct q as [q|q|]); cbn [fst]; try discriminate; intros H; injection H as <-;
    destruct (Nat.eqb cov 0) eqn:E; repeat split; auto;
    try (intros [->|N]; [discriminate E | exfalso; apply N; lia]).
Qed.
Lemma plot_lost p cov grad : (8 <= k_algo p <= 11) -> (0 < cov)%nat -> exists l, fst (cmaes p cov grad) = Some l /\ l_plot l = false.
Proof.
  intros H C. assert (K : k_algo p = 8 \/ k_algo p = 9 \/ k_algo p = 10 \/ k_algo p = 11) by lia.
  assert (E : Nat.eqb cov 0 = false) by (apply Nat.eqb_neq; lia).
  unfold cmaes, fresh_or_from. destruct K as [K|[K|[K|K]]]; rewrite K, E; cbv zeta; cbn [fst]; eexists; split; reflexivity.
Qed.
Lemma unknown_code p cov grad : ~ (0 <= k_algo p <= 14) -> cmaes p cov grad = (None, p) /\ surrcmaes p = (None, p).
Proof.
  intros H. unfold cmaes, surrcmaes. destruct (k_algo p) as [|q|q]; [lia| |auto].
  do 4 (try destruct q as [q|q|]); try (exfalso; lia); auto.
Qed.

(** Passing the solution of a run to the next. *)
Lemma continue_full p0 a grad grad' n : plain p0 -> (0 < k_dim p0)%nat -> (0 <= a < 6) ->
  exists l l', launches [SelCode a; Run 0 grad; Again grad'] (p0, n) = [Some l; Some l'] /\ l_from l = false /\ l_from l' = true.
Proof.
  intros (S0 & V0) D A. assert (K : a = 0 \/ a = 1 \/ a = 2 \/ a = 3 \/ a = 4 \/ a = 5) by lia.
  assert (E : Nat.eqb (k_dim p0 * k_dim p0) 0 = false) by (apply Nat.eqb_neq; nia).
  repeat (destruct K as [K|K]); subst a; cbn [launches do_call]; cbn [cmaes set_algo with_algo k_algo fst snd cov_after fresh_or_from Nat.eqb l_from l_par k_sep k_vd k_dim];
    unfold cmaes, fresh_or_from, cov_after; cbn [set_algo with_algo k_algo fst snd Nat.eqb l_from l_par k_sep k_vd k_dim]; rewrite S0, V0; cbn [orb]; rewrite E; do 2 eexists; repeat split.
Qed.
Lemma cmaes_sep p cov grad : 6 <= k_algo p <= 11 ->
  exists s u pl, cmaes p cov grad = (fresh_or_from s u pl (ensure_sep p) cov grad, ensure_sep p).
Proof.
  intros A. assert (K : k_algo p = 6 \/ k_algo p = 7 \/ k_algo p = 8 \/ k_algo p = 9 \/ k_algo p = 10 \/ k_algo p = 11) by lia.
  unfold cmaes. repeat (destruct K as [K|K]); rewrite K; cbv zeta; do 3 eexists; reflexivity.
Qed.
Lemma cmaes_vd p cov grad : 12 <= k_algo p <= 14 ->
  exists s, cmaes p cov grad = (Some (mkLaunch s Vd (ensure_vd p) false grad true true), ensure_vd p).
Proof.
  intros A. assert (K : k_algo p = 12 \/ k_algo p = 13 \/ k_algo p = 14) by lia.
  unfold cmaes. repeat (destruct K as [K|K]); rewrite K; cbv zeta; eexists; reflexivity.
Qed.
Lemma continue_restricted p0 a grad grad' n : (6 <= a <= 14) ->
  exists l l', launches [SelCode a; Run 0 grad; Again grad'] (p0, n) = [Some l; Some l'] /\ l_from l' = false.
Proof.
  intros A. cbn [launches do_call]. assert (C : a <= 11 \/ 12 <= a) by lia. destruct C as [C|C].
  - destruct (cmaes_sep (set_algo a p0) 0 grad) as (s & u & pl & E); [cbn; lia|]. rewrite E. cbn [fst snd]. unfold fresh_or_from at 1 2. cbn [Nat.eqb].
    set (q := ensure_sep (set_algo a p0)).
    assert (Q : k_sep q = true) by (unfold q, ensure_sep; destruct (k_sep (set_algo a p0)) eqn:X; [exact X | reflexivity]).
    assert (Q' : k_algo q = a) by (unfold q, ensure_sep; destruct (k_sep (set_algo a p0)); reflexivity).
    unfold cov_after at 1. cbn [l_from l_par]. rewrite Q. cbn [orb].
    destruct (cmaes_sep q 0 grad') as (s' & u' & pl' & E'); [lia|]. rewrite E'. cbn [fst snd]. unfold fresh_or_from. cbn [Nat.eqb].
    do 2 eexists; split; reflexivity.
  - destruct (cmaes_vd (set_algo a p0) 0 grad) as (s & E); [cbn; lia|]. rewrite E. cbn [fst snd].
    set (q := ensure_vd (set_algo a p0)).
    assert (Q' : k_algo q = a) by (unfold q, ensure_vd; destruct (k_vd (set_algo a p0)); [reflexivity|]; unfold set_vd; destruct (_ || _)%bool; reflexivity).
    match goal with |- context [cmaes q ?c grad'] => destruct (cmaes_vd q c grad') as (s' & E'); [lia|] end. rewrite E'. cbn [fst snd].
    do 2 eexists; split; reflexivity.
Qed.

(** Changing the restriction. *)
Lemma back_from_sep p0 grad n : exists l1 l2, launches [SelCode 6; Run 0 grad; SelCode 0; Run 0 grad] (p0, n) = [Some l1; Some l2] /\
  l_update l2 = Full /\ k_sep (l_par l2) = true.
Proof.
  cbn [launches do_call]. destruct (cmaes_sep (set_algo 6 p0) 0 grad) as (s & u & pl & E); [cbn; lia|]. rewrite E. cbn [fst snd].
  set (q := ensure_sep (set_algo 6 p0)).
  assert (Q : k_sep q = true) by (unfold q, ensure_sep; destruct (k_sep (set_algo 6 p0)) eqn:X; [exact X | reflexivity]).
  unfold cmaes. cbn [set_algo with_algo k_algo fst snd]. unfold fresh_or_from. cbn [Nat.eqb].
  do 2 eexists. split; [reflexivity|]. split; [reflexivity|]. cbn [l_par]. unfold with_algo. cbn [k_sep]. exact Q.
Qed.
Lemma back_from_vd p0 grad n : exists l1 l2, launches [SelCode 12; Run 0 grad; SelCode 0; Run 0 grad] (p0, n) = [Some l1; Some l2] /\
  l_update l2 = Full /\ k_vd (l_par l2) = true.
Proof.
  cbn [launches do_call]. destruct (cmaes_vd (set_algo 12 p0) 0 grad) as (s & E); [cbn; lia|]. rewrite E. cbn [fst snd].
  set (q := ensure_vd (set_algo 12 p0)).
  assert (Q : k_vd q = true) by (unfold q, ensure_vd; destruct (k_vd (set_algo 12 p0)) eqn:X; [exact X | reflexivity]).
  unfold cmaes. cbn [set_algo with_algo k_algo fst snd]. unfold fresh_or_from. cbn [Nat.eqb].
  do 2 eexists. split; [reflexivity|]. split; [reflexivity|]. cbn [l_par]. unfold with_algo. cbn [k_vd]. exact Q.
Qed.
Lemma back_by_name p0 grad n : exists l, launches [SelName "sepcmaes"; SelName "cmaes"; Run 0 grad] (p0, n) = [Some l] /\
  l_strategy l = Single /\ l_update l = Full /\ k_sep (l_par l) = true.
Proof. cbn. eexists. repeat split. Qed.
(** Surrogates: the adaptation is repeated. *)
Lemma surr_adapts p0 n : exists l1 l2 l3, launches [SelCode 6; Surr; Surr; Surr] (p0, n) = [Some l1; Some l2; Some l3] /\
  l_par l1 = set_sep (set_algo 6 p0) /\ l_par l2 = set_sep (l_par l1) /\ l_par l3 = set_sep (l_par l2).
Proof. do 3 eexists. repeat split. Qed.
