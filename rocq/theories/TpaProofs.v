From Coq Require Import Reals List Lia Lra Psatz Permutation.
From Verif Require Import Base Dbl Vec VecProofs Params Config Search SpecSearch SortProofs SearchInv StopProofs NumInv SpecUh UhProofs SearchThms2 SpecSafe Update SpecUpdate.
Import ListNotations.
Local Open Scope Z_scope.

Section Tpa.
Variable p : npar.
Let k := p_k p.
Variable e : env R num.
Variable g : cfg R.
Let no := cma_num p.
Hypothesis HE : no_elitism g.
Hypothesis HL : g_lambda g = k_lambda k.
Hypothesis HR : room g.
Hypothesis HU : std_sort_ok e.
Hypothesis HC : (0 <= p_tpac p <= 1)%R.
Let lam := Z.of_nat (g_lambda g).

Lemma tpas_update i xs n : x_tpas (update_num p i xs n) = x_tpas n.
Proof using Type. reflexivity. Qed.
Lemma tpas_step rd n : Z.abs rd <= lam - 1 -> (Rabs (x_tpas n) <= 1)%R -> (Rabs (x_tpas (tpa_num p rd n)) <= 1)%R.
Proof using HC HL HR.
  intros H1 H2. cbn [tpa_num with_tpas x_tpas]. destruct HR as [HR2 _]. fold k. rewrite <- HL.
  assert (L : (0 < INR (g_lambda g) - 1)%R) by (assert (INR 2 <= INR (g_lambda g))%R by (apply le_INR; lia); cbn in *; lra).
  assert (Q : (-1 <= IZR rd / (INR (g_lambda g) - 1) <= 1)%R).
  { assert (A : (- (INR (g_lambda g) - 1) <= IZR rd <= INR (g_lambda g) - 1)%R).
    { rewrite INR_IZR_INZ. fold lam. rewrite <- minus_IZR. rewrite <- opp_IZR. split; apply IZR_le; lia. }
    split; apply Rmult_le_reg_r with (INR (g_lambda g) - 1)%R; auto; unfold Rdiv; rewrite Rmult_assoc, Rinv_l; lra. }
  replace (p_tpac p * IZR rd / (INR (g_lambda g) - 1))%R with (p_tpac p * (IZR rd / (INR (g_lambda g) - 1)))%R by (unfold Rdiv; ring).
  set (q := (IZR rd / (INR (g_lambda g) - 1))%R) in *.
  assert (B : (-1 <= x_tpas n <= 1)%R) by (unfold Rabs in H2; destruct (Rcase_abs _); lra).
  apply Rabs_le. split; nra.
Qed.
(** One tell with both points in the population. *)
Lemma tell_path s s' : tell no e g s = Ok s' -> length (s_cands (t_sol s)) = g_lambda g ->
  (Rabs (path_of s) <= 1)%R ->
  (forall s1, ranked e g s s1 -> Permutation (s_cands s1) (s_cands (t_sol s)) /\ s_tpa1 s1 = s_tpa1 (t_sol s) /\ s_tpa2 s1 = s_tpa2 (t_sol s) /\ s_num s1 = s_num (t_sol s)) ->
  (g_tpa g = 2 -> In (s_tpa1 (t_sol s)) (map c_id (s_cands (t_sol s))) /\ In (s_tpa2 (t_sol s)) (map c_id (s_cands (t_sol s)))) ->
  (Rabs (path_of s') <= 1)%R /\ length (s_cands (t_sol s')) = g_lambda g /\ s_tpa1 (t_sol s') = s_tpa1 (t_sol s) /\ s_tpa2 (t_sol s') = s_tpa2 (t_sol s).
Proof using HC HL HR.
  intros H Hl Hp HPerm Hin. pose proof H as H'. apply tell_spec in H' as (s1 & s2 & s3 & n4 & Hr & E2 & E3 & E4 & _).
  unfold tell in H. apply bind_ok in H as (s1' & Hr' & H). apply bind_ok in H as (s3' & E3' & H). apply Ok_inj in H.
  assert (Hrk : ranked e g s s1').
  { unfold ranked. destruct (g_uh g); [auto|left]. unfold sort_candidates in Hr'. destruct (compares_ok _); [apply Ok_inj in Hr'; auto|discriminate]. }
  clear s1 s2 s3 n4 Hr E2 E3 E4.
  destruct (HPerm s1' Hrk) as (P1 & T1 & T2 & N1).
  set (s2 := if (g_tpa g =? 2) && (0 <? t_niter s) then tpa_update no s1' else s1') in *.
  assert (A : (Rabs (x_tpas (s_num s2)) <= 1)%R /\ s_cands s2 = s_cands s1' /\ s_tpa1 s2 = s_tpa1 s1' /\ s_tpa2 s2 = s_tpa2 s1').
  { unfold s2. destruct (Z.eqb_spec (g_tpa g) 2) as [E|E]; cbn [andb]; [destruct (0 <? t_niter s)|]; try (rewrite N1; auto).
    split; [|auto]. cbn [tpa_update s_num set_s_num]. apply tpas_step; [|rewrite N1; exact Hp].
    destruct (Hin E) as [I1 I2].
    unfold lam. rewrite <- Hl, <- (Permutation_length P1). apply rank_diff_bound.
    - rewrite T1. eapply Permutation_in; [apply Permutation_sym, Permutation_map, P1|auto].
    - rewrite T2. eapply Permutation_in; [apply Permutation_sym, Permutation_map, P1|auto]. }
  destruct A as (A1 & A2 & A3 & A4).
  apply ubc_spec in E3' as [K _]. unfold kept_by_tell in K. injection K as K1 _ _ _ _ _ _ K2 _ _ _ K3 K4.
  assert (E : s_cands (t_sol s') = s_cands s3' /\ s_tpa1 (t_sol s') = s_tpa1 s3' /\ s_tpa2 (t_sol s') = s_tpa2 s3' /\ x_tpas (s_num (t_sol s')) = x_tpas (s_num s3')).
  { subst s'. cbv zeta. cbn [t_sol set_t_sol]. match goal with |- context [if ?b then _ else _] => destruct b end; repeat split; reflexivity. }
  destruct E as (E1 & E2 & E3 & E4). unfold path_of. rewrite E1, E2, E3, E4, K1, K2, K3, K4, A2, A3, A4, T1, T2.
  split; [exact A1|]. split; [rewrite (Permutation_length P1); exact Hl|auto].
Qed.
Let P (s : st R num) : Prop := (Rabs (path_of s) <= 1)%R /\ length (s_cands (t_sol s)) = g_lambda g /\
  0 <= s_tpa1 (t_sol s) < lam /\ 0 <= s_tpa2 (t_sol s) < lam.
Lemma ask_tpas s pop s' : ask no e g s = Ok (pop, s') -> x_tpas (s_num (t_sol s')) = x_tpas (s_num (t_sol s)).
Proof using Type.
  intros H. apply (ask_num no e g (fun n => x_tpas n = x_tpas (s_num (t_sol s)))) in H; auto.
  intros i n <-. unfold no, cma_num, n_eigen, eigen_num. destruct (_ || _); [reflexivity|]. destruct (_ || _ || _); reflexivity.
Qed.
Lemma tpa_sample_ok : samples_ok no.
Proof using Type. intros c n. cbn. now rewrite map_length, seq_length. Qed.
Lemma new_P x0 n s : st_new no g x0 n = Ok s -> P s.
Proof using HR HL.
  intros H. pose proof H as H'. apply st_new_num in H'. unfold P, path_of. rewrite H'. cbn [no cma_num n_new new_num x_tpas].
  rewrite Rabs_R0. split; [lra|]. unfold st_new in H. apply bind_ok in H as (so & H & Q). apply Ok_inj in Q. subst s. cbn [t_sol].
  unfold sol_new in H. destruct (_ =? 0); [discriminate|]. apply Ok_inj in H. subst so. cbn. rewrite repeat_length. unfold lam. destruct HR as [? _]. lia.
Qed.
Lemma path_ops h s s' : Forall (okop (fun cols => length cols = g_lambda g)) h -> P s -> run_ops no e g h s = Ok s' -> P s'.
Proof using HC HL HR HU HE.
  intros W HP H. refine (P_ops no e g P (fun cols => length cols = g_lambda g) _ _ _ _ _ _ _ h s s' W HP H); clear h s s' W HP H.
  - intros s pop s' HP H. apply ask_spec in H as (_ & H & _). apply H, tpa_sample_ok.
  - intros s pop s' (H1 & H2 & H3 & H4) H. pose proof (ask_tpas _ _ _ H) as HT. pose proof H as HA. apply ask_spec in H as ((K & _) & _ & _).
    unfold keep in K. unfold P, path_of in *. rewrite HT. split; [auto|].
    assert (C : s_cands (t_sol s') = s_cands (t_sol s)).
    { clear -HA. unfold ask in HA. destruct (n_sample _ _ _) as [pop0 n2]. apply bind_ok in HA as ([pop2 s2] & A1 & HA). apply bind_ok in HA as ([pop3 s3] & A2 & HA).
      apply bind_ok in HA as (pop4 & A3 & HA). apply Ok_inj in HA. injection HA as <- <-.
      assert (C2 : s_cands (t_sol s2) = s_cands (t_sol s)).
      { destruct (g_gradient g); [|apply Ok_inj in A1; injection A1 as <- <-; reflexivity]. apply bind_ok in A1 as (x & _ & A1).
        destruct (gradf _ _ _ _ _) as [gr s4] eqn:G. assert (GC : s_cands (t_sol s4) = s_cands (t_sol s)).
        { unfold gradf in G. destruct (e_gfunc e); [injection G as <- <-; reflexivity|]. destruct (calls e _ _) as [vs s5] eqn:E. injection G as <- <-. apply calls_num in E. cbn. rewrite E. reflexivity. }
        destruct (n_gradcol _ _ _); [apply bind_ok in A1 as (? & _ & A1)|]; apply Ok_inj in A1; injection A1 as <- <-; exact GC. }
      destruct (_ && _); [|apply Ok_inj in A2; injection A2 as <- <-; exact C2].
      destruct (n_tpa_points _ _) as [[x1 x2] n3]. apply bind_ok in A2 as (? & _ & A2). apply bind_ok in A2 as (? & _ & A2). apply Ok_inj in A2. injection A2 as <- <-.
      destruct (g_gradient g); exact C2. }
    assert (D : (s_tpa1 (t_sol s') = s_tpa1 (t_sol s) /\ s_tpa2 (t_sol s') = s_tpa2 (t_sol s)) \/ (g_gradient g = true /\ g_tpa g = 2 /\ s_tpa1 (t_sol s') = 1 /\ s_tpa2 (t_sol s') = 2)).
    { clear -HA. unfold ask in HA. destruct (n_sample _ _ _) as [pop0 n2]. apply bind_ok in HA as ([pop2 s2] & A1 & HA). apply bind_ok in HA as ([pop3 s3] & A2 & HA).
      apply bind_ok in HA as (pop4 & A3 & HA). apply Ok_inj in HA. injection HA as <- <-.
      assert (C2 : s_tpa1 (t_sol s2) = s_tpa1 (t_sol s) /\ s_tpa2 (t_sol s2) = s_tpa2 (t_sol s)).
      { destruct (g_gradient g); [|apply Ok_inj in A1; injection A1 as <- <-; split; reflexivity]. apply bind_ok in A1 as (x & _ & A1).
        destruct (gradf _ _ _ _ _) as [gr s4] eqn:G. assert (GC : s_tpa1 (t_sol s4) = s_tpa1 (t_sol s) /\ s_tpa2 (t_sol s4) = s_tpa2 (t_sol s)).
        { unfold gradf in G. destruct (e_gfunc e); [injection G as <- <-; split; reflexivity|]. destruct (calls e _ _) as [vs s5] eqn:E. injection G as <- <-. apply calls_num in E. cbn. rewrite E. split; reflexivity. }
        destruct (n_gradcol _ _ _); [apply bind_ok in A1 as (? & _ & A1)|]; apply Ok_inj in A1; injection A1 as <- <-; exact GC. }
      destruct (Z.eqb_spec (g_tpa g) 2) as [E|E]; cbn [andb] in A2; [destruct (0 <? t_niter s2)|]; try (apply Ok_inj in A2; injection A2 as <- <-; auto).
      destruct (n_tpa_points _ _) as [[x1 x2] n3]. apply bind_ok in A2 as (? & _ & A2). apply bind_ok in A2 as (? & _ & A2). apply Ok_inj in A2. injection A2 as <- <-.
      destruct (g_gradient g); [right; auto|left; exact C2]. }
    rewrite C. split; [auto|]. destruct D as [[-> ->]|(D1 & D2 & -> & ->)]; auto. destruct HR as [_ HR3]. specialize (HR3 D1 D2). unfold lam. lia.
  - intros s cols phen s1 s2 (H1 & H2 & H3 & H4) Hc Hev Ht.
    assert (HT : x_tpas (s_num (t_sol s1)) = x_tpas (s_num (t_sol s))) by (apply (eval_num no e g (fun n => x_tpas n = x_tpas (s_num (t_sol s)))) in Hev; auto).
    apply eval_spec in Hev as (_ & _ & _ & _ & L & T1 & T2 & _ & _ & C & U).
    assert (EL : s_cands (t_sol s1) = mid_cands e cols phen s).
    { destruct C as [[C _]|(C & _)]; [exact C|]. unfold elit_on in C. rewrite HE in C. cbn in C. rewrite !andb_false_r in C. discriminate. }
    assert (IDS : map c_id (s_cands (t_sol s1)) = map Z.of_nat (seq 0 (g_lambda g))).
    { rewrite EL. unfold mid_cands. rewrite skipn_all2 by lia. rewrite app_nil_r, new_gen_id, Hc. reflexivity. }
    assert (GIN : forall i, 0 <= i < lam -> In i (map c_id (s_cands (t_sol s1)))).
    { intros i Hi. rewrite IDS. apply in_map_iff. exists (Z.to_nat i). split; [lia|]. apply in_seq. unfold lam in Hi. lia. }
    destruct (tell_path s1 s2 Ht) as (A1 & A2 & A3 & A4).
    + congruence.
    + unfold path_of in *. rewrite HT. exact H1.
    + intros s3 [(U1 & _ & ->)|(U1 & U2)].
      * split; [apply sort_perm|auto].
      * assert (IX : map r_idx (s_cuh (t_sol s1)) = seq 0 (length (s_cands (t_sol s1)))) by (destruct (U U1) as [-> _]; congruence).
        destruct (uh_ranks e g HU (t_sol s1) s3 IX U2) as (PP & _).
        split; [exact PP|]. unfold uncertainty_handling in U2. apply bind_ok in U2 as (? & _ & U2). apply bind_ok in U2 as (? & _ & U2). cbv zeta in U2.
        apply bind_ok in U2 as (? & _ & U2). apply bind_ok in U2 as (? & _ & U2). apply Ok_inj in U2. subst s3. auto.
    + intros _. rewrite T1, T2. split; apply GIN; auto.
    + assert (Q : P s2) by (unfold P; rewrite A3, A4, T1, T2; auto). exact Q.
  - intros s b s' HP H. unfold P, path_of in *. apply stop_spec in H as [(_ & -> & _)|(_ & _ & [(_ & _ & ->)|(_ & r & _ & _ & ->)])]; auto.
  - intros s s' HP H. unfold P, path_of in *. apply eval_initial_spec in H as [(_ & ->)|(_ & y & _ & ->)]; auto.
  - intros s s' (H1 & H2 & H3 & H4) H. unfold P, path_of in *.
    unfold edm in H. apply bind_ok in H as (x & _ & H). destruct (gradf _ _ _ _ _) as [gr s4] eqn:G. apply Ok_inj in H. subst s'.
    unfold gradf in G. destruct (e_gfunc e); [injection G as <- <-; cbn; auto|]. destruct (calls e _ _) as [vs s5] eqn:E. injection G as <- <-. apply calls_num in E. cbn. rewrite E. auto.
  - intros s s' HP _ H. apply reinit_spec in H as (so & E & ->).
    assert (Hn : exists st', st_new no g (c_x (s_best (t_sol s))) (s_num (t_sol s)) = Ok st' /\ t_sol st' = so) by (unfold st_new; rewrite E; eexists; split; reflexivity).
    destruct Hn as (st' & Hn & <-). apply new_P in Hn. unfold P, path_of in *. cbn. exact Hn.
Qed.
Lemma path_bounded h x0 n s0 s : Forall (whole_gen g) h -> st_new no g x0 n = Ok s0 -> run_ops no e g h s0 = Ok s -> (Rabs (path_of s) <= 1)%R.
Proof using HC HL HR HU HE.
  intros W H0 H. apply path_ops in H; [apply H| |eapply new_P; eauto].
  eapply Forall_impl; [|exact W]. intros o. destruct o; cbn; auto.
Qed.
End Tpa.
