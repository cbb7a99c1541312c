(** The two selection loops of the preselection, and the best candidate it reports. *)
From Coq Require Import Permutation QArith Lqa.
From Verif Require Import Base Dbl DblProofs Config Search SpecSearch SortProofs SearchInv CounterProofs StopProofs LogProofs SpecUh Surr SpecSurr SurrInv SurrProofs SurrThms SurrThms2.
Local Open Scope Z_scope.

Section Select.
Context {T N M : Type}.
Variable so : surrops T N M.
Variable no : numops T N.
Variable e : env T N.
Variable g : cfg T.
Notation surr := (surr T N M).
Implicit Types (u : surr).

(** [used]: distinct positions below [n]. *)
Definition positions (n : nat) (used : list nat) : Prop := NoDup used /\ forall a, In a used -> (a < n)%nat.
Lemma positions_le n used : positions n used -> (length used <= n)%nat.
Proof.
  intros [D H]. rewrite <- (seq_length n 0). apply NoDup_incl_length; auto. intros a Ha. apply in_seq. specialize (H a Ha). lia.
Qed.
Lemma positions_free n used : positions n used -> (length used < n)%nat -> exists a, (a < n)%nat /\ ~ In a used.
Proof.
  intros [D H] L. destruct (Forall_Exists_dec (fun a => In a used) (fun a => in_dec Nat.eq_dec a used) (seq 0 n)) as [F|F].
  - exfalso. rewrite Forall_forall in F. assert (Q : (length (seq 0 n) <= length used)%nat) by (apply NoDup_incl_length; [apply seq_NoDup|exact F]).
    rewrite seq_length in Q. lia.
  - apply Exists_exists in F as (a & Ha & Na). apply in_seq in Ha. exists a. split; [lia|auto].
Qed.
Lemma drawn_in a used : drawn a used = true <-> In a used.
Proof.
  unfold drawn. rewrite existsb_exists. split; [intros (b & Hb & Q); apply Nat.eqb_eq in Q; now subst|intros Ha; exists a; split; auto; apply Nat.eqb_refl].
Qed.
Lemma positions_cons n a used : positions n used -> (a < n)%nat -> drawn a used = false -> positions n (a :: used).
Proof.
  intros [D H] L Q. split.
  - constructor; auto. intros I. apply drawn_in in I. congruence.
  - intros b [<-|Hb]; auto.
Qed.

(** ** First loop *)
Lemma select0_sizes fuel pop : forall used nc k nc' k', select0 so g fuel pop used nc k = Ok (nc', k') ->
  positions (length pop) used -> length used = length nc -> (length nc' <= length pop)%nat.
Proof.
  induction fuel as [|fuel IH]; intros used nc k nc' k' H P L; cbn [select0] in H.
  - destruct (_ <? _)%nat; [discriminate|]. apply Ok_inj in H. injection H as <- <-. rewrite <- L. now apply positions_le.
  - destruct (_ <? _)%nat.
    2:{ apply Ok_inj in H. injection H as <- <-. rewrite <- L. now apply positions_le. }
    destruct (nth_error pop (p_draw0 so k)) as [c|] eqn:En; [|eapply IH; eauto].
    destruct (drawn (p_draw0 so k) used) eqn:Ed; [eapply IH; eauto|].
    eapply IH in H; auto.
    + apply positions_cons; auto. apply nth_error_Some. congruence.
    + rewrite app_length. cbn [length]. lia.
Qed.
Lemma select0_ends pop : (g_lambda g <= length pop)%nat -> fair (length pop) (p_draw0 so) ->
  forall n used nc k, (g_lambda g - length nc = n)%nat -> positions (length pop) used -> length used = length nc ->
  exists d r, forall d', (d <= d')%nat -> select0 so g d' pop used nc k = Ok r.
Proof.
  intros HL HF. induction n as [|n IH]; intros used nc k E P L.
  - exists 0%nat, (nc, k). intros d' _. destruct d'; cbn [select0]; destruct (Nat.ltb_spec (length nc) (g_lambda g)); try lia; auto.
  - destruct (positions_free _ _ P) as (a & La & Na); [lia|]. destruct (HF a k La) as (j & Hj & Dj).
    remember (j - k)%nat as w. revert k Hj Heqw. induction w as [|w IHw]; intros k Hj Heqw.
    + assert (k = j) by lia. subst k. destruct (nth_error pop a) as [c|] eqn:En; [|apply nth_error_None in En; lia].
      assert (Ed : drawn a used = false) by (destruct (drawn a used) eqn:Q; auto; apply drawn_in in Q; contradiction).
      destruct (IH (a :: used) (nc ++ [with_rank (Z.of_nat a) c]) (S j)) as (d & r & Hd).
      * rewrite app_length. cbn [length]. lia.
      * now apply positions_cons.
      * rewrite app_length. cbn [length]. lia.
      * exists (S d), r. intros [|d'] Ld; [lia|]. cbn [select0]. destruct (Nat.ltb_spec (length nc) (g_lambda g)); [|lia].
        rewrite Dj, En, Ed. apply Hd. lia.
    + destruct (nth_error pop (p_draw0 so k)) as [c|] eqn:En; [destruct (drawn (p_draw0 so k) used) eqn:Ed|].
      * destruct (IHw (S k)) as (d & r & Hd); [lia|lia|]. exists (S d), r. intros [|d'] Ld; [lia|]. cbn [select0].
        destruct (Nat.ltb_spec (length nc) (g_lambda g)); [|lia]. rewrite En, Ed. apply Hd. lia.
      * destruct (IH (p_draw0 so k :: used) (nc ++ [with_rank (Z.of_nat (p_draw0 so k)) c]) (S k)) as (d & r & Hd).
        -- rewrite app_length. cbn [length]. lia.
        -- apply positions_cons; auto. apply nth_error_Some. congruence.
        -- rewrite app_length. cbn [length]. lia.
        -- exists (S d), r. intros [|d'] Ld; [lia|]. cbn [select0]. destruct (Nat.ltb_spec (length nc) (g_lambda g)); [|lia].
           rewrite En, Ed. apply Hd. lia.
      * destruct (IHw (S k)) as (d & r & Hd); [lia|lia|]. exists (S d), r. intros [|d'] Ld; [lia|]. cbn [select0].
        destruct (Nat.ltb_spec (length nc) (g_lambda g)); [|lia]. rewrite En. apply Hd. lia.
Qed.

(** ** Second loop *)
Lemma select1_used fuel : forall count used nc test u nc' test' used' u',
  select1 so e fuel count used nc test u = Ok (nc', test', used', u') ->
  (positions (length nc) used -> positions (length nc) used') /\
  ((forall c, In c test -> exists i, In i used /\ nth_error nc i = Some c) -> forall c, In c test' -> exists i, In i used' /\ nth_error nc' i = Some c).
Proof.
  induction fuel as [|fuel IH]; intros count used nc test u nc' test' used' u' H; cbn [select1] in H.
  - destruct (_ <? _); [discriminate|]. apply Ok_inj in H. injection H as <- <- <- <-. auto.
  - destruct (_ <? _); [|apply Ok_inj in H; injection H as <- <- <- <-; auto].
    destruct (_ && _) eqn:Q; [|eapply IH; eauto].
    apply andb_true_iff in Q as [Q1 Q2]. apply Nat.ltb_lt in Q1. apply negb_true_iff in Q2.
    set (a := p_draw1 so (u_k1 u)) in *. inv_do H. destruct a0 as [[nc1 test1] u1].
    apply eval_one_spec in H0 as (c & y & Hc & _ & H0). cbn [with_f] in H0. cbn zeta in H0. destruct H0 as (En & Et & _).
    assert (L1 : length nc1 = length nc). { rewrite En, app_length, firstn_length. cbn [length]. rewrite skipn_length. lia. }
    apply IH in H as [H1 H2]. split.
    + intros P. rewrite <- L1. apply H1. rewrite L1. now apply positions_cons.
    + intros B. apply H2. intros d Hd. rewrite Et in Hd. apply in_app_iff in Hd as [Hd|[<-|[]]].
      * destruct (B d Hd) as (i & Hi & Hn). exists i. split; [right; auto|]. assert (i <> a) by (intros ->; apply drawn_in in Hi; congruence).
        rewrite En. destruct (Nat.lt_ge_cases i a).
        -- rewrite nth_error_app1 by (rewrite firstn_length; lia). now rewrite nth_error_firstn' by lia.
        -- rewrite nth_error_app2 by (rewrite firstn_length; lia). rewrite firstn_length, Nat.min_l by lia.
           destruct (i - a)%nat as [|w] eqn:Ew; [lia|]. cbn [nth_error]. rewrite nth_error_skipn'. rewrite <- Hn. f_equal. lia.
      * exists a. split; [left; auto|]. rewrite En, nth_error_app2 by (rewrite firstn_length; lia). rewrite firstn_length, Nat.min_l, Nat.sub_diag by lia. reflexivity.
Qed.
Hypothesis PN : forall x, e_pheno e x <> Fault Diverges.
Lemma eval_one_ends i nc test u : eval_one e i nc test u <> Fault Diverges.
Proof.
  unfold eval_one. destruct (at_ nc (Z.of_nat i)) eqn:E1; cbn [bind].
  2:{ unfold at_ in E1. destruct (_ <? _); [congruence|]. destruct (nth_error _ _); congruence. }
  match goal with |- context [e_pheno e ?x] => destruct (e_pheno e x) eqn:E2 end; cbn [bind]; [|intros Q; injection Q as ->; now apply PN in E2].
  unfold call. destruct (upd_at _ _ _) eqn:E3; cbn [bind]; [congruence|].
  unfold upd_at in E3. destruct (_ || _); congruence.
Qed.
Lemma select1_ends : forall n count used nc test u, fair (length nc) (p_draw1 so) -> u_lambdap u <= Z.of_nat (length nc) ->
  Z.to_nat (u_lambdap u - count) = n -> positions (length nc) used -> Z.of_nat (length used) = count ->
  exists d r, r <> Fault Diverges /\ forall d', (d <= d')%nat -> select1 so e d' count used nc test u = r.
Proof.
  induction n as [|n IH]; intros count used nc test u HF HL E P L.
  - exists 0%nat, (Ok (nc, test, used, u)). split; [discriminate|]. intros d' _. destruct d'; cbn [select1]; destruct (Z.ltb_spec count (u_lambdap u)); try lia; auto.
  - destruct (positions_free _ _ P) as (a & La & Na); [lia|]. destruct (HF a (u_k1 u) La) as (j & Hj & Dj).
    remember (j - u_k1 u)%nat as w. revert u Hj Heqw HL E. induction w as [|w IHw]; intros u Hj Heqw HL E.
    + (* the position is free *)
      assert (Ej : u_k1 u = j) by lia.
      assert (Ed : drawn a used = false) by (destruct (drawn a used) eqn:Q; auto; apply drawn_in in Q; contradiction).
      destruct (eval_one e a nc test (set_u_k1 (S (u_k1 u)) u)) as [[[nc1 test1] u1]|f] eqn:E1.
      2:{ exists 1%nat, (Fault f). split; [intros Q; injection Q as ->; now apply eval_one_ends in E1|]. intros [|d'] Ld; [lia|]. cbn [select1].
          destruct (Z.ltb_spec count (u_lambdap u)); [|lia]. rewrite Ej, Dj, Ed. replace (a <? length nc)%nat with true by (symmetry; apply Nat.ltb_lt; lia). rewrite <- Ej. cbn [andb negb]. now rewrite E1. }
      pose proof E1 as E1'. apply eval_one_spec in E1' as (c & y & Hc & _ & E2). cbn zeta in E2. destruct E2 as (En & _ & Eu).
      assert (L1 : length nc1 = length nc). { rewrite En, app_length, firstn_length. cbn [length]. rewrite skipn_length. lia. }
      assert (EL : u_lambdap u1 = u_lambdap u) by (rewrite Eu; reflexivity).
      destruct (IH (count + 1) (a :: used) nc1 test1 u1) as (d & r & Nr & Hd); try rewrite L1; try rewrite EL; auto; try (cbn [length]; lia).
      { now apply positions_cons. }
      exists (S d), r. split; auto. intros [|d'] Ld; [lia|]. cbn [select1]. destruct (Z.ltb_spec count (u_lambdap u)); [|lia].
      rewrite Ej, Dj, Ed. replace (a <? length nc)%nat with true by (symmetry; apply Nat.ltb_lt; lia). rewrite <- Ej. cbn [andb negb]. rewrite E1. cbn [bind]. apply Hd. lia.
    + set (b := p_draw1 so (u_k1 u)). destruct ((b <? length nc)%nat && negb (drawn b used)) eqn:Eb.
      * destruct (eval_one e b nc test (set_u_k1 (S (u_k1 u)) u)) as [[[nc1 test1] u1]|f] eqn:E1.
        2:{ exists 1%nat, (Fault f). split; [intros Q; injection Q as ->; now apply eval_one_ends in E1|]. intros [|d'] Ld; [lia|]. cbn [select1].
            destruct (Z.ltb_spec count (u_lambdap u)); [|lia]. fold b. rewrite Eb. now rewrite E1. }
        pose proof E1 as E1'. apply eval_one_spec in E1' as (c & y & Hc & _ & E2). cbn zeta in E2. destruct E2 as (En & _ & Eu).
        apply andb_true_iff in Eb as [Eb1 Eb2]. pose proof Eb1 as Eb1'. pose proof Eb2 as Eb2'. apply Nat.ltb_lt in Eb1. apply negb_true_iff in Eb2.
        assert (L1 : length nc1 = length nc). { rewrite En, app_length, firstn_length. cbn [length]. rewrite skipn_length. lia. }
        assert (EL : u_lambdap u1 = u_lambdap u) by (rewrite Eu; reflexivity).
        destruct (IH (count + 1) (b :: used) nc1 test1 u1) as (d & r & Nr & Hd); try rewrite L1; try rewrite EL; auto; try (cbn [length]; lia).
        { now apply positions_cons. }
        exists (S d), r. split; auto. intros [|d'] Ld; [lia|]. cbn [select1]. destruct (Z.ltb_spec count (u_lambdap u)); [|lia].
        fold b. rewrite Eb1', Eb2'. cbn [andb]. rewrite E1. cbn [bind]. apply Hd. lia.
      * destruct (IHw (set_u_k1 (S (u_k1 u)) u)) as (d & r & Nr & Hd); ucbn; try lia; auto.
        exists (S d), r. split; auto. intros [|d'] Ld; [lia|]. cbn [select1]. destruct (Z.ltb_spec count (u_lambdap u)); [|lia].
        fold b. rewrite Eb. apply Hd. lia.
Qed.
End Select.

Section Pre.
Context {T N M : Type}.
Variable so : surrops T N M.
Variable no : numops T N.
Variable e : env T N.
Variable g : cfg T.
Notation surr := (surr T N M).
Implicit Types (u : surr).
Lemma std_sort_ends cmp (l : list (cand T)) : std_sort_c so cmp l <> Fault Diverges.
Proof. unfold std_sort_c. destruct (swo_on _ _); discriminate. Qed.
Lemma sort_candidates_ends (s : sol T N) : sort_candidates s <> Fault Diverges.
Proof. unfold sort_candidates. destruct (compares_ok _); discriminate. Qed.
Lemma at_ends {A} (l : list A) i : at_ l i <> Fault Diverges.
Proof. unfold at_. destruct (_ <? _); [congruence|]. destruct (nth_error _ _); congruence. Qed.

Lemma fill_max_length (nc : list (cand T)) : forall i used, length (fill_max i used nc) = length nc.
Proof. induction nc; intros i used; cbn; auto. Qed.
Lemma predict_len u cs : length (predict so u cs) = length cs.
Proof. apply predict_spec. Qed.

(** Whether the preselection ends. *)
Lemma preselection_ends cols u : cand_sort_ok so -> (forall x, e_pheno e x <> Fault Diverges) ->
  (g_lambda g <= length cols)%nat -> u_lambdap u <= Z.of_nat (Nat.max 1 (g_lambda g)) ->
  fair (length cols) (p_draw0 so) -> fair (Nat.max 1 (g_lambda g)) (p_draw1 so) ->
  exists d r, r <> Fault Diverges /\ forall d', (d <= d')%nat -> pre_selection_eval so e g d' cols u = r.
Proof.
  intros CS PN HL HP F0 F1. unfold pre_selection_eval.
  set (pop := predict so u (map _ cols)).
  assert (LP : length pop = length cols) by (unfold pop; rewrite predict_len; apply map_length).
  destruct (sort_candidates _) as [sl|f] eqn:Es; cbn [bind]; [|exists 0%nat, (Fault f); split; auto; intros Q; injection Q as ->; now apply sort_candidates_ends in Es].
  apply sort_candidates_spec in Es. assert (LS : length (s_cands sl) = length cols) by (subst sl; cbn [s_cands set_s_cands]; now rewrite sort_length).
  destruct (at_ (s_cands sl) 0) as [c0|f] eqn:Ec; cbn [bind]; [|exists 0%nat, (Fault f); split; auto; intros Q; injection Q as ->; now apply at_ends in Ec].
  assert (L1 : (1 <= length cols)%nat). { apply at_ok in Ec as [_ Ec]. rewrite <- LS. cbn in Ec. destruct (s_cands sl); [discriminate|cbn; lia]. }
  set (u1 := set_u_st (set_t_sol sl (u_st u)) u).
  destruct (select0_ends so g (s_cands sl)) with (n := (g_lambda g - 1)%nat) (used := [0%nat]) (nc := [with_rank 0 c0]) (k := u_k0 u1) as (d0 & [nc0 k0] & H0); auto.
  { now rewrite LS. } { now rewrite LS. }
  { split; [constructor; [cbn; tauto|constructor]|]. intros a [<-|[]]. lia. }
  assert (L0 : length nc0 = Nat.max 1 (g_lambda g)).
  { apply (select0_spec so g d0 (s_cands sl) [0%nat] [with_rank 0 c0] (u_k0 u1) nc0 k0); [apply H0; lia| |]; cbn [length]; lia. }
  destruct (std_sort_c so asc nc0) as [nc1|f] eqn:E1.
  2:{ exists d0, (Fault f). split; [intros Q; injection Q as ->; now apply std_sort_ends in E1|]. intros d' Ld. rewrite H0 by auto. cbn [bind fst snd]. now rewrite E1. }
  pose proof E1 as E1'. apply std_sort_c_spec in E1' as [P1 _]; auto. apply Permutation_length in P1.
  destruct (eval_one e 0 nc1 [] (set_u_k0 k0 u1)) as [[[nc2 test2] u2]|f] eqn:E2.
  2:{ exists d0, (Fault f). split; [intros Q; injection Q as ->; now apply eval_one_ends in E2|]. intros d' Ld. rewrite H0 by auto. cbn [bind fst snd]. rewrite E1. cbn [bind]. now rewrite E2. }
  pose proof E2 as E2'. apply eval_one_spec in E2' as (c & y & Hc & _ & E2'). cbn zeta in E2'. destruct E2' as (En & _ & Eu).
  assert (L2 : length nc2 = Nat.max 1 (g_lambda g)).
  { rewrite En. cbn [firstn app length]. rewrite skipn_length, P1, L0. lia. }
  assert (EL : u_lambdap u2 = u_lambdap u) by (rewrite Eu; reflexivity).
  destruct (select1_ends so e PN (Z.to_nat (u_lambdap u2 - 1)) 1 [0%nat] nc2 test2 u2) as (d1 & r & Nr & H1); rewrite ?L2, ?EL; auto.
  { split; [constructor; [cbn; tauto|constructor]|]. intros a [<-|[]]. lia. }
  set (K := fun q2 : list (cand T) * list (cand T) * list nat * surr => let '(nc, test, used, u) := q2 in
      do nc <- std_sort_c so asc_rank (fill_max 0 used nc); do err <- compute_error so test u;
      Ok (set_u_st (set_t_gens (t_gens (u_st (set_test_error err u)) ++ [test]) (set_t_sol (set_s_cands nc (t_sol (u_st (set_test_error err u)))) (u_st (set_test_error err u)))) (set_test_error err u))).
  exists (Nat.max d0 d1), (bind r K). split.
  - destruct r as [[[[nc3 test3] used] u3]|f]; cbn [bind]; [|congruence]. unfold K.
    destruct (std_sort_c so asc_rank _) as [nc4|f] eqn:E4; cbn [bind]; [|intros Q; injection Q as ->; now apply std_sort_ends in E4].
    unfold compute_error. destruct (std_sort_c so desc _) as [nc5|f] eqn:E5; cbn [bind]; [discriminate|intros Q; injection Q as ->; now apply std_sort_ends in E5].
  - intros d' Ld. rewrite H0 by lia. cbn [bind fst snd]. rewrite E1. cbn [bind]. rewrite E2. cbn [bind]. rewrite H1 by lia.
    destruct r as [[[[nc3 test3] used] u3]|f]; reflexivity.
Qed.
Lemma preselection_sizes d cols u u' : cand_sort_ok so -> pre_selection_eval so e g d cols u = Ok u' ->
  (g_lambda g <= length cols)%nat /\ u_lambdap u <= Z.of_nat (Nat.max 1 (g_lambda g)).
Proof.
  intros CS H. unfold pre_selection_eval in H.
  inv_do H. rename a into sl, H0 into Es. apply sort_candidates_spec in Es.
  inv_do H. rename a into c0, H0 into Ec. inv_do H. destruct a as [nc0 k0]. rename H0 into Hs0. cbn [fst snd] in H.
  inv_do H. rename a into nc1, H0 into E1. inv_do H. destruct a as [[nc2 test2] u2]. rename H0 into E2. inv_do H. destruct a as [[[nc3 test3] used] u3]. rename H0 into Hs1.
  assert (LS : length (s_cands sl) = length cols). { subst sl. cbn [s_cands set_s_cands]. now rewrite sort_length, predict_len, map_length. }
  assert (L1 : (1 <= length cols)%nat). { apply at_ok in Ec as [_ Ec]. rewrite <- LS. cbn in Ec. destruct (s_cands sl); [discriminate|cbn; lia]. }
  pose proof Hs0 as Hs0'. apply select0_spec in Hs0'; [|cbn [length]; lia|cbn [length]; lia].
  apply select0_sizes in Hs0; auto.
  2:{ split; [constructor; [cbn; tauto|constructor]|]. intros a [<-|[]]. lia. }
  apply std_sort_c_spec in E1 as [P1 _]; auto. apply Permutation_length in P1.
  apply eval_one_spec in E2 as (c & y & Hc & _ & E2). cbn zeta in E2. destruct E2 as (En & _ & Eu).
  assert (L2 : length nc2 = Nat.max 1 (g_lambda g)). { rewrite En. cbn [firstn app length]. rewrite skipn_length, P1. lia. }
  assert (EL : u_lambdap u2 = u_lambdap u) by (rewrite Eu; reflexivity).
  pose proof Hs1 as Hs1'. apply select1_spec in Hs1' as (added & -> & _ & _ & _ & _ & C2 & _ & V2 & _).
  apply select1_used in Hs1 as [Q _].
  assert (P : positions (length nc2) used). { apply Q. split; [constructor; [cbn; tauto|constructor]|]. intros a [<-|[]]. lia. }
  apply positions_le in P. cbn [length] in V2. split; lia.
Qed.

(** ** Best of the generation *)
Lemma pre_best d cols u u' : cand_sort_ok so -> pre_selection_eval so e g d cols u = Ok u' ->
  exists test c, t_gens (u_st u') = t_gens (u_st u) ++ [test] /\ nth_error (s_cands (t_sol (u_st u'))) 0 = Some c /\
    forall b, In b test -> dlt (c_f b) (c_f c) = false.
Proof.
  intros CS H. unfold pre_selection_eval in H.
  inv_do H. rename a into sl, H0 into Es. apply sort_candidates_spec in Es.
  inv_do H. rename a into c0, H0 into Ec. inv_do H. destruct a as [nc0 k0]. rename H0 into Hs0. cbn [fst snd] in H.
  inv_do H. rename a into nc1, H0 into E1. inv_do H. destruct a as [[nc2 test2] u2]. rename H0 into E2. inv_do H. destruct a as [[[nc3 test3] used] u3]. rename H0 into Hs1.
  inv_do H. rename a into nc4, H0 into E4. inv_do H. apply Ok_inj in H. subst u'.
  assert (G2 : t_gens (u_st u3) = t_gens (u_st u)).
  { pose proof E2 as E2'. apply eval_one_evals in E2' as (d2 & _ & _ & F1 & _). pose proof Hs1 as Hs1'. apply select1_spec in Hs1' as (added & _ & _ & F2 & _).
    destruct F1 as (_&_&_&_&_&_&_&_&_&_&_&_& F1 &_). destruct F2 as (_&_&_&_&_&_&_&_&_&_&_&_& F2 &_). rewrite F2, F1. reflexivity. }
  assert (LL : length nc3 = length nc2) by (pose proof Hs1 as Hs1'; apply select1_spec in Hs1' as (added & _ & _ & _ & L & _); exact L).
  apply eval_one_spec in E2 as (c & y & Hc & _ & E2). cbn zeta in E2. destruct E2 as (En & Et & Eu).
  apply select1_used in Hs1 as [_ Q]. cbn [app] in Et.
  assert (IT : forall b, In b test3 -> exists i, In i used /\ nth_error nc3 i = Some b).
  { apply Q. intros b Hb. subst test2. destruct Hb as [<-|[]]. exists 0%nat. split; [left; auto|]. rewrite En. reflexivity. }
  assert (I4 : forall b, In b test3 -> In b nc4).
  { intros b Hb. destruct (IT b Hb) as (i & Hi & Hn). apply std_sort_c_spec in E4 as [P4 _]; auto. apply (Permutation_in _ (Permutation_sym P4)).
    eapply nth_error_In. rewrite fill_max_used; [exact Hn|]. right. cbn [Nat.add]. exact Hi. }
  assert (NE : (1 <= length nc4)%nat).
  { apply std_sort_c_spec in E4 as [P4 _]; auto. apply Permutation_length in P4. rewrite P4, fill_max_length, LL. rewrite En. cbn. lia. }
  destruct nc4 as [|h nc4]; [cbn in NE; lia|]. exists test3, h. ucbn. cbn [t_gens set_t_gens set_t_sol t_sol s_cands set_s_cands].
  change (t_gens (u_st (set_test_error _ u3))) with (t_gens (u_st u3)). split; [now rewrite G2|]. split; [reflexivity|].
  intros b Hb. apply std_sort_c_spec in E4 as [_ S4]; auto. destruct (I4 b Hb) as [<-|Hb'].
  - apply dlt_irrefl.
  - apply In_nth_error in Hb' as [j Hj]. assert (Q' := S4 0%nat (S j) h b ltac:(lia) eq_refl Hj). unfold asc_rank in Q'. now destruct (dlt (c_f b) (c_f h)).
Qed.
End Pre.
