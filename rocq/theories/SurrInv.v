(** What the functions of Surr.v change. *)
From Coq Require Import Permutation QArith.
From Verif Require Import Base Dbl DblProofs Config Search SpecSearch SortProofs SearchInv CounterProofs StopProofs SpecUh Surr SpecSurr.
Local Open Scope Z_scope.

Ltac ucbn := cbn [u_st u_l u_exploit u_tset u_model u_train_err u_test_err u_smooth u_nsteps u_auto u_flags u_lambdap u_prelam u_k0 u_k1 u_since
  set_u_st set_u_l set_u_exploit set_u_tset set_u_model set_u_train_err set_u_test_err set_u_smooth set_u_nsteps set_u_auto set_u_flags set_u_lambdap set_u_prelam set_u_k0 set_u_k1 set_u_since
  fst snd] in *.

(** * Training set *)
Section Tset.
Context {A : Type}.
Definition push (l : Z) (t : list A) (c : A) : list A :=
  let t := t ++ [c] in if l <? Z.of_nat (length t) then tl t else t.
Definition pushes (l : Z) (cs t : list A) : list A := fold_left (push l) cs t.
Lemma push_length l t c : (length (push l t c) <= S (length t))%nat /\ (Z.of_nat (length t) <= Z.max 0 l -> Z.of_nat (length (push l t c)) <= Z.max 0 l) /\
  (l <= Z.of_nat (length t) -> length (push l t c) = length t).
Proof.
  unfold push. assert (E : length (t ++ [c]) = S (length t)) by (rewrite app_length; cbn; lia).
  assert (E2 : length (tl (t ++ [c])) = length t) by (destruct (t ++ [c]); cbn in *; lia).
  destruct (Z.ltb_spec l (Z.of_nat (length (t ++ [c])))); rewrite ?E2, ?E in *; lia.
Qed.
Lemma skipn_tl n : forall X : list A, tl (skipn n X) = skipn (S n) X.
Proof. induction n as [|n IH]; intros [|x X]; try reflexivity. cbn [skipn]. rewrite IH. reflexivity. Qed.
Lemma push_lastn l c X : push l (lastn (Z.to_nat l) X) c = lastn (Z.to_nat l) (X ++ [c]).
Proof.
  unfold push, lastn. set (L := Z.to_nat l). rewrite !app_length, skipn_length. cbn [length].
  destruct (Nat.le_gt_cases L (length X)) as [H|H].
  - destruct (Z.ltb_spec l (Z.of_nat (length X - (length X - L) + 1))); [|subst L; lia].
    replace (length X + 1 - L)%nat with (S (length X - L)) by lia.
    assert (E : skipn (length X - L) X ++ [c] = skipn (length X - L) (X ++ [c])).
    { rewrite skipn_app. replace (length X - L - length X)%nat with 0%nat by lia. reflexivity. }
    rewrite E. apply skipn_tl.
  - replace (length X - L)%nat with 0%nat by lia. replace (length X + 1 - L)%nat with 0%nat by lia. cbn [skipn].
    destruct (Z.ltb_spec l (Z.of_nat (length X - 0 + 1))); [subst L; lia|reflexivity].
Qed.
Lemma pushes_lastn l cs : forall X, pushes l cs (lastn (Z.to_nat l) X) = lastn (Z.to_nat l) (X ++ cs).
Proof.
  unfold pushes. induction cs as [|c cs IH]; intros X; cbn [fold_left]; [now rewrite app_nil_r|].
  rewrite push_lastn, IH, <- app_assoc. reflexivity.
Qed.
Lemma pushes_full l cs : forall t, l <= Z.of_nat (length t) -> length (pushes l cs t) = length t.
Proof.
  unfold pushes. induction cs as [|c cs IH]; intros t H; cbn [fold_left]; auto.
  destruct (push_length l t c) as (_ & _ & E). rewrite IH by (rewrite E; auto). auto.
Qed.
Lemma pushes_app l a b t : pushes l (a ++ b) t = pushes l b (pushes l a t).
Proof. apply fold_left_app. Qed.
Lemma push_in l t c d : In d (push l t c) -> d = c \/ In d t.
Proof.
  unfold push. destruct (l <? _).
  - intros H. assert (In d (t ++ [c])) by (destruct (t ++ [c]); cbn in *; auto). apply in_app_iff in H0 as [|[<-|[]]]; auto.
  - intros H. apply in_app_iff in H as [|[<-|[]]]; auto.
Qed.
Lemma pushes_in l cs : forall t d, In d (pushes l cs t) -> In d cs \/ In d t.
Proof.
  unfold pushes. induction cs as [|c cs IH]; intros t d H; cbn [fold_left] in H; auto.
  apply IH in H as [|H]; [left; cbn; auto|]. apply push_in in H as [->|]; cbn; auto.
Qed.
Lemma pushes_suffix l cs : forall X t, (exists p, X = p ++ t) -> exists p, X ++ cs = p ++ pushes l cs t.
Proof.
  unfold pushes. induction cs as [|c cs IH]; intros X t [p ->]; cbn [fold_left].
  - rewrite app_nil_r. eauto.
  - specialize (IH (p ++ t ++ [c]) (push l t c)).
    replace ((p ++ t) ++ c :: cs) with ((p ++ t ++ [c]) ++ cs) by (rewrite <- !app_assoc; reflexivity).
    apply IH. unfold push. destruct (l <? _); [|exists p; reflexivity].
    destruct (t ++ [c]) as [|d t'] eqn:E; [destruct t; discriminate|]. exists (p ++ [d]). rewrite <- app_assoc. reflexivity.
Qed.
Lemma pushes_length l cs : forall t, Z.of_nat (length t) <= Z.max 0 l -> Z.of_nat (length (pushes l cs t)) <= Z.max 0 l.
Proof.
  unfold pushes. induction cs as [|c cs IH]; intros t H; cbn [fold_left]; auto. apply IH. now apply push_length.
Qed.
End Tset.

Section Inv.
Context {T N M : Type}.
Variable so : surrops T N M.
Variable no : numops T N.
Variable e : env T N.
Variable g : cfg T.
Notation surr := (surr T N M).
Implicit Types (u : surr).

Lemma add_tset_push c u : add_tset c u = set_u_tset (push (u_l u) (u_tset u) c) u.
Proof. reflexivity. Qed.
Lemma adds_spec cs : forall u, fold_left (fun u c => add_tset c u) cs u = set_u_tset (pushes (u_l u) cs (u_tset u)) u.
Proof.
  induction cs as [|c cs IH]; intros u; cbn [fold_left]; [destruct u; reflexivity|].
  rewrite IH, add_tset_push. destruct u; reflexivity.
Qed.
Lemma true_eval_spec cols phen u u' : true_eval no e g cols phen u = Ok u' ->
  exists s, eval no e (with_flags g u) cols phen (u_st u) = Ok s /\
    u' = set_u_tset (pushes (u_l u) (s_cands (t_sol s)) (u_tset u)) (set_u_st s u).
Proof.
  unfold true_eval. intros H. inv_do H. apply Ok_inj in H. exists a. split; auto. subst u'. rewrite adds_spec. reflexivity.
Qed.

(** Errors *)
Definition same_but_errors u u' : Prop :=
  exists te sm, u' = set_u_test_err te (set_u_smooth sm u).
Lemma test_step_spec u u' : test_step so u = Ok u' -> same_but_errors u u'.
Proof.
  unfold test_step. destruct (negb _ && _).
  - intros H. inv_do H. apply Ok_inj in H. subst u'. unfold set_test_error. eexists _, _. reflexivity.
  - intros H. apply Ok_inj in H. subst u'. exists (u_test_err u), (u_smooth u). destruct u; reflexivity.
Qed.

(** Prediction *)
Lemma set_values_spec vs : forall cs : list (cand T), length (set_values vs cs) = length cs /\ map c_x (set_values vs cs) = map c_x cs.
Proof.
  induction vs as [|v vs IH]; intros [|c cs]; cbn; auto. destruct (IH cs) as [-> ->]. auto.
Qed.
Lemma predict_spec u (cs : list (cand T)) : length (predict so u cs) = length cs /\ map c_x (predict so u cs) = map c_x cs.
Proof. unfold predict. destruct (p_predict so _ _ _ _); auto. apply set_values_spec. Qed.
Definition with_cands (cs : list (cand T)) u : surr := set_u_st (set_t_sol (set_s_cands cs (t_sol (u_st u))) (u_st u)) u.
Lemma predict_cols_spec cols : forall r u u', predict_cols so r cols u = Ok u' ->
  exists cs, u' = with_cands cs u /\ length cs = length (s_cands (t_sol (u_st u))).
Proof.
  induction cols as [|x cols IH]; intros r u u' H; cbn [predict_cols] in H.
  - apply Ok_inj in H. subst u'. exists (s_cands (t_sol (u_st u))). split; auto. unfold with_cands. destruct u as [[[]]]; reflexivity.
  - inv_do H. inv_do H. apply IH in H as (cs & -> & L). exists cs. split.
    + unfold with_cands. destruct u as [[[]]]; reflexivity.
    + rewrite L. ucbn. cbn [t_sol set_t_sol s_cands set_s_cands]. rewrite (proj1 (predict_spec _ _)). eapply upd_at_length; eauto.
Qed.

(** simple_eval: either the objective or the surrogate. *)
Definition real_eval cols phen u u' : Prop :=
  exists fl ns te sm s, eval no e (with_flags g (set_u_flags fl u)) cols phen (u_st u) = Ok s /\
    u' = set_u_tset (pushes (u_l u) (s_cands (t_sol s)) (u_tset u)) (set_u_st s (set_u_test_err te (set_u_smooth sm (set_u_nsteps ns (set_u_flags fl u))))).
Lemma simple_eval_spec cols phen u u' : simple_eval so no e g cols phen u = Ok u' ->
  real_eval cols phen u u' \/
  (u_exploit u = true /\ full u = true /\ exists cs, length cs = length (s_cands (t_sol (u_st u))) /\
   u' = with_cands cs (set_u_flags (set_criteria_active (u_flags u) 10 false) u)).
Proof.
  unfold simple_eval. intros H. inv_do H. rename a into ev. destruct (ev || negb (full u)) eqn:Eb.
  - left. inv_do H. inv_do H. apply test_step_spec in H1 as (te & sm & ->). ucbn.
    assert (Q : exists ns, a0 = set_u_nsteps ns (set_u_test_err te (set_u_smooth sm (set_u_flags (set_criteria_active (u_flags u) 10 true) u)))).
    { destruct (_ && _ && _) in H2.
      - inv_do H2. apply Ok_inj in H2. subst a0. eauto.
      - apply Ok_inj in H2. subst a0. exists (u_nsteps u). destruct u; reflexivity. }
    destruct Q as [ns ->]. apply true_eval_spec in H as (s & E & ->). ucbn.
    exists (set_criteria_active (u_flags u) 10 true), ns, te, sm, s. split; [exact E|]. destruct u; reflexivity.
  - right. apply orb_false_iff in Eb as [-> Eb]. apply negb_false_iff in Eb.
    split; [destruct (u_exploit u); auto; discriminate|]. split; auto.
    apply predict_cols_spec in H as (cs & -> & L). exists cs. auto.
Qed.

(** Ranking by std::sort *)
Lemma std_sort_c_spec cmp l l' : cand_sort_ok so -> std_sort_c so cmp l = Ok l' -> Permutation l' l /\ sorted_by cmp l'.
Proof. unfold std_sort_c. intros S. destruct (swo_on cmp l) eqn:E; [|discriminate]. intros H. apply Ok_inj in H. subst. now apply S. Qed.

(** One true evaluation *)
Lemma eval_one_spec i nc test u nc' test' u' : eval_one e i nc test u = Ok (nc', test', u') ->
  exists c y, nth_error nc i = Some c /\ e_pheno e (c_x c) = Ok y /\
    let k := length (t_log (u_st u)) in let d := with_f (e_f e k y) c in
    nc' = firstn i nc ++ d :: skipn (S i) nc /\ test' = test ++ [d] /\
    u' = set_u_tset (push (u_l u) (u_tset u) d)
           (set_u_st (update_fevals 1 (set_t_log (t_log (u_st u) ++ [(y, c_f d)]) (u_st u))) u).
Proof.
  unfold eval_one, call. intros H. inv_do H. inv_do H. inv_do H. apply Ok_inj in H. injection H as <- <- <-.
  apply at_ok in H0 as [_ H0]. rewrite Nat2Z.id in H0. apply upd_at_ok in H2 as [_ ->]. rewrite Nat2Z.id.
  exists a, a0. repeat split; auto.
Qed.

(** Effect of a sequence of true evaluations, [test] being the candidates evaluated. *)
Definition evals u test u' : Prop :=
  exists lg, as_calls e test = Ok lg /\ (forall i y v, nth_error lg i = Some (y, v) -> v = e_f e (length (t_log (u_st u)) + i) y) /\
    t_log (u_st u') = t_log (u_st u) ++ lg /\
    t_nevals (u_st u') = t_nevals (u_st u) + Z.of_nat (length test) /\
    s_nevals (t_sol (u_st u')) = s_nevals (t_sol (u_st u)) + Z.of_nat (length test) /\
    u_tset u' = pushes (u_l u) test (u_tset u).
(** Everything else a selection leaves alone. *)
Definition sel_frame u u' : Prop :=
  u_l u' = u_l u /\ u_exploit u' = u_exploit u /\ u_model u' = u_model u /\ u_train_err u' = u_train_err u /\ u_test_err u' = u_test_err u /\
  u_smooth u' = u_smooth u /\ u_nsteps u' = u_nsteps u /\ u_auto u' = u_auto u /\ u_flags u' = u_flags u /\ u_lambdap u' = u_lambdap u /\
  u_prelam u' = u_prelam u /\ u_since u' = u_since u /\ t_gens (u_st u') = t_gens (u_st u) /\ keep (u_st u') = keep (u_st u) /\
  s_num (t_sol (u_st u')) = s_num (t_sol (u_st u)) /\ s_cands (t_sol (u_st u')) = s_cands (t_sol (u_st u)).
Lemma sel_frame_refl u : sel_frame u u.
Proof. unfold sel_frame. repeat split. Qed.
Lemma sel_frame_trans a b c : sel_frame a b -> sel_frame b c -> sel_frame a c.
Proof. unfold sel_frame. intros H1 H2. decompose [and] H1. decompose [and] H2. repeat (split; [congruence|]). congruence. Qed.
Lemma as_calls_length test lg : as_calls e test = Ok lg -> length lg = length test.
Proof. apply mapM_length. Qed.
Lemma as_calls_app a b la lb : as_calls e a = Ok la -> as_calls e b = Ok lb -> as_calls e (a ++ b) = Ok (la ++ lb).
Proof.
  unfold as_calls. revert la; induction a as [|c a IH]; intros la H1 H2; cbn [mapM app] in *.
  - apply Ok_inj in H1. subst. exact H2.
  - inv_do H1. inv_do H1. apply Ok_inj in H1. subst la. rewrite H. cbn [bind]. rewrite (IH _ H0 H2). reflexivity.
Qed.
Lemma evals_trans u u1 u2 a b : evals u a u1 -> evals u1 b u2 -> u_l u1 = u_l u -> evals u (a ++ b) u2.
Proof.
  intros (la & A1 & A2 & A3 & A4 & A5 & A6) (lb & B1 & B2 & B3 & B4 & B5 & B6) L. exists (la ++ lb).
  split; [now apply as_calls_app|]. split.
  { intros i y v H. destruct (Nat.lt_ge_cases i (length la)) as [Hi|Hi].
    - rewrite nth_error_app1 in H by auto. eauto.
    - rewrite nth_error_app2 in H by auto. apply B2 in H. rewrite H, A3, app_length. f_equal. lia. }
  rewrite B3, A3, app_assoc, B4, A4, B5, A5, app_length, B6, A6, L, pushes_app. repeat split; lia.
Qed.
Lemma eval_one_evals i nc test u nc' test' u' : eval_one e i nc test u = Ok (nc', test', u') ->
  exists d, test' = test ++ [d] /\ evals u [d] u' /\ sel_frame u u' /\ (i < length nc)%nat /\
    nc' = firstn i nc ++ d :: skipn (S i) nc /\ exists c, nth_error nc i = Some c /\ c_x d = c_x c.
Proof.
  intros H. apply eval_one_spec in H as (c & y & H1 & H2 & H). cbv zeta in H. destruct H as (-> & -> & ->).
  set (k := length (t_log (u_st u))). set (d := with_f (e_f e k y) c). exists d. split; auto.
  split; [|split; [|split; [apply nth_error_Some; congruence|split; eauto]]].
  - exists [(y, c_f d)]. unfold as_calls. cbn [mapM]. change (c_x d) with (c_x c). rewrite H2. cbn [bind].
    split; [reflexivity|]. split; [|ucbn; unfold update_fevals; cbn; repeat split; lia].
    intros [|[|i0]] y0 v E; try discriminate. cbn in E. injection E as <- <-. rewrite Nat.add_0_r. reflexivity.
  - unfold sel_frame. ucbn. repeat split.
Qed.

(** First selection *)
Lemma select0_spec fuel pop : forall used nc k nc' k', select0 so g fuel pop used nc k = Ok (nc', k') -> (1 <= length nc)%nat ->
  (length nc <= Nat.max 1 (g_lambda g))%nat -> length nc' = Nat.max 1 (g_lambda g).
Proof.
  induction fuel as [|fuel IH]; intros used nc k nc' k' H L1 L2; cbn [select0] in H.
  - destruct (Nat.ltb_spec (length nc) (g_lambda g)); [discriminate|]. apply Ok_inj in H. injection H as <- <-. lia.
  - destruct (Nat.ltb_spec (length nc) (g_lambda g)); [|apply Ok_inj in H; injection H as <- <-; lia].
    destruct (nth_error pop (p_draw0 so k)).
    + destruct (drawn _ _); [eapply IH; eauto|].
      eapply IH in H; auto; rewrite app_length; cbn [length]; lia.
    + eapply IH; eauto.
Qed.

(** Second selection: [used] lists the evaluated positions. *)
Definition all_evaluated u (used : list nat) (nc : list (cand T)) : Prop :=
  forall i, In i used -> exists c, nth_error nc i = Some c /\ evaluated e u c.
Lemma evaluated_mono u u' c lg : t_log (u_st u') = t_log (u_st u) ++ lg -> evaluated e u c -> evaluated e u' c.
Proof.
  intros L (i & y & H1 & H2 & H3). exists i, y. split; [|auto]. rewrite L. rewrite nth_error_app1; auto.
  apply nth_error_Some. congruence.
Qed.
Lemma evals_in u test u' c : evals u test u' -> In c test -> evaluated e u' c.
Proof.
  intros (lg & A1 & A2 & A3 & _) Hc. apply In_nth_error in Hc as [i Hi].
  destruct (mapM_nth _ _ _ A1 _ _ Hi) as ([y v] & H1 & H2). inv_do H2. apply Ok_inj in H2. injection H2 as -> <-.
  exists (length (t_log (u_st u)) + i)%nat, y. split; [|split; [auto|eauto]].
  rewrite A3, nth_error_app2 by lia. rewrite <- H1. f_equal. lia.
Qed.
Lemma select1_spec fuel : forall count used nc test u nc' test' used' u',
  select1 so e fuel count used nc test u = Ok (nc', test', used', u') ->
  exists added, test' = test ++ added /\ evals u added u' /\ sel_frame u u' /\ length nc' = length nc /\ map c_x nc' = map c_x nc /\
    Z.of_nat (length added) = Z.max 0 (u_lambdap u - count) /\
    (forall i, In i used -> In i used') /\ (length used' = length used + length added)%nat /\
    (forall i, In i used' -> In i used \/ (i < length nc)%nat) /\
    (all_evaluated u used nc -> all_evaluated u' used' nc').
Proof.
  induction fuel as [|fuel IH]; intros count used nc test u nc' test' used' u' H; cbn [select1] in H.
  - destruct (Z.ltb_spec count (u_lambdap u)); [discriminate|]. apply Ok_inj in H. injection H as <- <- <- <-.
    exists []. rewrite app_nil_r. split; auto. split; [exists []; cbn; rewrite app_nil_r; repeat split; try lia; intros [|?]; discriminate|].
    split; [apply sel_frame_refl|]. repeat (split; [auto; cbn; lia|]). auto.
  - destruct (Z.ltb_spec count (u_lambdap u)).
    2:{ apply Ok_inj in H. injection H as <- <- <- <-.
        exists []. rewrite app_nil_r. split; auto. split; [exists []; cbn; rewrite app_nil_r; repeat split; try lia; intros [|?]; discriminate|].
        split; [apply sel_frame_refl|]. repeat (split; [auto; cbn; lia|]). auto. }
    set (a := p_draw1 so (u_k1 u)) in *. set (u0 := set_u_k1 (S (u_k1 u)) u) in *.
    assert (F0 : sel_frame u u0) by (unfold sel_frame, u0; ucbn; repeat split).
    destruct ((a <? length nc)%nat && negb (drawn a used)) eqn:Ea.
    + inv_do H. destruct a0 as [[nc1 test1] u1]. apply eval_one_evals in H1 as (d & -> & E1 & F1 & La & Enc & (c & Hc & Hx)).
      apply IH in H as (added & -> & E2 & F2 & L2 & X2 & C2 & U2 & V2 & W2 & A2).
      exists (d :: added). rewrite <- app_assoc. split; auto.
      assert (E1' : evals u [d] u1) by exact E1.
      split; [apply (evals_trans u u1 u' [d] added); auto; apply F1|].
      split; [apply (sel_frame_trans _ _ _ F0), (sel_frame_trans _ _ _ F1 F2)|].
      assert (L1 : length nc1 = length nc) by (rewrite Enc, app_length, firstn_length_le by lia; cbn [length]; rewrite skipn_length; lia).
      split; [rewrite L2; exact L1|]. split.
      { rewrite X2, Enc. rewrite <- (firstn_skipn a nc) at 3. rewrite !map_app. f_equal. cbn [map].
        assert (Q : skipn a nc = c :: skipn (S a) nc).
        { clear - Hc. revert nc Hc. induction a as [|a IHa]; intros [|x nc] Hc; try discriminate; cbn in *; [injection Hc as ->; auto|auto]. }
        rewrite Q. cbn [map]. congruence. }
      assert (LP : u_lambdap u1 = u_lambdap u) by apply F1. rewrite LP in C2. cbn [length]. split; [lia|].
      split; [intros i Hi; apply U2; cbn; auto|]. split; [cbn [length] in V2; lia|]. split.
      { intros i Hi. apply W2 in Hi as [[<-|Hi]|Hi]; auto. right. lia. }
      intros AE. apply A2. intros i [<-|Hi].
      * exists d. split; [rewrite Enc, nth_error_upd by lia; now rewrite Nat.eqb_refl|]. apply (evals_in u [d] u1); auto. cbn; auto.
      * destruct (Nat.eq_dec i a) as [->|Hn].
        -- exists d. split; [rewrite Enc, nth_error_upd by lia; now rewrite Nat.eqb_refl|]. apply (evals_in u [d] u1); auto. cbn; auto.
        -- destruct (AE i Hi) as (c' & Hc' & Ev). exists c'. split; [rewrite Enc, nth_error_upd by lia; destruct (Nat.eqb_spec i a); congruence|].
           destruct E1' as (lg & _ & _ & L' & _). eapply evaluated_mono; eauto.
    + apply IH in H as (added & -> & E2 & F2 & L2 & X2 & C2 & U2 & V2 & W2 & A2).
      exists added. split; auto. split; [exact E2|]. split; [eapply sel_frame_trans; eauto|].
      repeat (split; [assumption|]). exact A2.
Qed.

(** The values left. *)
Lemma fill_max_spec (nc : list (cand T)) : forall i (used : list nat), length (fill_max i used nc) = length nc /\
  forall j c, nth_error (fill_max i used nc) j = Some c -> exists d, nth_error nc j = Some d /\ c_x c = c_x d /\
    ((i + j = 0 \/ In (i + j) used)%nat /\ c = d \/ c_f c = dbl_max).
Proof.
  induction nc as [|c nc IH]; intros i used; cbn [fill_max].
  - split; auto. intros [|j] c H; discriminate.
  - destruct (IH (S i) used) as [IH1 IH2]. split; [cbn; congruence|]. intros [|j] d H; cbn [nth_error] in *.
    + injection H as <-. exists c. split; auto. rewrite Nat.add_0_r. destruct ((i =? 0)%nat || drawn i used) eqn:E.
      * split; auto. left. split; auto. apply orb_true_iff in E as [E|E]; [apply Nat.eqb_eq in E; auto|].
        right. unfold drawn in E. apply existsb_exists in E as (x & Hx & Ex). apply Nat.eqb_eq in Ex. subst; auto.
      * split; auto.
    + apply IH2 in H as (d0 & H1 & H2 & H3). exists d0. replace (i + S j)%nat with (S i + j)%nat by lia. auto.
Qed.
Lemma fill_max_used (nc : list (cand T)) : forall i used j, (i + j = 0 \/ In (i + j) used)%nat -> nth_error (fill_max i used nc) j = nth_error nc j.
Proof.
  induction nc as [|c nc IH]; intros i used j H; cbn [fill_max]; [destruct j; auto|]. destruct j as [|j]; cbn [nth_error].
  - rewrite Nat.add_0_r in H. assert (E : (i =? 0)%nat || drawn i used = true).
    { apply orb_true_iff. destruct H as [H|H]; [left; now apply Nat.eqb_eq|right]. unfold drawn. apply existsb_exists. exists i. split; auto. apply Nat.eqb_refl. }
    now rewrite E.
  - apply IH. replace (S i + j)%nat with (i + S j)%nat by lia. auto.
Qed.

(** Preselection *)
Definition acm_frame u u' : Prop :=
  u_l u' = u_l u /\ u_exploit u' = u_exploit u /\ u_model u' = u_model u /\ u_train_err u' = u_train_err u /\
  u_nsteps u' = u_nsteps u /\ u_auto u' = u_auto u /\ u_flags u' = u_flags u /\ u_lambdap u' = u_lambdap u /\
  u_prelam u' = u_prelam u /\ u_since u' = u_since u /\ keep (u_st u') = keep (u_st u) /\ s_num (t_sol (u_st u')) = s_num (t_sol (u_st u)).
Lemma sel_acm u u' : sel_frame u u' -> acm_frame u u'.
Proof. unfold sel_frame, acm_frame. intros H. decompose [and] H. repeat (split; [assumption|]). assumption. Qed.
Lemma acm_frame_trans a b c : acm_frame a b -> acm_frame b c -> acm_frame a c.
Proof. unfold acm_frame. intros H1 H2. decompose [and] H1. decompose [and] H2. repeat (split; [congruence|]). congruence. Qed.

Definition below_max : Prop := forall k x, dlt (e_f e k x) dbl_max = true.
Lemma sort_candidates_spec (s s' : sol T N) : sort_candidates s = Ok s' -> s' = set_s_cands (sort_cands (s_cands s)) s.
Proof. unfold sort_candidates. destruct (compares_ok _); [|discriminate]. intros H. now apply Ok_inj in H. Qed.
Lemma compute_error_nan test u err : compute_error so test u = Ok err -> cand_sort_ok so ->
  (length test < 2)%nat /\ err = None \/ (2 <= length test)%nat /\ unit_error err.
Proof.
  unfold compute_error. intros H S. inv_do H. apply std_sort_c_spec in H0 as [P _]; auto. apply Ok_inj in H. subst err.
  apply Permutation_length in P. rewrite P. destruct (Z.ltb_spec (Z.of_nat (length test)) 2); [left; split; [lia|auto]|right].
  split; [lia|]. eexists. split; [reflexivity|]. rewrite <- P in *.
  set (l := predict so u a). assert (L : length l = length a) by apply predict_spec. rewrite <- L in *. clearbody l. clear P L a test u.
  assert (B : (2 * inversions l <= length l * (length l - 1))%nat).
  { clear H. induction l as [|c l IH]; cbn [inversions length]; [lia|].
    pose proof (filter_length_le (fun d => negb (dle (c_f d) (c_f c))) l). destruct l; cbn [length] in *; nia. }
  set (n := length l) in *. set (k := inversions l) in *. clearbody n k.
  assert (PQ : (0 < inject_Z (Z.of_nat n * (Z.of_nat n - 1)))%Q) by (rewrite <- (Zlt_Qlt 0); nia).
  split.
  - apply Qmult_le_0_compat; [rewrite <- (Zle_Qle 0); lia|]. apply Qle_shift_div_l; auto. ring_simplify. discriminate.
  - setoid_replace (inject_Z (Z.of_nat k) * (2 / inject_Z (Z.of_nat n * (Z.of_nat n - 1))))%Q
      with (inject_Z (2 * Z.of_nat k) / inject_Z (Z.of_nat n * (Z.of_nat n - 1)))%Q.
    2:{ set (D := inject_Z (Z.of_nat n * (Z.of_nat n - 1))) in *. clearbody D. rewrite inject_Z_mult. change (inject_Z 2) with 2%Q. field. intros Q. rewrite Q in PQ. discriminate. }
    apply Qle_shift_div_r; auto. rewrite Qmult_1_l, <- Zle_Qle. nia.
Qed.
Lemma pre_selection_spec fuel cols u u' : pre_selection_eval so e g fuel cols u = Ok u' ->
  exists test err sl, evals u test u' /\ acm_frame u u' /\ Z.of_nat (length test) = Z.max 1 (u_lambdap u) /\
    t_gens (u_st u') = t_gens (u_st u) ++ [test] /\
    compute_error so test sl = Ok err /\ u_test_err u' = err /\
    u_smooth u' = u_smooth (set_test_error err u) /\
    (cand_sort_ok so -> length (s_cands (t_sol (u_st u'))) = Nat.max 1 (g_lambda g) /\
       (below_max -> exists c, nth_error (s_cands (t_sol (u_st u'))) 0 = Some c /\ evaluated e u' c)).
Proof.
  unfold pre_selection_eval. intros H. inv_do H. rename a into sl, H0 into Hsl. apply sort_candidates_spec in Hsl.
  inv_do H. rename a into c0, H0 into Hc0. inv_do H. destruct a as [nc0 k0']. rename H0 into Hs0. cbn [fst snd] in H.
  set (u1 := set_u_k0 k0' (set_u_st (set_t_sol sl (u_st u)) u)) in H. inv_do H. rename a into nc1, H0 into Hnc1.
  inv_do H. destruct a as [[nc2 test2] u2]. rename H0 into He. inv_do H. destruct a as [[[nc3 test3] used] u3]. rename H0 into Hs1.
  inv_do H. rename a into nc4, H0 into Hnc4. inv_do H. rename a into err, H0 into Herr. apply Ok_inj in H. subst u'.
  apply eval_one_evals in He as (d & Etest & E1 & F1 & L1 & Enc2 & _). cbn [app] in Etest. subst test2.
  apply select1_spec in Hs1 as (added & -> & E2 & F2 & L3 & X3 & C2 & U2 & V2 & W2 & A2).
  assert (L : u_l u2 = u_l u1) by apply F1.
  pose proof (evals_trans _ _ _ _ _ E1 E2 L) as E. set (test := [d] ++ added) in *.
  exists test, err, u3.
  assert (LT : t_log (u_st u1) = t_log (u_st u)) by reflexivity.
  assert (NT : t_nevals (u_st u1) = t_nevals (u_st u) /\ s_nevals (t_sol (u_st u1)) = s_nevals (t_sol (u_st u))) by (subst sl; split; reflexivity).
  set (u' := set_u_st _ _). 
  assert (E' : evals u test u').
  { destruct E as (lg & B1 & B2 & B3 & B4 & B5 & B6). exists lg. split; auto. split; [exact B2|].
    split; [exact B3|]. split; [unfold u'; ucbn; cbn [t_nevals set_t_gens set_t_sol]; rewrite <- (proj1 NT); exact B4|].
    split; [unfold u'; ucbn; cbn [t_sol set_t_gens set_t_sol s_nevals set_s_cands]; rewrite <- (proj2 NT); exact B5|exact B6]. }
  pose proof (sel_acm _ _ (sel_frame_trans _ _ _ F1 F2)) as F.
  split; [exact E'|]. split; [|split; [|split; [|split; [|split; [|split]]]]].
  - assert (F0 : acm_frame u u1) by (unfold acm_frame; subst sl; repeat split).
    assert (F9 : acm_frame u3 u') by (unfold acm_frame; repeat split).
    apply (acm_frame_trans _ _ _ F0), (acm_frame_trans _ _ _ F F9).
  - assert (LP : u_lambdap u2 = u_lambdap u) by apply F1. unfold test. rewrite app_length. cbn [length]. rewrite LP in C2. lia.
  - assert (G : t_gens (u_st u3) = t_gens (u_st u)) by (destruct (sel_frame_trans _ _ _ F1 F2) as (_ & _ & _ & _ & _ & _ & _ & _ & _ & _ & _ & _ & G & _); exact G).
    unfold u'. ucbn. cbn [t_gens set_t_gens set_t_sol u_st set_test_error set_u_test_err set_u_smooth]. rewrite G. reflexivity.
  - exact Herr.
  - reflexivity.
  - assert (G : u_smooth u3 = u_smooth u) by (destruct (sel_frame_trans _ _ _ F1 F2) as (_ & _ & _ & _ & _ & G & _); exact G).
    unfold u', set_test_error. ucbn. rewrite G. reflexivity.
  - intros CS. apply std_sort_c_spec in Hnc4 as [P4 S4]; auto. apply std_sort_c_spec in Hnc1 as [P1 _]; auto.
    assert (LL : length nc4 = Nat.max 1 (g_lambda g)).
    { rewrite (Permutation_length P4), (proj1 (fill_max_spec _ _ _)), L3, Enc2, app_length, firstn_length_le by lia. cbn [length]. rewrite skipn_length.
      rewrite (Permutation_length P1) in *. apply select0_spec in Hs0; cbn [length]; lia. }
    split; [exact LL|]. intros BM. change (s_cands (t_sol (u_st u'))) with nc4.
    destruct nc4 as [|h nc4]; [cbn [length] in LL; lia|]. exists h. split; auto.
    assert (AE : all_evaluated u' used nc3).
    { assert (Q : all_evaluated u3 used nc3); [|intros i Hi; destruct (Q i Hi) as (c & Hc & (j & y & Z1 & Z2)); exists c; split; auto; exists j, y; split; auto].
      apply A2. intros i [<-|[]]. exists d. split; [rewrite Enc2, nth_error_upd by lia; reflexivity|]. apply (evals_in u1 [d] u2); auto. cbn; auto. }
    assert (H0 : In 0%nat used) by (apply U2; cbn; auto).
    destruct (AE 0%nat H0) as (z & Hz & Ez).
    assert (Hh : In h (fill_max 0 used nc3)) by (apply (Permutation_in _ P4); cbn; auto).
    apply In_nth_error in Hh as [j Hj]. apply fill_max_spec in Hj as (d0 & Hd0 & Hx & [[Hj <-]|Hj]).
    + cbn [Nat.add] in Hj. destruct Hj as [->|Hj]; [rewrite Hz in Hd0; injection Hd0 as <-; auto|].
      destruct (AE j Hj) as (z' & Hz' & Ez'). rewrite Hz' in Hd0. injection Hd0 as <-. auto.
    + exfalso. assert (Hz0 : In z (h :: nc4)).
      { apply (Permutation_in _ (Permutation_sym P4)). apply (nth_error_In _ 0). rewrite fill_max_used by auto. auto. }
      destruct Ez as (i & y & _ & _ & Ez). pose proof (BM i y) as Lt. rewrite <- Ez in Lt. destruct Hz0 as [->|Hz0].
      * rewrite Hj in Lt. now vm_compute in Lt.
      * apply In_nth_error in Hz0 as [q Hq]. assert (Q := S4 0%nat (S q) h z ltac:(lia) eq_refl Hq).
        unfold asc_rank in Q. rewrite Hj, Lt in Q. discriminate.
Qed.
Lemma acm_eval_spec fuel cols phen u u' : acm_eval so no e g fuel cols phen u = Ok u' ->
  (u_exploit u && full u = false /\ real_eval cols phen u u') \/
  (u_exploit u && full u = true /\ pre_selection_eval so e g fuel cols u = Ok u').
Proof.
  unfold acm_eval. destruct (u_exploit u && full u); [auto|]. intros H. left. split; auto. inv_do H.
  apply test_step_spec in H0 as (te & sm & ->). apply true_eval_spec in H as (s & E & ->). ucbn.
  exists (u_flags u), (u_nsteps u), te, sm, s. split; [destruct u; exact E|]. destruct u; reflexivity.
Qed.

(** ask *)
Lemma simple_ask_spec u pop u' : simple_ask no e g u = Ok (pop, u') ->
  exists s, ask no e (with_flags g u) (u_st u) = Ok (pop, s) /\ u' = set_u_st s u.
Proof. unfold simple_ask, lift_ask. intros H. inv_do H. destruct a as [p s]. apply Ok_inj in H. injection H as <- <-. eauto. Qed.
Lemma acm_ask_spec u pop u' : acm_ask no e g u = Ok (pop, u') ->
  exists u1 lam s, (if t_niter (u_st u) =? 0 then exists p, u1 = reset_training_set (set_u_prelam p u) else u1 = u) /\
    lam = (if u_exploit u1 && full u1 then Z.to_nat (u_prelam u1) else g_lambda g) /\
    ask no e (set_g_lambda lam (with_flags g u1)) (u_st u1) = Ok (pop, s) /\ u' = set_u_st s u1.
Proof.
  unfold acm_ask, lift_ask. intros H. inv_do H. destruct a as [p s]. apply Ok_inj in H. injection H as <- <-.
  set (u1 := if t_niter (u_st u) =? 0 then _ else _) in *. exists u1.
  exists (if u_exploit u1 && full u1 then Z.to_nat (u_prelam u1) else g_lambda g), s. split.
  - unfold u1. destruct (t_niter (u_st u) =? 0); auto. destruct (u_tset u).
    + exists (u_prelam u). destruct u; reflexivity.
    + eauto.
  - split; auto. split; auto. destruct (u_exploit u1 && full u1); auto.
Qed.

(** tell *)
Lemma simple_tell_spec u u' : simple_tell so no e g u = Ok u' ->
  exists s m, tell no e (with_flags g u) (u_st u) = Ok s /\ u' = set_u_model m (set_u_st s u).
Proof.
  unfold simple_tell. intros H. inv_do H. inv_do H. apply Ok_inj in H. subst u'. exists a. destruct a0.
  - unfold train. eexists. split; eauto.
  - exists (u_model u). split; auto.
Qed.
Lemma acm_tell_spec u u' : acm_tell so no u = Ok u' ->
  exists s1 s2 m te, s1 = (if u_exploit u && full u then t_sol (u_st u) else set_s_cands (sort_cands (s_cands (t_sol (u_st u)))) (t_sol (u_st u))) /\
    update_best_candidates no s1 = Ok s2 /\
    (te = u_train_err u \/ full u = true /\ exists u1, u_tset u1 = u_tset u /\ compute_error so (u_tset u) u1 = Ok te) /\
    u' = set_u_train_err te (set_u_model m (set_u_st
      (set_t_sol (set_s_num (n_update no (s_niter s2) (map c_x (s_cands s2)) (s_num s2)) s2) (u_st u)) u)).
Proof.
  unfold acm_tell. intros H. inv_do H. rename a into s1. inv_do H. rename a into s2. exists s1, s2.
  assert (E1 : s1 = (if u_exploit u && full u then t_sol (u_st u) else set_s_cands (sort_cands (s_cands (t_sol (u_st u)))) (t_sol (u_st u)))).
  { rewrite <- negb_andb in H0. destruct (u_exploit u && full u); cbn [negb] in H0; [now apply Ok_inj in H0|now apply sort_candidates_spec]. }
  inv_do H. rename a into b. destruct b.
  - inv_do H. apply Ok_inj in H. subst u'. unfold train in *. eexists _, _. split; [exact E1|]. split; [auto|].
    split; [|reflexivity]. right. split; [|eexists; split; [|exact H3]; reflexivity].
    unfold acm_do_train in H2. unfold full in H2 |- *. ucbn. destruct (u_l u <=? Z.of_nat (length (u_tset u))); auto.
    inv_do H2. apply Ok_inj in H2. rewrite andb_false_r in H2. discriminate.
  - apply Ok_inj in H. subst u'. exists (u_model u), (u_train_err u). split; auto.
Qed.
End Inv.
