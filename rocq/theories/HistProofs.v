(** Ranking, histories, best and worst seen without elitism. *)
From Coq Require Import Permutation.
From Verif Require Import Base Dbl DblProofs Config Search SpecSearch SortProofs SearchInv CounterProofs.
Local Open Scope Z_scope.

Lemma skipn_snoc {A} k (l : list A) x : (k <= length l)%nat -> skipn k (l ++ [x]) = skipn k l ++ [x].
Proof. intros H. rewrite skipn_app. replace (k - length l)%nat with 0%nat by lia. auto. Qed.
Lemma tl_skipn {A} k (l : list A) : tl (skipn k l) = skipn (S k) l.
Proof. revert l; induction k; intros [|x l]; cbn; auto. rewrite IHk. destruct l; auto. Qed.
Lemma lastn_length {A} k (l : list A) : length (lastn k l) = Nat.min k (length l).
Proof. unfold lastn. rewrite skipn_length. lia. Qed.
Lemma lastn_snoc {A} m (l : list A) x : (1 <= m)%nat ->
  drop_if (m <? S (length (lastn m l)))%nat (lastn m l ++ [x]) = lastn m (l ++ [x]).
Proof.
  intros Hm. rewrite lastn_length. destruct (Nat.ltb_spec m (S (Nat.min m (length l)))).
  - assert (m <= length l)%nat by lia. cbn [drop_if]. unfold lastn. rewrite app_length. cbn [length].
    replace (length l + 1 - m)%nat with (S (length l - m)) by lia.
    rewrite skipn_snoc by lia. rewrite <- tl_skipn.
    destruct (skipn (length l - m) l) eqn:E; [|reflexivity].
    apply (f_equal (@length A)) in E. rewrite skipn_length in E. cbn in E. lia.
  - assert (length l < m)%nat by lia. cbn [drop_if]. unfold lastn. rewrite app_length. cbn [length].
    replace (length l - m)%nat with 0%nat by lia. replace (length l + 1 - m)%nat with 0%nat by lia. reflexivity.
Qed.
Lemma drop_if_snoc {A B} (m : Z) (l : list A) (h : list B) x y : 1 <= m -> length h = Nat.min (Z.to_nat m) (length l) ->
  drop_if (m <? Z.of_nat (length (h ++ [y]))) (lastn (Z.to_nat m) l ++ [x]) = lastn (Z.to_nat m) (l ++ [x]).
Proof.
  intros Hm Hl. rewrite <- lastn_snoc by lia. f_equal.
  rewrite lastn_length, app_length. cbn [length]. rewrite Hl.
  destruct (Z.ltb_spec m (Z.of_nat (Nat.min (Z.to_nat m) (length l) + 1))), (Nat.ltb_spec (Z.to_nat m) (S (Nat.min (Z.to_nat m) (length l)))); auto; lia.
Qed.
Lemma map_lastn {A B} (f : A -> B) k l : map f (lastn k l) = lastn k (map f l).
Proof. unfold lastn. rewrite map_length. generalize (length l - k)%nat. intros n; revert l; induction n; intros [|x l]; cbn; auto. Qed.

Lemma order_stat_perm k l m v : Permutation l m -> order_stat k l v -> order_stat k m v.
Proof.
  intros P (H1 & H2 & H3). split; [eapply Permutation_in; eauto|].
  rewrite <- (filter_perm_length _ _ _ P), <- (filter_perm_length _ _ _ P). auto.
Qed.

Section Hist.
Context {T N : Type}.
Variable no : numops T N.
Variable e : env T N.
Variable g : cfg T.
Notation st := (st T N).
Implicit Types (s : st).
Hypothesis HS : samples_ok no.
Hypothesis HN : no_nan e.
Hypothesis HU : g_uh g = false.
Hypothesis HE : no_elitism g.

Definition kth : Z := Z.min (Z.of_nat (g_lambda g) - 1) (1 + cdiv (2 + 5 * Z.of_nat (g_lambda g)) 20).
Definition hist_len : Z := if 0 <? g_max_hist g then g_max_hist g else 10 + 30 * Z.of_nat (g_dim g) / Z.of_nat (g_lambda g).
Lemma hist_len_pos : 1 <= hist_len.
Proof.
  unfold hist_len. destruct (Z.ltb_spec 0 (g_max_hist g)); [lia|].
  assert (0 <= 30 * Z.of_nat (g_dim g) / Z.of_nat (g_lambda g)); [|lia].
  destruct (Z.eq_dec (Z.of_nat (g_lambda g)) 0) as [->|]; [now rewrite Zdiv_0_r|].
  apply Z.div_pos; lia.
Qed.

(** The history members against the sequence of generations. *)
Definition hist_ok s := exists bests kths meds older,
  let G := t_gens s in
  map Some bests = map first_min G /\
  s_hist (t_sol s) = lastn (Z.to_nat hist_len) bests /\
  length kths = length G /\
  (forall i gen c, nth_error G i = Some gen -> nth_error kths i = Some c ->
     In c gen /\ order_stat (Z.to_nat kth) (map c_f gen) (c_f c)) /\
  s_khist (t_sol s) = lastn (Z.to_nat hist_len) kths /\
  s_bf (t_sol s) = lastn 20 (map c_f bests) /\
  length meds = length G /\
  (forall i gen m, nth_error G i = Some gen -> nth_error meds i = Some m -> is_median (map c_f gen) m) /\
  meds = older ++ s_med (t_sol s).
Definition base_ok s :=
  length (s_cands (t_sol s)) = g_lambda g /\ s_kcand (t_sol s) = kth /\ s_maxhist (t_sol s) = hist_len /\
  s_niter (t_sol s) = Z.of_nat (length (t_gens s)) /\ t_niter s = s_niter (t_sol s) /\
  (forall gen, In gen (t_gens s) -> length gen = g_lambda g /\ nonan gen).
Definition last_ok s :=
  t_gens s = [] \/ exists before gen, t_gens s = before ++ [gen] /\ s_cands (t_sol s) = sort_cands gen.
Definition log_ok s := forall gen c, In gen (t_gens s) -> In c gen -> exists y, In (y, c_f c) (t_log s).
Definition best_ok s :=
  (t_gens s = [] /\ (s_best (t_sol s) = cand0 \/ c_f (s_best (t_sol s)) <> NaN)) \/
  (t_gens s <> [] /\ c_f (s_best (t_sol s)) <> NaN /\
   forall gen c, In gen (t_gens s) -> In c gen -> dle (c_f (s_best (t_sol s))) (c_f c) = true).
Definition best_from s :=
  s_best (t_sol s) = s_init (t_sol s) \/ exists gen, In gen (t_gens s) /\ In (s_best (t_sol s)) gen.
Definition worst_ok s :=
  (t_gens s = [] /\ s_worst (t_sol s) = cand0) \/
  (t_gens s <> [] /\ c_f (s_worst (t_sol s)) <> NaN /\
   (exists gen, In gen (t_gens s) /\ In (s_worst (t_sol s)) gen) /\
   forall gen c, In gen (t_gens s) -> In c gen -> dle (c_f c) (c_f (s_worst (t_sol s))) = true).
Definition hinv s := hist_ok s /\ base_ok s /\ last_ok s /\ log_ok s /\ best_ok s /\ best_from s /\ worst_ok s.

Lemma new_gen_nonan r k cols phen old : nonan (new_gen e r k cols phen old).
Proof.
  revert r k; induction cols as [|x cols IH]; intros r k c Hc; cbn in Hc; [destruct Hc|].
  destruct Hc as [<-|Hc]; [cbn; apply HN|eapply IH; eauto].
Qed.
Lemma new_gen_log r k cols phen old c : In c (new_gen e r k cols phen old) ->
  exists y, In (y, c_f c) (eval_from e k (new_points r cols phen)).
Proof.
  intros H. apply (in_map c_f) in H. rewrite new_gen_f in H. apply in_map_iff in H as ([y v] & E & H).
  cbn in E. subst. eauto.
Qed.

(** One generation on a state of lambda candidates. *)
Lemma gen_effect s cols phen s1 s2 : length (s_cands (t_sol s)) = g_lambda g -> length cols = g_lambda g ->
  eval no e g cols phen s = Ok s1 -> tell no e g s1 = Ok s2 ->
  let gen := new_gen e 0 (length (t_log s)) cols phen (s_cands (t_sol s)) in
  s_cands (t_sol s2) = sort_cands gen /\ t_gens s2 = t_gens s ++ [gen] /\
  (exists l, t_log s2 = t_log s ++ l /\ forall c, In c gen -> exists y, In (y, c_f c) l).
Proof.
  intros HL HC He Ht gen. apply eval_spec in He as (A1 & A2 & A3 & A4 & A5 & _ & _ & _ & (ys & A6 & A7 & _) & A8 & _).
  apply tell_effect in Ht as (B1 & B2 & _ & _ & _ & _ & _ & _ & _ & _ & _ & _ & B3 & _).
  destruct (B3 HU) as [B4 _].
  assert (Hel : elit_on g s = false) by (unfold elit_on; rewrite HE; cbn; rewrite !andb_false_r; auto).
  destruct A8 as [[A8 _]|(E & _)]; [|congruence].
  unfold mid_cands in A8. rewrite skipn_all2 in A8 by lia. rewrite app_nil_r in A8.
  split; [rewrite B4, A8; auto|]. split; [rewrite B2, A4; auto|].
  exists (eval_from e (length (t_log s)) (new_points 0 cols phen)). rewrite B1, A6, A7 by auto. rewrite app_nil_r.
  split; auto. intros c Hc. apply new_gen_log in Hc. auto.
Qed.

Lemma hinv_gen s cols phen s1 s2 : hinv s -> length cols = g_lambda g ->
  eval no e g cols phen s = Ok s1 -> tell no e g s1 = Ok s2 -> hinv (inc_iter s2).
Proof.
  intros (Hh & Hb & Hl & Hlog & Hbest & Hfrom & Hworst) HC He Ht.
  destruct Hb as (Hb1 & Hb2 & Hb3 & Hb4 & Hb5 & Hb6).
  destruct (gen_effect s cols phen s1 s2 Hb1 HC He Ht) as (Gc & Gg & l & Glog & Gin).
  set (gen := new_gen e 0 (length (t_log s)) cols phen (s_cands (t_sol s))) in *.
  assert (Gn : nonan gen) by apply new_gen_nonan.
  assert (Gl : length gen = g_lambda g) by (unfold gen; rewrite new_gen_length; auto).
  apply eval_spec in He as (_ & _ & K & _). unfold keep in K.
  injection K as K1 K2 K3 K4 K5 K6 K7 K8 K9 K10 K11 K12 K13 K14 K15.
  apply tell_effect in Ht as (_ & _ & _ & T1 & _ & _ & _ & T2 & T3 & T4 & T5 & _ & _ & c0 & ck & cl & m & rest & lim & C1 & C2 & C3 & C4 & C5 & C6 & C7 & C8 & C9 & C10 & C11 & C12 & C13).
  rewrite K1, K2, K3, K4, K5, K6, K7, K8, K9, K10, K11, K13 in *.
  unfold best_take in C9, C10. unfold worst_take in C11. rewrite K5, K9 in C9. rewrite K5, K9 in C10. rewrite K7, K9 in C11.
  rewrite Gc in *.
  assert (F0 : first_min gen = Some c0) by (rewrite <- sort_first_min; destruct (sort_cands gen); auto).
  assert (L0 : forall d, In d gen -> dle (c_f c0) (c_f d) = true) by (apply first_min_le; auto).
  assert (I0 : In c0 gen) by (apply first_min_in; auto).
  assert (Il : In cl gen) by (apply sort_in; rewrite C4; rewrite in_app_iff; right; left; auto).
  assert (Ll : forall d, In d gen -> dle (c_f d) (c_f cl) = true).
  { intros d Hd. apply sort_in in Hd. apply In_nth_error in Hd as [i Hi].
    assert (i < length (sort_cands gen))%nat by (apply nth_error_Some; congruence).
    eapply (asc_nth_le (sort_cands gen) (nonan_sort _ Gn) (sort_asc _ Gn) i (length (sort_cands gen) - 1)); eauto; [lia|].
    rewrite C4, nth_error_app2; rewrite app_length; cbn; [|lia]. replace (length rest + 1 - 1 - length rest)%nat with 0%nat by lia. auto. }
  assert (OS : forall k c, nth_error (sort_cands gen) k = Some c -> order_stat k (map c_f gen) (c_f c)).
  { intros k c Hk. apply (order_stat_perm k (map c_f (sort_cands gen))); [apply Permutation_map, sort_perm|].
    apply asc_order_stat; auto. apply nonan_sort; auto. apply sort_asc; auto. }
  unfold hinv. split.
  { destruct Hh as (bests & kths & meds & older & H1 & H2 & H3 & H4 & H5 & H6 & H7 & H8 & H9).
    exists (bests ++ [c0]), (kths ++ [ck]), (meds ++ [m]).
    assert (Lb : length bests = length (t_gens s)) by (apply (f_equal (@length _)) in H1; rewrite !map_length in H1; auto).
    assert (HL1 : length (s_hist (t_sol s)) = Nat.min (Z.to_nat hist_len) (length bests)) by (rewrite H2; apply lastn_length).
    exists (if lim <? Z.of_nat (length (s_med (t_sol s) ++ [m])) then older ++ firstn 1 (s_med (t_sol s) ++ [m]) else older).
    cbn [inc_iter t_gens set_t_sol set_t_niter t_sol set_s_niter s_hist s_khist s_bf s_med].
    rewrite Gg, C5, C6, C7, C8, Hb3.
    split; [rewrite !map_app, H1; cbn; rewrite F0; auto|].
    split. { rewrite H2 at 2. apply drop_if_snoc; auto. apply hist_len_pos. }
    split; [rewrite !app_length, H3; auto|].
    split.
    { intros i gn c Hi Hc. destruct (Nat.lt_ge_cases i (length (t_gens s))) as [Hlt|Hge].
      - rewrite nth_error_app1 in Hi by auto. rewrite nth_error_app1 in Hc by lia. eapply H4; eauto.
      - assert (i = length (t_gens s)).
        { assert (i < length (t_gens s ++ [gen]))%nat by (apply nth_error_Some; congruence). rewrite app_length in H; cbn in H; lia. }
        subst i. rewrite nth_error_app2, Nat.sub_diag in Hi by lia. rewrite nth_error_app2, H3, Nat.sub_diag in Hc by lia.
        injection Hi as <-. injection Hc as <-. rewrite <- Hb2. split; auto.
        apply sort_in. eapply nth_error_In; eauto. }
    split. { rewrite H5. apply drop_if_snoc; [apply hist_len_pos|lia]. }
    split. { rewrite map_app. cbn [map]. change 20%nat with (Z.to_nat 20). rewrite H6. apply drop_if_snoc; [lia|].
      change 20%nat with (Z.to_nat 20). apply lastn_length. }
    split; [rewrite !app_length, H7; auto|].
    split.
    { intros i gn c Hi Hc. destruct (Nat.lt_ge_cases i (length (t_gens s))) as [Hlt|Hge].
      - rewrite nth_error_app1 in Hi by auto. rewrite nth_error_app1 in Hc by lia. eapply H8; eauto.
      - assert (i = length (t_gens s)).
        { assert (i < length (t_gens s ++ [gen]))%nat by (apply nth_error_Some; congruence). rewrite app_length in H; cbn in H; lia. }
        subst i. rewrite nth_error_app2, Nat.sub_diag in Hi by lia. rewrite nth_error_app2, H7, Nat.sub_diag in Hc by lia.
        injection Hi as <-. injection Hc as <-. unfold is_median. rewrite map_length. cbn zeta in C13 |- *. rewrite sort_length in C13.
        destruct (Nat.even (length gen)).
        + destruct C13 as (a & b & Ha & Hb' & ->). exists (c_f a), (c_f b). auto.
        + destruct C13 as (a & Ha & ->). auto. }
    rewrite H9. destruct (lim <? _); cbn [drop_if]; rewrite <- !app_assoc; f_equal.
    destruct (s_med (t_sol s) ++ [m]) eqn:E; auto. }
  split.
  { unfold base_ok. cbn [inc_iter t_gens set_t_sol set_t_niter t_sol set_s_niter s_cands s_kcand s_maxhist s_niter t_niter].
    rewrite Gc, sort_length, T2, T4, T5, T1, Gg, app_length. cbn [length].
    split; auto. split; auto. split; auto. split; [lia|]. split; [lia|].
    intros gn Hg. apply in_app_iff in Hg as [Hg|[<-|[]]]; auto. }
  split. { right. exists (t_gens s), gen. cbn. auto. }
  split.
  { unfold log_ok. cbn [inc_iter t_gens set_t_sol set_t_niter t_sol t_log]. rewrite Gg, Glog. intros gn c Hg Hc.
    apply in_app_iff in Hg as [Hg|[<-|[]]].
    - destruct (Hlog gn c Hg Hc) as [y Hy]. exists y. apply in_app_iff; auto.
    - destruct (Gin c Hc) as [y Hy]. exists y. apply in_app_iff; auto. }
  split.
  { right. cbn [inc_iter t_gens set_t_sol set_t_niter t_sol set_s_niter s_best]. rewrite Gg, C9.
    split; [destruct (t_gens s); discriminate|].
    assert (NN : c_f c0 <> NaN) by (apply Gn; auto).
    destruct Hbest as [[E Hbest]|(E & Hbn & Hbest)].
    - rewrite E in *. cbn [length] in Hb4. rewrite Hb4. cbn [Z.of_nat Z.eqb andb app].
      destruct (match c_x (s_best (t_sol s)) with [] => true | _ => false end || dlt (c_f c0) (c_f (s_best (t_sol s)))) eqn:Et.
      + split; auto. intros gn c [<-|[]] Hc. auto.
      + apply orb_false_iff in Et as [Et1 Et2].
        destruct Hbest as [Eb|Hbn]; [rewrite Eb in Et1; discriminate|]. split; auto.
        intros gn c [<-|[]] Hc. eapply dle_trans; [|apply L0; auto]. apply dlt_false_le; auto.
    - destruct (s_niter (t_sol s) =? 0) eqn:E0; [apply Z.eqb_eq in E0; destruct (t_gens s); [congruence|cbn in Hb4; lia]|].
      cbn [andb orb]. destruct (dlt (c_f c0) (c_f (s_best (t_sol s)))) eqn:Et.
      + split; auto. intros gn c Hg Hc. apply in_app_iff in Hg as [Hg|[<-|[]]]; auto.
        apply dlt_dle. eapply dlt_le_trans; eauto.
      + split; auto. intros gn c Hg Hc. apply in_app_iff in Hg as [Hg|[<-|[]]]; eauto.
        eapply dle_trans; [|apply L0; auto]. apply dlt_false_le; auto. }
  split.
  { unfold best_from. cbn [inc_iter t_gens set_t_sol set_t_niter t_sol set_s_niter s_best s_init]. rewrite Gg, C9, T3.
    destruct (_ || _).
    - right. exists gen. split; auto. apply in_app_iff; right; left; auto.
    - destruct Hfrom as [Hf|(gn & Hg & Hi)]; [left; congruence|]. right. exists gn. split; auto. apply in_app_iff; auto. }
  { right. cbn [inc_iter t_gens set_t_sol set_t_niter t_sol set_s_niter s_worst]. rewrite Gg, C11.
    split; [destruct (t_gens s); discriminate|].
    assert (NN : c_f cl <> NaN) by (apply Gn; auto).
    destruct Hworst as [[E Hw]|(E & Hwn & Hwi & Hw)].
    - rewrite E in *. cbn [length] in Hb4. rewrite Hb4, Hw. cbn [Z.of_nat Z.eqb andb app cand0 c_x orb].
      split; auto. split; [exists gen; split; auto; left; auto|]. intros gn c [<-|[]] Hc. auto.
    - destruct (s_niter (t_sol s) =? 0) eqn:E0; [apply Z.eqb_eq in E0; destruct (t_gens s); [congruence|cbn in Hb4; lia]|].
      cbn [andb orb]. destruct (dlt (c_f (s_worst (t_sol s))) (c_f cl)) eqn:Et.
      + split; auto. split; [exists gen; split; auto; apply in_app_iff; right; left; auto|].
        intros gn c Hg Hc. apply in_app_iff in Hg as [Hg|[<-|[]]]; auto.
        apply dlt_dle. eapply dle_lt_trans; eauto.
      + split; auto. split; [destruct Hwi as (gn & Hg & Hi); exists gn; split; auto; apply in_app_iff; auto|].
        intros gn c Hg Hc. apply in_app_iff in Hg as [Hg|[<-|[]]]; eauto.
        eapply dle_trans; [apply Ll; auto|]. apply dlt_false_le; auto. }
Qed.

Lemma hinv_calls s s' : only_calls s s' -> hinv s -> hinv s'.
Proof.
  intros (K & G & C & l & L & _) H. unfold keep in K.
  injection K as K1 K2 K3 K4 K5 K6 K7 K8 K9 K10 K11 K12 K13 K14 K15.
  unfold hinv, hist_ok, base_ok, last_ok, log_ok, best_ok, best_from, worst_ok in *.
  rewrite K1, K2, K3, K4, K5, K7, K8, K9, K10, K11, K13, G, C. cbn zeta in *.
  destruct H as (H1 & H2 & H3 & H4 & H5). split; [exact H1|]. split; [exact H2|]. split; [exact H3|]. split; [|exact H5].
  intros gen c Hg Hc. destruct (H4 gen c Hg Hc) as [y Hy]. exists y. rewrite L. apply in_app_iff; auto.
Qed.
Lemma hinv_status s r : hinv s -> hinv (set_t_sol (set_s_status r (t_sol s)) s).
Proof. intros H; exact H. Qed.
Lemma hinv_stop s b s' : hinv s -> stop no e g s = Ok (b, s') -> hinv s'.
Proof. intros HP H. apply stop_spec in H as [(_ & -> & _)|(_ & _ & [(_ & _ & ->)|(_ & r & _ & _ & ->)])]; auto. Qed.

(** Evaluating the initial point before the first generation. *)
Lemma hinv_init s s' : t_gens s = [] -> hinv s -> eval_initial no e g s = Ok s' -> hinv s'.
Proof.
  intros E H Hi. apply eval_initial_spec in Hi as [(_ & ->)|(_ & y & _ & ->)]; auto.
  destruct H as (H1 & H2 & H3 & H4 & H5 & H6 & H7).
  split; [exact H1|]. split; [exact H2|]. split; [exact H3|].
  split; [intros gen c Hg; cbn in Hg; rewrite E in Hg; destruct Hg|].
  split; [left; split; [exact E|right; cbn; apply HN]|]. split; [left; reflexivity|exact H7].
Qed.
Lemma hinv_new x0 n s : st_new no g x0 n = Ok s -> hinv s /\ t_gens s = [].
Proof.
  intros H. apply st_new_spec in H as (Hl & so & H & ->). apply sol_new_spec in H as (_ & ->). split; auto.
  split. { exists [], [], [], []. cbn. repeat split; auto; try (match goal with |- context [nth_error [] ?j] => destruct j end; discriminate); intros; destruct i; discriminate. }
  split. { unfold base_ok; cbn. rewrite repeat_length. repeat (split; auto); intros; contradiction. }
  split; [left; auto|]. split; [intros gen c []|]. split; [left; auto|]. split; [left; auto|left; auto].
Qed.

Lemma no_restart s w : restart_wanted no g s = Ok w -> w = false.
Proof. unfold restart_wanted. rewrite HE. cbn. intros H; injection H as <-; auto. Qed.
Lemma wants_init_off s : t_initel s = false -> g_init_fvalue g = false -> wants_init g s = false.
Proof. intros H1 H2. unfold wants_init. rewrite H1, H2, HE. reflexivity. Qed.

Definition hinv' s := hinv s /\ t_initel s = false.
Lemma initel_kept : forall s s' : st, keep s' = keep s -> t_initel s = false -> t_initel s' = false.
Proof. intros s s' K. unfold keep in K. injection K as K1 K2 K3 K4 K5 K6 K7 K8 K9 K10 K11 K12 K13 K14 K15. congruence. Qed.
Lemma hinv'_ask s pop s' : hinv' s -> ask no e g s = Ok (pop, s') -> hinv' s' /\ length pop = g_lambda g.
Proof.
  intros [H1 H2] Ha. apply ask_spec in Ha as (O & L & _). split; auto. split; [eapply hinv_calls; eauto|].
  eapply initel_kept; [apply O|auto].
Qed.
Lemma hinv'_gen s cols phen s1 s2 : hinv' s -> length cols = g_lambda g ->
  eval no e g cols phen s = Ok s1 -> tell no e g s1 = Ok s2 -> hinv' (inc_iter s2).
Proof.
  intros [H1 H2] HC He Ht. split; [eapply hinv_gen; eauto|].
  apply eval_spec in He as (_ & _ & K & _). apply tell_effect in Ht as (_ & _ & _ & _ & TI & _).
  cbn. rewrite TI. eapply initel_kept; eauto.
Qed.
Lemma hinv'_stop s b s' : hinv' s -> stop no e g s = Ok (b, s') -> hinv' s'.
Proof.
  intros [H1 H2] H. split; [eapply hinv_stop; eauto|].
  apply stop_spec in H as [(_ & -> & _)|(_ & _ & [(_ & _ & ->)|(_ & r & _ & _ & ->)])]; auto.
Qed.
Lemma hinv'_edm s s' : hinv' s -> edm no e g s = Ok s' -> hinv' s'.
Proof. intros [H1 H2] H. apply edm_spec in H as (O & _). split; [eapply hinv_calls; eauto|eapply initel_kept; [apply O|auto]]. Qed.
Lemma hinv'_optimize rf fuel s r s' : (g_init_fvalue g = false \/ t_gens s = []) -> hinv' s ->
  optimize no e g (round no e g) rf fuel s = Ok (r, s') -> hinv' s'.
Proof.
  intros HI HP H. apply optimize_unfold in H as (s1 & s2 & s3 & w & H1 & H2 & H3 & H4 & H5 & H6).
  assert (P1 : hinv' s1).
  { destruct HI as [HI|HI].
    - apply eval_initial_spec in H1 as [(_ & ->)|(W & _)]; auto. rewrite wants_init_off in W; [discriminate|apply HP|auto].
    - destruct HP as [HP1 HP2]. split; [eapply hinv_init; eauto|].
      apply eval_initial_spec in H1 as [(_ & ->)|(_ & y & _ & ->)]; auto. }
  assert (P2 : hinv' s2).
  { refine (P_loop no e g hinv' (fun c => length c = g_lambda g) _ _ _ _ fuel s1 s2 P1 H2); intros.
    - eapply hinv'_ask; eauto.
    - eapply hinv'_ask; eauto.
    - eapply hinv'_gen; eauto.
    - eapply hinv'_stop; eauto. }
  assert (P3 : hinv' s3) by (destruct (g_edm g); [eapply hinv'_edm; eauto|subst; auto]).
  destruct H5 as [[_ ->]|(-> & _)]; auto. apply no_restart in H4. discriminate.
Qed.
Lemma hinv'_op o s s' : whole_gen g o -> (forall rf fuel, o = OOptimize rf fuel -> g_init_fvalue g = false \/ t_gens s = []) ->
  hinv' s -> do_op no e g o s = Ok s' -> hinv' s'.
Proof.
  destruct o; cbn [whole_gen do_op]; intros W HO HP H; try contradiction.
  - inv_do H. destruct a. injection H as <-. eapply hinv'_ask; eauto.
  - inv_do H. destruct a. injection H as <-. eapply hinv'_stop; eauto.
  - inv_do H. inv_do H. injection H as <-. eapply hinv'_gen; eauto.
  - inv_do H. destruct a. injection H as <-. eapply hinv'_optimize; [eapply HO; eauto|eauto|eauto].
Qed.
Lemma hinv'_ops h : forall s s', Forall (whole_gen g) h ->
  (g_init_fvalue g = false \/ forall rf fuel, ~ In (OOptimize rf fuel) h) ->
  hinv' s -> run_ops no e g h s = Ok s' -> hinv' s'.
Proof.
  induction h as [|o h IH]; intros s s' W HO HP H; cbn in H; [injection H as <-; auto|].
  inv_do H. inversion W; subst. eapply (IH a s'); auto.
  - destruct HO as [HO|HO]; [auto|right]. intros rf fuel Hi. apply (HO rf fuel). right; auto.
  - eapply hinv'_op; eauto. intros rf fuel ->. destruct HO as [HO|HO]; [auto|]. exfalso. apply (HO rf fuel). left; auto.
Qed.
Lemma hinv_run h x0 n s0 s : st_new no g x0 n = Ok s0 -> Forall (whole_gen g) h -> single_start g h ->
  run_ops no e g h s0 = Ok s -> hinv s.
Proof.
  intros H0 W HO H. destruct (hinv_new _ _ _ H0) as [Hi Hg].
  assert (Hi' : hinv' s0) by (split; auto; apply st_new_spec in H0 as (_ & so & _ & ->); auto).
  destruct h as [|o h]; cbn in H; [injection H as <-; auto|].
  inv_do H. inversion W; subst.
  assert (hinv' a) by (eapply hinv'_op; eauto).
  assert (hinv' s); [|apply H3]. eapply hinv'_ops; eauto.
Qed.
End Hist.
