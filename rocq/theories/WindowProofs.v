(** Histories of a search under every setting. *)
From Coq Require Import Permutation.
From Verif Require Import Base Dbl DblProofs Config Search SpecSearch SpecSafe SpecUh SpecWindow SortProofs SearchInv CounterProofs HistProofs UhProofs.
Local Open Scope Z_scope.

Lemma Forall2_snoc {A B} (P : A -> B -> Prop) l m a b : Forall2 P l m -> P a b -> Forall2 P (l ++ [a]) (m ++ [b]).
Proof. intros H Hab. apply Forall2_app; auto. Qed.
Lemma Forall2_len {A B} (P : A -> B -> Prop) l m : Forall2 P l m -> length m = length l.
Proof. induction 1; cbn; auto. Qed.

Lemma cdiv_bounds a b : 0 < b -> b * (cdiv a b - 1) < a <= b * cdiv a b.
Proof. intros H. unfold cdiv. pose proof (Z.div_mod (- a) b). pose proof (Z.mod_pos_bound (- a) b H). nia. Qed.
Lemma cdiv_unique a b q : 0 < b -> b * (q - 1) < a <= b * q -> cdiv a b = q.
Proof. intros H Q. pose proof (cdiv_bounds a b H). nia. Qed.
Section MedLimit.
Context {T : Type}.
Variable g : cfg T.
Hypothesis HL : (1 <= g_lambda g)%nat.
Lemma medians_limit_step t : (medians_limit g t <= medians_limit g (S t) <= S (medians_limit g t))%nat /\ (120 <= medians_limit g t)%nat.
Proof.
  unfold medians_limit. set (n := Z.of_nat (g_lambda g)). assert (1 <= n) by (unfold n; lia). assert (B5 : 0 < 5 * n) by lia.
  pose proof (cdiv_bounds (n * Z.of_nat t + 600 * n + 150 * Z.of_nat (g_dim g)) (5 * n) B5) as A.
  pose proof (cdiv_bounds (n * Z.of_nat (S t) + 600 * n + 150 * Z.of_nat (g_dim g)) (5 * n) B5) as B.
  rewrite Nat2Z.inj_succ in B.
  set (a := cdiv (n * Z.of_nat t + 600 * n + 150 * Z.of_nat (g_dim g)) (5 * n)) in *.
  rewrite Nat2Z.inj_succ. set (b := cdiv (n * Z.succ (Z.of_nat t) + 600 * n + 150 * Z.of_nat (g_dim g)) (5 * n)) in *.
  assert (120 <= a) by nia. assert (a <= b) by nia. assert (b <= a + 1) by nia.
  lia.
Qed.
End MedLimit.

Lemma lastn_all {A} k (l : list A) : (length l <= k)%nat -> lastn k l = l.
Proof. intros H. unfold lastn. replace (length l - k)%nat with 0%nat by lia. reflexivity. Qed.
(** A window whose limit grows by at most one with each entry. *)
Lemma lastn_grow {A} (lim : nat -> nat) (l : list A) x :
  (forall t, lim t <= lim (S t) <= S (lim t))%nat -> (1 <= lim 0)%nat ->
  let w := lastn (lim (length l - 1)%nat) l in
  drop_if (Z.of_nat (lim (length l)) <? Z.of_nat (length (w ++ [x]))) (w ++ [x]) = lastn (lim (length (l ++ [x]) - 1)%nat) (l ++ [x]).
Proof.
  intros Hs H0 w. replace (length (l ++ [x]) - 1)%nat with (length l) by (rewrite app_length; cbn; lia).
  assert (Hp : forall t, (1 <= lim t)%nat) by (induction t; auto; destruct (Hs t); lia).
  assert (LW : length w = Nat.min (lim (length l - 1)%nat) (length l)) by apply lastn_length.
  rewrite app_length. cbn [length].
  destruct (Nat.eq_dec (length l) 0) as [E|E].
  { destruct l; [|discriminate]. cbn in *. specialize (Hp 0%nat). unfold w. cbn.
    destruct (Z.ltb_spec (Z.of_nat (lim 0%nat)) 1); [lia|]. cbn [drop_if app]. symmetry. apply (lastn_all (lim 0%nat) [x]); auto. }
  destruct (Hs (length l - 1)%nat) as [S1 S2]. replace (S (length l - 1)) with (length l) in * by lia.
  set (a := lim (length l - 1)%nat) in *. set (b := lim (length l)) in *. specialize (Hp (length l)). fold b in Hp.
  destruct (Z.ltb_spec (Z.of_nat b) (Z.of_nat (length w + 1))) as [Hlt|Hge]; cbn [drop_if].
  - assert (b = a /\ a <= length l)%nat as [Eb Ha] by lia. rewrite Eb.
    pose proof (lastn_snoc a l x ltac:(lia)) as Q. fold w in Q. rewrite LW in Q.
    destruct (Nat.ltb_spec a (S (Nat.min a (length l)))); [exact Q|lia].
  - (* room for one more *)
    destruct (Nat.le_gt_cases (length l) a).
    + unfold w. rewrite lastn_all by lia. rewrite lastn_all; auto. rewrite app_length; cbn. lia.
    + assert (b = S a) by lia. unfold w, lastn. rewrite app_length. cbn [length].
      replace (length l + 1 - b)%nat with (length l - a)%nat by lia. rewrite skipn_snoc by lia. auto.
Qed.

Section Window.
Context {T N : Type}.
Variable no : numops T N.
Variable e : env T N.
Variable g : cfg T.
Notation st := (st T N).
Implicit Types (s : st).
Hypothesis HS : samples_ok no.
Hypothesis HD : forall n, length (n_xmean no n) = g_dim g.
Hypothesis HU : std_sort_ok e.

Definition win_ok s : Prop := exists before since ranks bests kths meds,
  t_gens s = before ++ since /\ s_niter (t_sol s) = Z.of_nat (length since) /\
  Forall2 (ranking_of g) since ranks /\
  Forall2 (at_rank 0) ranks bests /\ Forall2 (at_rank (kept_rank g)) ranks kths /\ Forall2 middle_value ranks meds /\
  s_hist (t_sol s) = lastn (history_limit g) bests /\ s_khist (t_sol s) = lastn (history_limit g) kths /\
  s_bf (t_sol s) = lastn 20 (map c_f bests) /\
  s_med (t_sol s) = lastn (medians_limit g (length since - 1)) meds.
Definition winv s : Prop :=
  win_ok s /\ length (s_cands (t_sol s)) = g_lambda g /\ s_kcand (t_sol s) = kth g /\ s_maxhist (t_sol s) = hist_len g /\ (1 <= g_lambda g)%nat.

Lemma population_of_eval s cols phen s1 : length (s_cands (t_sol s)) = g_lambda g -> length cols = g_lambda g ->
  eval no e g cols phen s = Ok s1 ->
  exists gen, t_gens s1 = t_gens s ++ [gen] /\ length gen = g_lambda g /\ population_of g gen (s_cands (t_sol s1)) /\
    (g_uh g = true -> map r_idx (s_cuh (t_sol s1)) = seq 0 (length (s_cands (t_sol s1)))).
Proof.
  intros HL HC He. apply eval_spec in He as (_ & _ & _ & A4 & A5 & _ & _ & _ & _ & A8 & A9).
  exists (new_gen e 0 (length (t_log s)) cols phen (s_cands (t_sol s))).
  split; auto. split; [rewrite new_gen_length; auto|].
  assert (M : mid_cands e cols phen s = new_gen e 0 (length (t_log s)) cols phen (s_cands (t_sol s))).
  { unfold mid_cands. rewrite skipn_all2 by lia. apply app_nil_r. }
  split.
  - rewrite M in A8. destruct A8 as [[-> _]|(E & A & _)]; [left; auto|right].
    split. { intros Q. unfold elit_on in E. rewrite Q in E. cbn in E. rewrite !andb_false_r in E. discriminate. }
    unfold upd_at in A. destruct (_ || _) eqn:B; [discriminate|]. apply orb_false_iff in B as [_ B].
    apply Z.leb_gt in B. injection A as A.
    split; [lia|]. exists (ref_cand g s). rewrite <- A. reflexivity.
  - intros U. destruct (A9 U) as (B & _ & _). rewrite B, A5. f_equal. lia.
Qed.

Lemma ranking_tell s s' gen : population_of g gen (s_cands (t_sol s)) ->
  (g_uh g = true -> map r_idx (s_cuh (t_sol s)) = seq 0 (length (s_cands (t_sol s)))) ->
  tell no e g s = Ok s' -> ranking_of g gen (s_cands (t_sol s')).
Proof.
  intros P U H. exists (s_cands (t_sol s)). split; auto.
  destruct (g_uh g) eqn:EU.
  - split; [|discriminate]. apply tell_spec in H as (s1 & s2 & s3 & n4 & R & E2 & UB & -> & _).
    destruct R as [(Q & _)|(_ & R)]; [congruence|].
    apply uh_ranks in R as (PM & _); [|auto|auto].
    apply ubc_spec in UB as (K & _). unfold kept_by_tell in K. injection K as K1 K2 K3 K4 K5 K6 K7 K8 K9 K10 K11 K12 K13.
    cbn. rewrite K1, E2. destruct (_ && _); auto.
  - apply tell_effect in H as (_ & _ & _ & _ & _ & _ & _ & _ & _ & _ & _ & _ & B & _). destruct (B EU) as [-> _].
    split; [apply sort_perm|]. intros _ NN. split; [apply sort_asc; auto|apply sort_stable; auto].
Qed.

Lemma winv_gen s cols phen s1 s2 : winv s -> length cols = g_lambda g ->
  eval no e g cols phen s = Ok s1 -> tell no e g s1 = Ok s2 -> winv (inc_iter s2).
Proof.
  intros ((before & since & ranks & bests & kths & meds & W1 & W2 & W3 & W4 & W5 & W6 & W7 & W8 & W9 & W10) & Hb1 & Hb2 & Hb3 & HL) HC He Ht.
  destruct (population_of_eval s cols phen s1 Hb1 HC He) as (gen & Gg & Gl & Gp & Gu).
  pose proof (ranking_tell s1 s2 gen Gp Gu Ht) as Gr.
  apply eval_spec in He as (_ & _ & K & _ & A5 & _). unfold keep in K.
  injection K as K1 K2 K3 K4 K5 K6 K7 K8 K9 K10 K11 K12 K13 K14 K15.
  apply tell_effect in Ht as (_ & T0 & _ & T1 & _ & _ & _ & T2 & T3 & T4 & T5 & _ & _ & c0 & ck & cl & m & rest & lim & C1 & C2 & C3 & C4 & C5 & C6 & C7 & C8 & C9 & C10 & C11 & C12 & C13).
  set (r := s_cands (t_sol s2)) in *.
  assert (Lr : length r = g_lambda g).
  { destruct Gr as (pop & Pp & Pr & _). rewrite (Permutation_length Pr). destruct Pp as [->|(_ & Pl & ref & ->)]; auto.
    rewrite app_length, firstn_length. cbn [length]. rewrite skipn_length. lia. }
  rewrite K1, K2, K3, K4, K9, K10, K11 in *.
  pose proof (Forall2_len _ _ _ W3) as L3. pose proof (Forall2_len _ _ _ W4) as L4. pose proof (Forall2_len _ _ _ W5) as L5. pose proof (Forall2_len _ _ _ W6) as L6.
  assert (Ehl : Z.to_nat (hist_len g) = history_limit g) by reflexivity.
  assert (LH : length (s_hist (t_sol s)) = Nat.min (Z.to_nat (hist_len g)) (length bests)) by (rewrite W7, Ehl; apply lastn_length).
  split.
  2: { cbn. unfold r in Lr. rewrite T4, T5. auto. }
  exists before, (since ++ [gen]), (ranks ++ [r]), (bests ++ [c0]), (kths ++ [ck]), (meds ++ [m]).
  cbn [inc_iter t_gens set_t_sol set_t_niter t_sol set_s_niter s_hist s_khist s_bf s_med s_niter].
  rewrite C5, C6, C7, C8, T2, T0, Gg, W1, Hb3.
  split; [rewrite app_assoc; auto|]. split; [rewrite app_length; cbn; lia|].
  split; [apply Forall2_snoc; auto|]. split; [apply Forall2_snoc; auto|].
  split; [apply Forall2_snoc; auto; unfold at_rank; rewrite <- C3, Hb2; reflexivity|].
  split; [apply Forall2_snoc; auto|].
  split. { rewrite W7 at 2. rewrite <- Ehl. apply drop_if_snoc; auto. apply hist_len_pos. }
  split. { rewrite W8. rewrite <- Ehl. apply drop_if_snoc; [apply hist_len_pos|]. rewrite LH. f_equal. lia. }
  split. { rewrite map_app. cbn [map]. change 20%nat with (Z.to_nat 20). rewrite W9. apply drop_if_snoc; [lia|].
    change 20%nat with (Z.to_nat 20). apply lastn_length. }
  replace (length since) with (length meds) in W10 by lia.
  replace (length (since ++ [gen])) with (length (meds ++ [m])) by (rewrite !app_length; cbn; lia).
  rewrite <- (lastn_grow (medians_limit g) meds m).
  - rewrite <- W10. f_equal. f_equal. destruct C12 as (nn & ->). rewrite HD, Lr, W2. unfold medians_limit.
    replace (length since) with (length meds) by lia.
    rewrite Z2Nat.id; auto. set (n := Z.of_nat (g_lambda g)). assert (1 <= n) by (unfold n; lia). assert (B5 : 0 < 5 * n) by lia.
    pose proof (cdiv_bounds (n * Z.of_nat (length meds) + 600 * n + 150 * Z.of_nat (g_dim g)) (5 * n) B5). nia.
  - intros t. apply medians_limit_step; auto.
  - destruct (medians_limit_step g HL 0). lia.
Qed.
Lemma winv_calls s s' : only_calls s s' -> winv s -> winv s'.
Proof.
  intros (K & G & C & l & L & _) H. unfold keep in K.
  injection K as K1 K2 K3 K4 K5 K6 K7 K8 K9 K10 K11 K12 K13 K14 K15.
  unfold winv, win_ok in *. rewrite K1, K2, K3, K4, K9, K10, K11, G, C. exact H.
Qed.
Lemma winv_new x0 n before : forall so, sol_new no g x0 n = Ok so -> forall v ne ni i y l, winv (mkSt (set_s_nevals v so) ne ni i y l before).
Proof.
  intros so H v ne ni i y l. apply sol_new_spec in H as (HL & ->). split.
  - exists before, [], [], [], [], []. cbn. rewrite app_nil_r. repeat (split; [auto|]). auto.
  - cbn. rewrite repeat_length. auto.
Qed.
Lemma winv_run h x0 n s0 s : st_new no g x0 n = Ok s0 -> Forall (whole_gen g) h -> run_ops no e g h s0 = Ok s -> winv s.
Proof.
  intros H0 W H.
  assert (W0 : winv s0).
  { apply st_new_spec in H0 as (_ & so & H0 & ->).
    pose proof (winv_new x0 n [] so H0 (s_nevals so) 0 0 false x0 []) as Q. destruct so; exact Q. }
  refine (P_ops no e g winv (fun c => length c = g_lambda g) _ _ _ _ _ _ _ h s0 s _ W0 H).
  - intros sa pop sb _ Ha. apply ask_spec in Ha as (_ & L & _). auto.
  - intros sa pop sb P Ha. apply ask_spec in Ha as (O & _). eapply winv_calls; eauto.
  - intros; eapply winv_gen; eauto.
  - intros sa b sb P Hq. apply stop_spec in Hq as [(_ & -> & _)|(_ & _ & [(_ & _ & ->)|(_ & r & _ & _ & ->)])]; auto.
  - intros sa sb P Hq. apply eval_initial_spec in Hq as [(_ & ->)|(_ & y & _ & ->)]; auto.
  - intros sa sb P Hq. apply edm_spec in Hq as (O & _). eapply winv_calls; eauto.
  - intros sa sb P _ Hq. apply reinit_spec in Hq as (so & Hq & ->). eapply winv_new; eauto.
  - eapply Forall_impl; [|exact W]. intros [] Q; cbn in *; auto.
Qed.
End Window.

Theorem windows_all : forall T N (no : numops T N) (e : env T N) (g : cfg T),
  samples_ok no -> (forall n, length (n_xmean no n) = g_dim g) -> std_sort_ok e -> forall h x0 n s0 s,
  st_new no g x0 n = Ok s0 -> Forall (whole_gen g) h -> run_ops no e g h s0 = Ok s ->
  exists before since ranks bests kths meds,
    t_gens s = before ++ since /\ s_niter (t_sol s) = Z.of_nat (length since) /\
    Forall2 (ranking_of g) since ranks /\
    Forall2 (at_rank 0) ranks bests /\ Forall2 (at_rank (kept_rank g)) ranks kths /\ Forall2 middle_value ranks meds /\
    s_hist (t_sol s) = lastn (history_limit g) bests /\ s_khist (t_sol s) = lastn (history_limit g) kths /\
    s_bf (t_sol s) = lastn 20 (map c_f bests) /\
    s_med (t_sol s) = lastn (medians_limit g (length since - 1)) meds.
Proof. intros T N no e g A B C h x0 n s0 s D W E. eapply winv_run in E as [Q _]; eauto. Qed.
(** Sizes. *)
Theorem windows_bounded : forall T N (no : numops T N) (e : env T N) (g : cfg T),
  samples_ok no -> (forall n, length (n_xmean no n) = g_dim g) -> std_sort_ok e -> forall h x0 n s0 s,
  st_new no g x0 n = Ok s0 -> Forall (whole_gen g) h -> run_ops no e g h s0 = Ok s ->
  length (s_hist (t_sol s)) = Nat.min (history_limit g) (Z.to_nat (s_niter (t_sol s))) /\
  length (s_khist (t_sol s)) = Nat.min (history_limit g) (Z.to_nat (s_niter (t_sol s))) /\
  length (s_bf (t_sol s)) = Nat.min 20 (Z.to_nat (s_niter (t_sol s))) /\
  length (s_med (t_sol s)) = Nat.min (medians_limit g (Z.to_nat (s_niter (t_sol s)) - 1)) (Z.to_nat (s_niter (t_sol s))).
Proof.
  intros T N no e g A B C h x0 n s0 s D W E. eapply winv_run in E as [Q _]; eauto.
  destruct Q as (before & since & ranks & bests & kths & meds & W1 & W2 & W3 & W4 & W5 & W6 & -> & -> & -> & ->).
  rewrite W2, Nat2Z.id. pose proof (Forall2_len _ _ _ W3) as L3. pose proof (Forall2_len _ _ _ W4) as L4. pose proof (Forall2_len _ _ _ W5) as L5. pose proof (Forall2_len _ _ _ W6) as L6.
  rewrite !lastn_length, map_length, L4, L5, L6, L3. auto.
Qed.

(** The best candidate under every setting. *)
Lemma lastn_last {A} k (l : list A) x : (1 <= k)%nat -> lastn k (l ++ [x]) = lastn (k - 1) l ++ [x].
Proof.
  intros H. unfold lastn. rewrite app_length. cbn [length].
  replace (length l + 1 - k)%nat with (length l - (k - 1))%nat by lia. rewrite skipn_app.
  replace (length l - (k - 1) - length l)%nat with 0%nat by lia. reflexivity.
Qed.
Theorem best_ranked : forall T N (no : numops T N) (e : env T N) (g : cfg T),
  samples_ok no -> (forall n, length (n_xmean no n) = g_dim g) -> std_sort_ok e -> forall h x0 n s0 s,
  st_new no g x0 n = Ok s0 -> Forall (whole_gen g) h -> run_ops no e g h s0 = Ok s -> 0 < s_niter (t_sol s) ->
  exists before gen r, t_gens s = before ++ [gen] /\ ranking_of g gen r /\ at_rank 0 r (best_candidate no (t_sol s)).
Proof.
  intros T N no e g A B C h x0 n s0 s D W E P. pose proof (windows_all _ _ _ _ _ A B C _ _ _ _ _ D W E) as Q.
  destruct Q as (before & since & ranks & bests & kths & meds & W1 & W2 & W3 & W4 & W5 & W6 & H1 & _).
  destruct (exists_last (l := since)) as (si & gen & ->). { intros ->. cbn in W2. lia. }
  apply Forall2_app_inv_l in W3 as (ri & rl & W3a & W3b & ->). inversion W3b as [|? r ? ? X Y]; subst. inversion Y; subst.
  apply Forall2_app_inv_l in W4 as (bi & bl & W4a & W4b & ->). inversion W4b as [|? b ? ? X' Y']; subst. inversion Y'; subst.
  exists (before ++ si), gen, r. rewrite <- app_assoc. split; [exact W1|]. split; auto.
  replace (best_candidate no (t_sol s)) with b; auto.
  assert (1 <= history_limit g)%nat.
  { unfold history_limit. destruct (Z.ltb_spec 0 (g_max_hist g)); [lia|]. pose proof (Z.div_pos (30 * Z.of_nat (g_dim g)) (Z.of_nat (g_lambda g))).
    apply st_new_spec in D as (? & _). lia. }
  unfold best_candidate. rewrite H1, lastn_last, rev_app_distr by lia. reflexivity.
Qed.
