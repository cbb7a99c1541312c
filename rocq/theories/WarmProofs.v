(** A search started from a solution object compared with a new search. *)
From Coq Require Import Permutation Reals.
From Verif Require Import Base Dbl DblProofs Vec VecProofs Params Config Search SpecSearch SpecInvar SpecMorph SpecSafe SpecUh SortProofs SearchInv CounterProofs HistProofs StopProofs RankProofs MorphProofs Update SpecUpdate UpdateProofs DemoNumProofs SpecAffine AffineProofs.
Local Open Scope Z_scope.

(** * Members that do not influence a search without elitism *)
Section Seen.
Context {T N : Type}.
Variable no : numops T N.
Variable e : env T N.
Variable g : cfg T.
Notation st := (st T N).
Notation sol := (sol T N).
Hypothesis HE : g_elit g = elit0.
Hypothesis HV : g_init_fvalue g = false.
Hypothesis HU : g_uh g = false.
Hypothesis HG : g_gradient g = false.
Hypothesis HD : g_edm g = false.
Hypothesis HT : (g_tpa g =? 2) = false.
Hypothesis HPr : forall so, e_progress e so = 0.

(** [q]: a solution object that supplies the members such a search does not
    read; [x]: the starting point. *)
Definition seen_sol (q so : sol) : sol :=
  mkSol (s_cands so) (s_hist so) (s_khist so) (s_bf so) (s_med so) (s_best q) (s_best_iter q) (s_worst q) (s_init q) (s_niter so) (s_nevals so)
    (s_kcand so) (s_maxhist so) (s_status so) (s_cuh q) (s_reev q) (s_suh q) (s_tpa1 q) (s_tpa2 q) (s_num so).
Definition seen (q : sol) (x : list T) (s : st) : st := mkSt (seen_sol q (t_sol s)) (t_nevals s) (t_niter s) (t_initel s) x (t_log s) (t_gens s).
Definition sim (r r' : res st) : Prop :=
  match r with Ok s => exists q x, r' = Ok (seen q x s) | Fault f => r' = Fault f end.
Lemma sim_bind (m m' : res st) (k k' : st -> res st) : sim m m' ->
  (forall q x s, m = Ok s -> sim (k s) (k' (seen q x s))) -> sim (bind m k) (bind m' k').
Proof. destruct m as [s|f]; cbn; [intros (q & x & ->) H; apply H; auto|intros -> _; auto]. Qed.

Lemma ask_plain s : ask no e g s =
  let (pop, n2) := n_sample no (g_lambda g) (n_eigen no (t_niter s) (s_num (t_sol s))) in
  do pop4 <- fix_rows (g_fixed g) pop; Ok (pop4, set_t_sol (set_s_num n2 (t_sol s)) s).
Proof using HG HT. unfold ask. rewrite HG, HT. destruct (n_sample no _ _) as [pop n2]. reflexivity. Qed.
Lemma ask_seen q x s : ask no e g (seen q x s) = rmap (fun p => (fst p, seen q x (snd p))) (ask no e g s).
Proof using HG HT.
  rewrite !ask_plain. change (s_num (t_sol (seen q x s))) with (s_num (t_sol s)). change (t_niter (seen q x s)) with (t_niter s).
  destruct (n_sample no _ _) as [pop n2]. destruct (fix_rows (g_fixed g) pop) as [pc|]; reflexivity.
Qed.
Lemma eval_cols_seen q x cols phen : forall r s, eval_cols e r cols phen (seen q x s) = rmap (seen q x) (eval_cols e r cols phen s).
Proof using Type.
  induction cols as [|y0 cols IH]; intros r s; cbn [eval_cols]; [reflexivity|].
  change (s_cands (t_sol (seen q x s))) with (s_cands (t_sol s)).
  destruct (at_ (s_cands (t_sol s)) r) as [c|]; cbn [bind rmap]; [|reflexivity].
  destruct (match phen with [] => Ok y0 | _ => at_ phen r end) as [y|]; cbn [bind rmap]; [|reflexivity].
  unfold call. change (t_log (seen q x s)) with (t_log s). cbn [t_sol set_t_log].
  change (s_cands (t_sol (seen q x s))) with (s_cands (t_sol s)).
  destruct (upd_at _ r _) as [cs|]; cbn [bind rmap]; [|reflexivity]. rewrite <- IH. reflexivity.
Qed.
Lemma no_elit k (s : st) : elitist g k s = Ok s.
Proof using HE. unfold elitist. rewrite HE. cbn [elit0 e_best e_init e_restart]. rewrite andb_false_r, andb_false_r. reflexivity. Qed.
Lemma eval_plain cols phen s : eval no e g cols phen s =
  do s1 <- eval_cols e 0 cols phen s;
  Ok (update_fevals (Z.of_nat (length cols) + 0) (set_t_gens (t_gens s1 ++ [firstn (length cols) (s_cands (t_sol s1))]) s1)).
Proof using HE HU. unfold eval. apply bind_ext'. intros s1. rewrite HU. cbn [bind]. rewrite no_elit. reflexivity. Qed.
Lemma eval_seen q x cols phen s : eval no e g cols phen (seen q x s) = rmap (seen q x) (eval no e g cols phen s).
Proof using HE HU.
  rewrite !eval_plain, eval_cols_seen. destruct (eval_cols e 0 cols phen s) as [s1|]; reflexivity.
Qed.
Lemma hist_seen q (so : sol) : update_hist (seen_sol q so) = rmap (seen_sol q) (update_hist so).
Proof using Type.
  unfold update_hist. change (s_cands (seen_sol q so)) with (s_cands so). change (s_kcand (seen_sol q so)) with (s_kcand so).
  destruct (at_ (s_cands so) 0) as [c0|]; cbn [bind rmap]; [|reflexivity].
  destruct (at_ (s_cands so) (s_kcand so)) as [ck|]; reflexivity.
Qed.
Lemma med_seen q (so : sol) : update_medians no (seen_sol q so) = rmap (seen_sol q) (update_medians no so).
Proof using Type.
  unfold update_medians. change (s_cands (seen_sol q so)) with (s_cands so). change (s_niter (seen_sol q so)) with (s_niter so).
  change (s_num (seen_sol q so)) with (s_num so). change (s_med (seen_sol q so)) with (s_med so).
  destruct (Z.of_nat (length (s_cands so)) =? 0); cbn [rmap]; [reflexivity|].
  destruct (if Z.of_nat (length (s_cands so)) mod 2 =? 0 then _ else _) as [m|]; reflexivity.
Qed.
Definition sim_sol (r r' : res sol) : Prop :=
  match r with Ok s => exists q, r' = Ok (seen_sol q s) | Fault f => r' = Fault f end.
Lemma last_seen q (so : sol) : sim_sol (update_seen so) (update_seen (seen_sol q so)).
Proof using Type.
  unfold update_seen. change (s_cands (seen_sol q so)) with (s_cands so). destruct (at_ (s_cands so) 0) as [d0|]; cbn [bind sim_sol]; [|reflexivity].
  destruct (rev (s_cands so)) as [|cl r]; [reflexivity|]. cbv zeta.
  set (B := (((s_niter (seen_sol q so) =? 0) && _) || dlt (c_f d0) _)). set (W := (((s_niter (seen_sol q so) =? 0) && _) || dlt _ (c_f cl))).
  exists (set_s_best (if B then d0 else s_best q) (set_s_best_iter (if B then Some (s_niter so) else s_best_iter q) (set_s_worst (if W then cl else s_worst q) q))).
  clearbody B W.
  set (B0 := (((s_niter so =? 0) && _) || dlt (c_f d0) _)). set (W0 := (((s_niter so =? 0) && _) || dlt _ (c_f cl))). clearbody B0 W0.
  destruct B, W, B0, W0; reflexivity.
Qed.
Lemma sim_sol_bind (m : res sol) (k k' : sol -> res sol) q : (forall so, m = Ok so -> sim_sol (k so) (k' (seen_sol q so))) ->
  sim_sol (bind m k) (bind (rmap (seen_sol q) m) k').
Proof using Type. destruct m; cbn; auto. Qed.
Lemma ubc_seen q (so : sol) : sim_sol (update_best_candidates no so) (update_best_candidates no (seen_sol q so)).
Proof using Type.
  unfold update_best_candidates. rewrite hist_seen. apply sim_sol_bind. intros s1 _. rewrite med_seen. apply sim_sol_bind. intros s2 _. apply last_seen.
Qed.
Lemma tell_plain s : tell no e g s =
  do s1 <- sort_candidates (t_sol s); do s3 <- update_best_candidates no s1;
  Ok (set_t_sol (set_s_num (n_update no (s_niter s3) (map c_x (s_cands s3)) (s_num s3)) s3) s).
Proof using HU HT. unfold tell. rewrite HU, HT. reflexivity. Qed.
Lemma tell_seen q x s : sim (tell no e g s) (tell no e g (seen q x s)).
Proof using HU HT.
  rewrite !tell_plain. unfold sort_candidates. change (s_cands (t_sol (seen q x s))) with (s_cands (t_sol s)).
  destruct (compares_ok _); cbn [bind sim]; [|reflexivity].
  set (so := set_s_cands (sort_cands (s_cands (t_sol s))) (t_sol s)).
  change (set_s_cands (sort_cands (s_cands (t_sol s))) (t_sol (seen q x s))) with (seen_sol q so).
  pose proof (ubc_seen q so) as X. clearbody so.
  destruct (update_best_candidates no so) as [s3|f]; cbn [bind sim_sol] in X |- *.
  - destruct X as (q' & ->). cbn [bind sim]. exists q', x. reflexivity.
  - rewrite X. reflexivity.
Qed.
Lemma round_seen q x s : sim (round no e g s) (round no e g (seen q x s)).
Proof using HE HU HG HT.
  unfold round. rewrite ask_seen. destruct (ask no e g s) as [[pop s1]|]; cbn [bind rmap fst snd]; [|reflexivity].
  destruct (mapM (e_pheno e) pop) as [ph|]; cbn [bind]; [|reflexivity].
  rewrite eval_seen. destruct (eval no e g pop ph s1) as [s2|]; cbn [bind rmap]; [|reflexivity].
  apply sim_bind; [apply tell_seen|]. intros q' x' s' _. exists q', x'. reflexivity.
Qed.
Lemma rounds_seen k : forall q x s, sim (rounds no g e k s) (rounds no g e k (seen q x s)).
Proof using HE HU HG HT.
  induction k as [|k IH]; intros q x s; cbn [rounds]; [exists q, x; reflexivity|].
  apply sim_bind; [apply round_seen|]. intros; apply IH.
Qed.
(** Once a generation has been told, the best candidate comes from the history. *)
Definition told (s : st) : Prop := 1 <= s_maxhist (t_sol s) /\ (t_niter s = 0 \/ s_hist (t_sol s) <> []).
Lemma told_round s s' : told s -> round no e g s = Ok s' -> told s'.
Proof using HE HU HG HT.
  intros [M _] H. unfold round in H. rewrite ask_plain in H. destruct (n_sample no _ _) as [pop n2].
  destruct (fix_rows (g_fixed g) pop) as [pop4|]; cbn [bind fst snd] in H; [|discriminate]. cbv zeta in H.
  destruct (mapM (e_pheno e) pop4) as [ph|]; cbn [bind] in H; [|discriminate].
  rewrite eval_plain in H. destruct (eval_cols e 0 pop4 ph _) as [s2|] eqn:E2; cbn [bind] in H; [|discriminate].
  set (s3 := update_fevals _ _) in H. destruct (tell no e g s3) as [s4|] eqn:E4; cbn [bind] in H; [|discriminate]. apply Ok_inj in H; subst s'.
  assert (M3 : s_maxhist (t_sol s3) = s_maxhist (t_sol s)).
  { unfold s3. cbn [update_fevals set_t_gens t_sol set_t_sol set_t_nevals]. clear - E2.
    change (s_maxhist (t_sol s2) = s_maxhist (t_sol s)).
    assert (X : forall cols r a b, eval_cols e r cols ph a = Ok b -> s_maxhist (t_sol b) = s_maxhist (t_sol a)).
    { induction cols as [|y cols IH]; intros r a b H; cbn [eval_cols] in H; [apply Ok_inj in H; now subst|].
      inv_do H. inv_do H. unfold call in H. inv_do H. apply IH in H. exact H. }
    apply X in E2. exact E2. }
  apply tell_effect in E4 as (_ & _ & _ & _ & _ & _ & _ & _ & _ & _ & M4 & _ & _ & c0 & ck & cl & m & rest & lim & E4). cbv zeta in E4.
  destruct E4 as (_ & _ & _ & _ & H4 & _). split; [change (1 <= s_maxhist (t_sol s4)); lia|]. right.
  change (s_hist (t_sol s4) <> []). rewrite H4, app_length. cbn [length].
  destruct (s_hist (t_sol s3)) as [|c1 [|c2 l]]; cbn [app length]; unfold drop_if; cbn [tl].
  - destruct (Z.ltb_spec (s_maxhist (t_sol s3)) (Z.of_nat (0 + 1))); [lia|]. discriminate.
  - match goal with |- (if ?b then _ else _) <> _ => destruct b end; discriminate.
  - match goal with |- (if ?b then _ else _) <> _ => destruct b end; discriminate.
Qed.
Lemma best_cand_seen q (so : sol) : s_hist so <> [] -> best_candidate no (seen_sol q so) = best_candidate no so.
Proof using Type.
  intros H. unfold best_candidate. change (s_hist (seen_sol q so)) with (s_hist so). destruct (rev (s_hist so)) eqn:E; [|reflexivity].
  exfalso. apply H. rewrite <- (rev_involutive (s_hist so)), E. reflexivity.
Qed.
Lemma stop_seen q x s : told s -> stop no e g (seen q x s) = rmap (fun p => (fst p, seen q x (snd p))) (stop no e g s).
Proof using HPr.
  intros [_ HH]. unfold stop. change (s_status (t_sol (seen q x s))) with (s_status (t_sol s)). destruct (_ <? 0); [reflexivity|]. rewrite !HPr. cbn [negb Z.eqb].
  change (t_niter (seen q x s)) with (t_niter s). destruct (Z.eqb_spec (t_niter s) 0); [reflexivity|]. destruct HH as [?|HH]; [lia|].
  assert (X : forall fl, stop_scan no g fl (t_sol (seen q x s)) = stop_scan no g fl (t_sol s)).
  { induction fl as [|[c a] fl IH]; cbn [stop_scan]; auto. rewrite IH. destruct a; [|reflexivity].
    replace (criterion no g c (t_sol (seen q x s))) with (criterion no g c (t_sol s)); [reflexivity|].
    unfold criterion. destruct (c =? 10); [|reflexivity]. unfold ftarget_crit. cbn [seen t_sol]. rewrite best_cand_seen by auto. reflexivity. }
  rewrite X. destruct (stop_scan no g _ _); reflexivity.
Qed.
Lemma told_stop s b s' : told s -> stop no e g s = Ok (b, s') -> told s'.
Proof using Type. intros H E. apply stop_spec in E as [(_ & -> & _)|(_ & _ & [(_ & _ & ->)|(_ & r & _ & _ & ->)])]; auto. Qed.
Lemma loop_seen fuel : forall q x s, told s -> sim (loop no e g (round no e g) fuel s) (loop no e g (round no e g) fuel (seen q x s)).
Proof using HE HU HG HT HPr.
  induction fuel as [|fuel IH]; intros q x s HS; cbn [loop]; [reflexivity|]. rewrite stop_seen by auto.
  destruct (stop no e g s) as [[y s1]|] eqn:E; cbn [bind rmap fst snd]; [|reflexivity]. apply told_stop in E; auto.
  destruct y; [exists q, x; reflexivity|]. apply sim_bind; [apply round_seen|]. intros q' x' s' E'. apply IH. eapply told_round; eauto.
Qed.
Lemma optimize_plain rf fuel s : t_initel s = false -> optimize no e g (round no e g) rf fuel s =
  do s2 <- loop no e g (round no e g) fuel s; Ok ((if 0 <=? s_status (t_sol s2) then 0 else -1), s2).
Proof using HE HV HD.
  intros HI. destruct rf; cbn [optimize]; unfold eval_initial; rewrite HI, HE, HV, HD; cbn [elit0 e_best e_init orb bind];
    apply bind_ext'; intros s2; cbn [bind]; unfold restart_wanted; rewrite HE; reflexivity.
Qed.

(** * What the first round overwrites: the candidates *)
Definition with_cands (cs : list (cand T)) (s : st) : st := set_t_sol (set_s_cands cs (t_sol s)) s.
Lemma at_case {A} (l : list A) i : 0 <= i -> (Z.to_nat i < length l)%nat -> exists a, at_ l i = Ok a /\ nth_error l (Z.to_nat i) = Some a.
Proof using Type.
  intros H1 H2. unfold at_. destruct (Z.ltb_spec i 0); [lia|]. destruct (nth_error l (Z.to_nat i)) as [a|] eqn:E; [eauto|]. apply nth_error_None in E. lia.
Qed.
Lemma upd_case {A} (l : list A) i a : 0 <= i -> (Z.to_nat i < length l)%nat -> upd_at l i a = Ok (firstn (Z.to_nat i) l ++ a :: skipn (S (Z.to_nat i)) l).
Proof using Type.
  intros H1 H2. unfold upd_at. destruct (Z.ltb_spec i 0); [lia|]. destruct (Z.leb_spec (Z.of_nat (length l)) i); [lia|]. reflexivity.
Qed.
Lemma eval_cols_cands cols phen : forall r s cs', 0 <= r -> length cs' = length (s_cands (t_sol s)) -> (Z.to_nat r + length cols)%nat = length cs' ->
  firstn (Z.to_nat r) cs' = firstn (Z.to_nat r) (s_cands (t_sol s)) ->
  Forall (fun c => c_r c = -1) cs' -> Forall (fun c => c_r c = -1) (s_cands (t_sol s)) ->
  eval_cols e r cols phen (with_cands cs' s) = eval_cols e r cols phen s.
Proof using Type.
  induction cols as [|x cols IH]; intros r s cs' H0 HL HC HF F1 F2.
  - cbn [eval_cols length] in *. f_equal. unfold with_cands. replace cs' with (s_cands (t_sol s)); [destruct s as [so ? ? ? ? ? ?]; destruct so; reflexivity|].
    rewrite <- (firstn_all (s_cands (t_sol s))), <- (firstn_all cs'), <- HL, <- HC, Nat.add_0_r. auto.
  - cbn [eval_cols length] in *. change (s_cands (t_sol (with_cands cs' s))) with cs'.
    destruct (at_case cs' r) as (c' & -> & N'); auto; [lia|]. destruct (at_case (s_cands (t_sol s)) r) as (c & -> & N0); auto; [lia|]. cbn [bind].
    destruct (match phen with [] => Ok x | _ => at_ phen r end) as [y|]; cbn [bind]; [|reflexivity].
    unfold call. change (t_log (with_cands cs' s)) with (t_log s). cbn [t_sol set_t_log]. change (s_cands (t_sol (with_cands cs' s))) with cs'.
    rewrite (proj1 (Forall_forall _ _) F1 c') by (eapply nth_error_In; eauto). rewrite (proj1 (Forall_forall _ _) F2 c) by (eapply nth_error_In; eauto).
    rewrite !upd_case by lia. cbn [bind].
    set (v := e_f e _ y). set (s1 := set_t_sol (set_s_cands (firstn (Z.to_nat r) (s_cands (t_sol s)) ++ _) _) _).
    match goal with |- eval_cols e _ _ _ ?a = _ => replace a with (with_cands (firstn (Z.to_nat r) cs' ++ mkCand v x r (-1) :: skipn (S (Z.to_nat r)) cs') s1) by reflexivity end.
    assert (LF : length (firstn (Z.to_nat r) cs') = Z.to_nat r) by (rewrite firstn_length; lia).
    assert (LF0 : length (firstn (Z.to_nat r) (s_cands (t_sol s))) = Z.to_nat r) by (rewrite firstn_length; lia).
    assert (FX : forall l : list (cand T), Forall (fun c => c_r c = -1) l -> Forall (fun c => c_r c = -1) (firstn (Z.to_nat r) l ++ mkCand v x r (-1) :: skipn (S (Z.to_nat r)) l)).
    { intros l Fl. rewrite <- (firstn_skipn (Z.to_nat r) l) in Fl. apply Forall_app in Fl as [A B]. apply Forall_app. split; [auto|].
      constructor; [reflexivity|]. clear - B.
      replace (skipn (S (Z.to_nat r)) l) with (skipn 1 (skipn (Z.to_nat r) l)); [destruct (skipn (Z.to_nat r) l); cbn; [constructor|inversion B; auto]|].
      generalize (Z.to_nat r). intros m. revert l B. clear. intros l _. revert l. induction m as [|m IH]; intros [|a l]; cbn; auto. apply (IH l). }
    apply IH; try lia.
    + cbn [s1 set_t_sol t_sol set_s_cands s_cands]. rewrite !app_length, LF, LF0. cbn [length]. rewrite !skipn_length. lia.
    + rewrite app_length, LF. cbn [length]. rewrite skipn_length. lia.
    + replace (Z.to_nat (r + 1)) with (Z.to_nat r + 1)%nat by lia. cbn [s1 set_t_sol t_sol set_s_cands s_cands].
      rewrite !firstn_app, LF, LF0. replace (Z.to_nat r + 1 - Z.to_nat r)%nat with 1%nat by lia. cbn [firstn].
      rewrite (firstn_all2 (firstn (Z.to_nat r) cs')), (firstn_all2 (firstn (Z.to_nat r) (s_cands (t_sol s)))) by lia. rewrite HF. reflexivity.
    + apply FX, F1.
    + apply FX, F2.
Qed.
Lemma round_plain s : round no e g s =
  let (pop, n2) := n_sample no (g_lambda g) (n_eigen no (t_niter s) (s_num (t_sol s))) in
  do pop4 <- fix_rows (g_fixed g) pop; do ph <- mapM (e_pheno e) pop4;
  do s2 <- eval no e g pop4 ph (set_t_sol (set_s_num n2 (t_sol s)) s); do s3 <- tell no e g s2; Ok (inc_iter s3).
Proof using HG HT.
  unfold round. rewrite ask_plain. destruct (n_sample no _ _) as [pop n2]. destruct (fix_rows (g_fixed g) pop) as [pop4|]; reflexivity.
Qed.
Lemma round_cands s cs' : samples_ok no -> length cs' = g_lambda g -> length (s_cands (t_sol s)) = g_lambda g ->
  Forall (fun c => c_r c = -1) cs' -> Forall (fun c => c_r c = -1) (s_cands (t_sol s)) -> round no e g (with_cands cs' s) = round no e g s.
Proof using HE HU HG HT.
  intros HS L1 L2 F1 F2. rewrite !round_plain. change (s_num (t_sol (with_cands cs' s))) with (s_num (t_sol s)). change (t_niter (with_cands cs' s)) with (t_niter s).
  pose proof (HS (g_lambda g) (n_eigen no (t_niter s) (s_num (t_sol s)))) as LP. destruct (n_sample no _ _) as [pop n2]. cbn [fst] in LP.
  destruct (fix_rows (g_fixed g) pop) as [pop4|] eqn:EF; cbn [bind]; [|reflexivity]. apply fix_rows_length in EF.
  destruct (mapM (e_pheno e) pop4) as [ph|]; cbn [bind]; [|reflexivity]. rewrite !eval_plain.
  change (set_t_sol (set_s_num n2 (t_sol (with_cands cs' s))) (with_cands cs' s)) with (with_cands cs' (set_t_sol (set_s_num n2 (t_sol s)) s)).
  rewrite eval_cols_cands; auto; cbn [Z.to_nat set_t_sol t_sol set_s_num s_cands]; try lia.
Qed.

(** * What the first round does with the distribution *)
Definition with_num (n : N) (s : st) : st := set_t_sol (set_s_num n (t_sol s)) s.
Lemma eval_cols_wn n cols phen : forall r s, eval_cols e r cols phen (with_num n s) = rmap (with_num n) (eval_cols e r cols phen s).
Proof using Type.
  induction cols as [|y0 cols IH]; intros r s; cbn [eval_cols]; [reflexivity|].
  change (s_cands (t_sol (with_num n s))) with (s_cands (t_sol s)).
  destruct (at_ (s_cands (t_sol s)) r) as [c|]; cbn [bind rmap]; [|reflexivity].
  destruct (match phen with [] => Ok y0 | _ => at_ phen r end) as [y|]; cbn [bind rmap]; [|reflexivity].
  unfold call. change (t_log (with_num n s)) with (t_log s). cbn [t_sol set_t_log].
  change (s_cands (t_sol (with_num n s))) with (s_cands (t_sol s)).
  destruct (upd_at _ r _) as [cs|]; cbn [bind rmap]; [|reflexivity]. rewrite <- IH. reflexivity.
Qed.
Lemma ubc_wn n (so : sol) : length (n_xmean no n) = length (n_xmean no (s_num so)) ->
  update_best_candidates no (set_s_num n so) = rmap (set_s_num n) (update_best_candidates no so).
Proof using Type.
  intros HX. unfold update_best_candidates, update_hist. change (s_cands (set_s_num n so)) with (s_cands so). change (s_kcand (set_s_num n so)) with (s_kcand so).
  destruct (at_ (s_cands so) 0) as [c0|]; cbn [bind rmap]; [|reflexivity].
  destruct (at_ (s_cands so) (s_kcand so)) as [ck|]; cbn [bind rmap]; [|reflexivity].
  set (s1 := set_s_hist _ (set_s_khist _ (set_s_bf _ so))).
  match goal with |- bind (update_medians no ?a) _ = _ => change a with (set_s_num n s1) end.
  assert (HX1 : length (n_xmean no n) = length (n_xmean no (s_num s1))) by exact HX. clearbody s1.
  unfold update_medians. change (s_cands (set_s_num n s1)) with (s_cands s1). change (s_niter (set_s_num n s1)) with (s_niter s1).
  change (s_num (set_s_num n s1)) with n. rewrite HX1. change (s_med (set_s_num n s1)) with (s_med s1).
  destruct (Z.of_nat (length (s_cands s1)) =? 0); cbn [bind rmap]; [reflexivity|].
  destruct (if Z.of_nat (length (s_cands s1)) mod 2 =? 0 then _ else _) as [m|]; cbn [bind rmap]; [|reflexivity]. cbv zeta.
  set (s2 := set_s_med _ s1).
  match goal with |- update_seen ?a = _ => change a with (set_s_num n s2) end. clearbody s2.
  unfold update_seen. change (s_cands (set_s_num n s2)) with (s_cands s2). destruct (at_ (s_cands s2) 0) as [d0|]; cbn [bind rmap]; [|reflexivity].
  destruct (rev (s_cands s2)) as [|cl r]; [reflexivity|]. cbv zeta. cbn [rmap].
  change (s_niter (set_s_num n s2)) with (s_niter s2). change (s_best (set_s_num n s2)) with (s_best s2). change (s_worst (set_s_num n s2)) with (s_worst s2).
  set (B := (((s_niter s2 =? 0) && _) || dlt (c_f d0) _)). set (W := (((s_niter s2 =? 0) && _) || dlt _ (c_f cl))). destruct B, W; reflexivity.
Qed.
Lemma ubc_num (so so' : sol) : update_best_candidates no so = Ok so' -> s_num so' = s_num so /\ s_niter so' = s_niter so.
Proof using Type. intros H. apply ubc_spec in H as [K _]. unfold kept_by_tell in K. injection K as K. intros. split; congruence. Qed.
Lemma round_num n s : (forall m, length (n_xmean no m) = g_dim g) ->
  fst (n_sample no (g_lambda g) (n_eigen no (t_niter s) n)) = fst (n_sample no (g_lambda g) (n_eigen no (t_niter s) (s_num (t_sol s)))) ->
  match round no e g s with
  | Ok s' => exists xs,
      s_num (t_sol s') = n_update no (s_niter (t_sol s)) xs (snd (n_sample no (g_lambda g) (n_eigen no (t_niter s) (s_num (t_sol s))))) /\
      round no e g (with_num n s) = Ok (with_num (n_update no (s_niter (t_sol s)) xs (snd (n_sample no (g_lambda g) (n_eigen no (t_niter s) n)))) s')
  | Fault f => round no e g (with_num n s) = Fault f
  end.
Proof using HE HU HG HT.
  intros HX HS. rewrite !round_plain. change (s_num (t_sol (with_num n s))) with n. change (t_niter (with_num n s)) with (t_niter s).
  destruct (n_sample no _ (n_eigen no (t_niter s) n)) as [pop' n2']. destruct (n_sample no _ _) as [pop n2]. cbn [fst snd] in *. subst pop'.
  destruct (fix_rows (g_fixed g) pop) as [pop4|]; cbn [bind]; [|reflexivity].
  destruct (mapM (e_pheno e) pop4) as [ph|]; cbn [bind]; [|reflexivity]. rewrite !eval_plain.
  set (s0 := set_t_sol (set_s_num n2 (t_sol s)) s).
  match goal with |- context [eval_cols e 0 pop4 ph ?a] => change a with (with_num n2' s0) at 1 end || idtac.
  change (set_t_sol (set_s_num n2' (t_sol (with_num n s))) (with_num n s)) with (with_num n2' s0). rewrite eval_cols_wn.
  destruct (eval_cols e 0 pop4 ph s0) as [s1|] eqn:E1; cbn [bind rmap]; [|reflexivity].
  assert (N1 : s_num (t_sol s1) = n2 /\ s_niter (t_sol s1) = s_niter (t_sol s)).
  { change n2 with (s_num (t_sol s0)). change (s_niter (t_sol s)) with (s_niter (t_sol s0)). clear - E1.
    assert (X : forall cols r a b, eval_cols e r cols ph a = Ok b -> s_num (t_sol b) = s_num (t_sol a) /\ s_niter (t_sol b) = s_niter (t_sol a)).
    { induction cols as [|y cols IH]; intros r a b H; cbn [eval_cols] in H; [apply Ok_inj in H; now subst|].
      inv_do H. inv_do H. unfold call in H. inv_do H. apply IH in H. exact H. }
    apply X in E1. exact E1. }
  set (s2 := update_fevals _ (set_t_gens (t_gens s1 ++ _) s1)).
  match goal with |- context [tell no e g (update_fevals ?z (set_t_gens ?l (with_num n2' s1)))] => change (update_fevals z (set_t_gens l (with_num n2' s1))) with (with_num n2' s2) end.
  assert (N2 : s_num (t_sol s2) = n2 /\ s_niter (t_sol s2) = s_niter (t_sol s)) by exact N1. clearbody s2. clear N1 E1 s0 s1.
  rewrite !tell_plain. unfold sort_candidates. change (s_cands (t_sol (with_num n2' s2))) with (s_cands (t_sol s2)).
  destruct (compares_ok _); cbn [bind]; [|reflexivity].
  set (so := set_s_cands (sort_cands (s_cands (t_sol s2))) (t_sol s2)).
  change (set_s_cands (sort_cands (s_cands (t_sol s2))) (t_sol (with_num n2' s2))) with (set_s_num n2' so).
  assert (N3 : s_num so = n2 /\ s_niter so = s_niter (t_sol s)) by exact N2. clearbody so.
  rewrite ubc_wn by (rewrite !HX; reflexivity).
  destruct (update_best_candidates no so) as [s3|] eqn:E3; cbn [bind rmap]; [|reflexivity]. apply ubc_num in E3 as [E3 E4].
  exists (map c_x (s_cands s3)). cbn [inc_iter set_t_sol t_sol set_s_num s_num set_t_niter set_s_niter s_niter].
  replace (s_niter s3) with (s_niter (t_sol s)) by (destruct N3; congruence). replace (s_num s3) with n2 by (destruct N3; congruence).
  split; [reflexivity|]. cbn [inc_iter set_t_sol t_sol set_s_num s_num set_t_niter set_s_niter s_niter s_cands]. reflexivity.
Qed.
End Seen.
