(** Searches that correspond through a map of the search space. *)
From Coq Require Import Permutation Bool.
From Verif Require Import Base Dbl DblProofs Config Search SpecSearch SpecInvar SpecMorph SpecSafe SortProofs SearchInv StopProofs RankProofs SpecUh UhProofs FixedProofs.
Local Open Scope Z_scope.

Section Morph.
Context {T N : Type}.
Variables no no' : numops T N.
Variables e e' : env T N.
Variable g : cfg T.
Variable fx' : list (Z * T).
Variable h : list T -> list T.
Variable R : N -> N -> Prop.
Let okx (x : list T) : Prop := length x = g_dim g.
Let g' := set_g_fixed fx' g.
Hypothesis h_nil : h [] = [].
Hypothesis h_cons : forall x l, h (x :: l) <> [].
Hypothesis R_xmean : forall n n', R n n' -> n_xmean no' n' = h (n_xmean no n) /\ length (n_xmean no' n') = length (n_xmean no n).
Hypothesis R_eigen : forall i n n', R n n' -> R (n_eigen no i n) (n_eigen no' i n').
Hypothesis R_sample : forall k n n', R n n' -> fst (n_sample no' k n') = map h (fst (n_sample no k n)) /\ R (snd (n_sample no k n)) (snd (n_sample no' k n')).
Hypothesis R_tpa_points : forall n n', R n n' ->
  fst (n_tpa_points no' n') = (h (fst (fst (n_tpa_points no n))), h (snd (fst (n_tpa_points no n)))) /\ R (snd (n_tpa_points no n)) (snd (n_tpa_points no' n')).
Hypothesis R_coin : forall n n', R n n' -> fst (n_coin no' n') = fst (n_coin no n) /\ R (snd (n_coin no n)) (snd (n_coin no' n')).
Hypothesis R_mutate : g_uh g = true -> forall l n n', R n n' -> Forall okx l -> fst (n_mutate no' (map h l) n') = map h (fst (n_mutate no l n)) /\ R (snd (n_mutate no l n)) (snd (n_mutate no' (map h l) n')).
Hypothesis R_tpa : forall d n n', R n n' -> R (n_tpa no d n) (n_tpa no' d n').
Hypothesis R_update : forall i xs n n', R n n' -> Forall okx xs -> length xs = g_lambda g -> R (n_update no i xs n) (n_update no' i (map h xs) n').
Hypothesis R_scale : forall n n', R n n' -> R (n_uh_scale no n) (n_uh_scale no' n').
Hypothesis R_crit : forall c n n', In (c, true) (g_flags g) -> R n n' -> n_crit no' c n' = n_crit no c n.
Hypothesis h_fix : forall pop, fix_rows fx' (map h pop) = rmap (map h) (fix_rows (g_fixed g) pop).
Hypothesis E_f : forall k x, okx x -> e_f e' k (h x) = e_f e k x.
Hypothesis E_pheno : forall x, okx x -> e_pheno e' (h x) = rmap h (e_pheno e x).
Hypothesis E_sort : e_sort e' = e_sort e.
Hypothesis E_progress : forall so so', moved_sol h R so so' -> e_progress e' so' = e_progress e so.
Hypothesis HG : g_gradient g = false.
Hypothesis HD : dims_ok no g.
Hypothesis HM : forall l n, Forall okx l -> length (fst (n_mutate no l n)) = length l /\ Forall okx (fst (n_mutate no l n)).
Hypothesis HP : forall x y, okx x -> e_pheno e x = Ok y -> okx y.
Hypothesis R_new : e_restart (g_elit g) = true -> forall x n n', R n n' -> okx x -> R (n_new no x n) (n_new no' (h x) n').
Hypothesis HE : g_edm g = false.

Notation st := (st T N).
Notation sol := (sol T N).
Notation mv := (move h).
Definition ms (n' : N) (so : sol) : sol :=
  mkSol (map mv (s_cands so)) (map mv (s_hist so)) (map mv (s_khist so)) (s_bf so) (s_med so)
    (mv (s_best so)) (s_best_iter so) (mv (s_worst so)) (mv (s_init so)) (s_niter so) (s_nevals so) (s_kcand so) (s_maxhist so)
    (s_status so) (s_cuh so) (s_reev so) (s_suh so) (s_tpa1 so) (s_tpa2 so) n'.
Definition mt (n' : N) (s : st) : st :=
  mkSt (ms n' (t_sol s)) (t_nevals s) (t_niter s) (t_initel s) (h (t_x0 s))
    (map (fun p => (h (fst p), snd p)) (t_log s)) (map (map mv) (t_gens s)).

Definition rel (r r' : res st) : Prop :=
  match r with Ok s => exists n', R (s_num (t_sol s)) n' /\ r' = Ok (mt n' s) | Fault f => r' = Fault f end.
Lemma rel_bind (m m' : res st) (k k' : st -> res st) : rel m m' ->
  (forall s n', m = Ok s -> R (s_num (t_sol s)) n' -> rel (k s) (k' (mt n' s))) -> rel (bind m k) (bind m' k').
Proof using Type. destruct m as [s|f]; cbn; [intros (n' & HR & ->) H; apply H; auto|intros -> _; auto]. Qed.

Lemma ask_mt n' s : R (s_num (t_sol s)) n' ->
  match ask no e g s with
  | Ok (pop, s1) => exists n1, R (s_num (t_sol s1)) n1 /\ ask no' e' g' (mt n' s) = Ok (map h pop, mt n1 s1)
  | Fault f => ask no' e' g' (mt n' s) = Fault f
  end.
Proof using R_eigen R_sample R_tpa_points h_fix HG.
  intros HR. unfold ask. cbn [g' set_g_fixed g_gradient g_tpa g_fixed g_lambda]. rewrite HG. cbn [mt t_niter t_sol ms s_num set_t_sol set_s_num].
  destruct (R_sample (g_lambda g) _ _ (R_eigen (t_niter s) _ _ HR)) as [S1 S2].
  destruct (n_sample no (g_lambda g) _) as [pop n2]. destruct (n_sample no' (g_lambda g) _) as [pop' n2']. cbn [fst snd] in S1, S2. subst pop'.
  cbn [bind t_niter set_t_sol].
  change (t_niter (mt n' s)) with (t_niter s).
  destruct ((g_tpa g =? 2) && (0 <? t_niter s)).
  - cbn [t_sol set_t_sol set_s_num s_num s_tpa1 s_tpa2].
    destruct (R_tpa_points n2 n2' S2) as [P1 P2]. destruct (n_tpa_points no n2) as [[x1 x2] n3]. destruct (n_tpa_points no' n2') as [[y1 y2] n3'].
    cbn [fst snd] in P1, P2. injection P1 as -> ->. cbv zeta. cbn [s_tpa1 s_tpa2 t_sol set_t_sol set_s_num ms].
    unfold set_col. rewrite (upd_at_map h pop _ x1). destruct (upd_at pop _ x1) as [pa|]; cbn [bind rmap]; [|reflexivity].
    rewrite (upd_at_map h pa _ x2). destruct (upd_at pa _ x2) as [pb|]; cbn [bind rmap]; [|reflexivity].
    rewrite h_fix. destruct (fix_rows (g_fixed g) pb) as [pc|]; cbn [bind rmap]; [|reflexivity]. exists n3'. split; [exact P2|reflexivity].
  - cbn [bind]. rewrite h_fix. destruct (fix_rows (g_fixed g) pop) as [pc|]; cbn [bind rmap]; [|reflexivity]. exists n2'. split; [exact S2|reflexivity].
Qed.

(** Dimensions of the points asked for. *)
Lemma set_row_ok i v pop : forall pop', set_row i v pop = Ok pop' -> Forall okx pop -> Forall okx pop'.
Proof using Type.
  unfold set_row. induction pop as [|c pop IH]; intros pop' H F; cbn in H; [injection H as <-; constructor|].
  inv_do H. inv_do H. injection H as <-. inversion F; subst. constructor; [|apply IH; auto].
  apply upd_at_length in H0. unfold okx in *. congruence.
Qed.
Lemma fix_rows_ok fx : forall pop pop', fix_rows fx pop = Ok pop' -> Forall okx pop -> Forall okx pop'.
Proof using Type.
  induction fx as [|[i v] fx IH]; intros pop pop' H F; cbn in H; [injection H as <-; auto|].
  inv_do H. eapply IH; eauto. eapply set_row_ok; eauto.
Qed.
Lemma set_col_ok i x (pop pop' : list (list T)) : set_col i x pop = Ok pop' -> okx x -> Forall okx pop -> Forall okx pop'.
Proof using Type.
  intros H Hx F. apply Forall_forall. intros y Hy. destruct (upd_at_in_inv _ _ _ _ _ H Hy) as [->|]; auto. eapply Forall_forall; eauto.
Qed.
Lemma ask_ok s pop s1 : ask no e g s = Ok (pop, s1) -> length pop = g_lambda g /\ Forall okx pop.
Proof using HG HD.
  destruct HD as (D1 & D2 & D3 & D4 & D5). unfold ask. rewrite HG. intros H.
  specialize (D1 (g_lambda g) (n_eigen no (t_niter s) (s_num (t_sol s)))).
  specialize (D2 (g_lambda g) (n_eigen no (t_niter s) (s_num (t_sol s)))).
  destruct (n_sample no (g_lambda g) _) as [pop0 n2]. cbn [fst snd bind t_niter set_t_sol t_sol] in *.
  assert (F0 : Forall okx pop0) by (apply Forall_forall; auto).
  destruct ((g_tpa g =? 2) && (0 <? t_niter s)).
  - cbn [t_sol set_t_sol set_s_num s_num s_tpa1 s_tpa2] in H. specialize (D5 n2). destruct (n_tpa_points no n2) as [[x1 x2] n3].
    destruct D5 as [D5 D6]. cbv zeta in H. inv_do H. destruct a as [pop3 s3]. inv_do H0. inv_do H0. injection H0 as <- <-. inv_do H. injection H as <- <-.
    pose proof (fix_rows_length _ _ _ H0) as L0. pose proof (set_col_spec _ _ _ _ H1) as [L1 _]. pose proof (set_col_spec _ _ _ _ H2) as [L2 _].
    split; [congruence|]. eapply fix_rows_ok; [eauto|]. eapply set_col_ok; [eauto|exact D6|]. eapply set_col_ok; [eauto|exact D5|]. auto.
  - cbn [bind] in H. inv_do H. injection H as <- <-. pose proof (fix_rows_length _ _ _ H0) as L0. split; [congruence|]. eapply fix_rows_ok; eauto.
Qed.

Lemma phen_mt cols : Forall okx cols -> mapM (e_pheno e') (map h cols) = rmap (map h) (mapM (e_pheno e) cols).
Proof using E_pheno.
  induction 1 as [|x cols Hx _ IH]; cbn [map mapM]; auto. rewrite E_pheno, bind_rmap, rmap_bind by auto. apply bind_ext'. intros y.
  rewrite IH, bind_rmap, rmap_bind. apply bind_ext'. reflexivity.
Qed.
Lemma phen_ok cols : Forall okx cols -> forall ph, mapM (e_pheno e) cols = Ok ph -> Forall okx ph.
Proof using HP.
  induction 1 as [|x cols Hx _ IH]; intros ph H; cbn [mapM] in H; [injection H as <-; constructor|].
  inv_do H. inv_do H. injection H as <-. constructor; eauto.
Qed.

Definition phen_fit (cols phen : list (list T)) : Prop := (phen = [] \/ (length cols <= length phen)%nat) /\ Forall okx phen.
Lemma eval_cols_mt cols phen n' : Forall okx cols -> Forall okx phen -> forall r s,
  eval_cols e' r (map h cols) (map h phen) (mt n' s) = rmap (mt n') (eval_cols e r cols phen s).
Proof using E_f.
  intros F FP. induction F as [|x cols Hx F IH]; intros r s; cbn [map eval_cols]; auto.
  change (s_cands (t_sol (mt n' s))) with (map mv (s_cands (t_sol s))). rewrite at_map, bind_rmap, rmap_bind. apply bind_ext'. intros c.
  assert (E : (match map h phen with [] => Ok (h x) | _ => at_ (map h phen) r end) = rmap h (match phen with [] => Ok x | _ => at_ phen r end)).
  { rewrite at_map. destruct phen; reflexivity. }
  rewrite E, bind_rmap, rmap_bind.
  assert (OY : forall y, (match phen with [] => Ok x | _ => at_ phen r end) = Ok y -> okx y).
  { intros y HY. destruct phen as [|p0 phen]; [injection HY as <-; auto|]. apply at_ok in HY as [_ HY]. apply nth_error_In in HY. eapply Forall_forall; eauto. }
  destruct (match phen with [] => Ok x | _ => at_ phen r end) as [y|]; [|reflexivity]. cbn [bind]. specialize (OY y eq_refl).
  unfold call. replace (length (t_log (mt n' s))) with (length (t_log s)) by (cbn; now rewrite map_length).
  rewrite E_f by auto. set (v := e_f e (length (t_log s)) y).
  cbn [t_sol set_t_log]. change (s_cands (t_sol (mt n' s))) with (map mv (s_cands (t_sol s))).
  change (mkCand v (h x) r (c_r (mv c))) with (mv (mkCand v x r (c_r c))). rewrite upd_at_map, bind_rmap, rmap_bind. apply bind_ext'. intros cs.
  rewrite <- IH. f_equal. unfold mt, set_t_sol, set_t_log. cbn. rewrite map_app. reflexivity.
Qed.
Lemma eval_uh_mt muts n' n : Forall okx muts -> forall r s,
  eval_uh e' r n (map h muts) (mt n' s) = rmap (fun p => (fst p, mt n' (snd p))) (eval_uh e r n muts s).
Proof using E_f.
  intros F. induction n as [|n IH]; intros r s; cbn [eval_uh]; auto.
  change (s_cands (t_sol (mt n' s))) with (map mv (s_cands (t_sol s))). rewrite at_map, bind_rmap, rmap_bind. apply bind_ext'. intros c.
  change (s_reev (t_sol (mt n' s))) with (s_reev (t_sol s)). destruct (r <? _)%nat.
  - rewrite at_map, bind_rmap, rmap_bind.
    assert (OY : forall y, at_ muts (Z.of_nat r) = Ok y -> okx y).
    { intros y HY. apply at_ok in HY as [_ HY]. apply nth_error_In in HY. eapply Forall_forall; eauto. }
    destruct (at_ muts (Z.of_nat r)) as [y|]; [|reflexivity]. cbn [bind]. specialize (OY y eq_refl).
    unfold call. replace (length (t_log (mt n' s))) with (length (t_log s)) by (cbn; now rewrite map_length).
    rewrite E_f by auto. set (v := e_f e (length (t_log s)) y). rewrite rmap_bind.
    match goal with |- bind (eval_uh e' _ _ _ ?a) _ = _ => replace a with (mt n' (set_t_log (t_log s ++ [(y, v)]) s)) end.
    + rewrite IH, bind_rmap. apply bind_ext'. intros p. reflexivity.
    + unfold mt, set_t_log. cbn. rewrite map_app. reflexivity.
  - rewrite rmap_bind, IH, bind_rmap. apply bind_ext'. intros p. reflexivity.
Qed.
Lemma perform_uh_mt cols phen n' s : g_uh g = true -> R (s_num (t_sol s)) n' -> Forall okx cols -> Forall okx phen ->
  rel (perform_uh no e g cols phen s) (perform_uh no' e' g' (map h cols) (map h phen) (mt n' s)).
Proof using E_f R_coin R_mutate HM.
  intros HUH HR F FP. unfold perform_uh. cbn [mt t_sol ms s_num g' set_g_fixed g_reev].
  destruct (R_coin _ _ HR) as [C1 C2]. destruct (n_coin no _) as [coin n1]. destruct (n_coin no' n') as [coin' n1']. cbn [fst snd] in C1, C2. subst coin'.
  cbv zeta. match goal with |- context [match (if coin then S (g_reev g) else g_reev g) with O => 1%nat | S _ => ?b end] => set (reev := match (if coin then S (g_reev g) else g_reev g) with O => 1%nat | S _ => b end) end.
  assert (E : (match map h phen with [] => map h cols | _ => map h phen end) = map h (match phen with [] => cols | _ => phen end)) by (destruct phen; reflexivity).
  rewrite E. set (src := match phen with [] => cols | _ => phen end).
  assert (FS : Forall okx src) by (unfold src; destruct phen; auto).
  rewrite map_length. destruct (length src <? reev)%nat; [exact eq_refl|].
  rewrite firstn_map.
  assert (FF : Forall okx (firstn reev src)).
  { apply Forall_forall. intros x Hx. apply (proj1 (Forall_forall _ _) FS). rewrite <- (firstn_skipn reev src). apply in_or_app. auto. }
  destruct (R_mutate HUH (firstn reev src) n1 n1' C2 FF) as [M1 M2]. destruct (HM (firstn reev src) n1 FF) as [_ M3].
  destruct (n_mutate no _ n1) as [muts n2]. destruct (n_mutate no' _ n1') as [muts' n2']. cbn [fst snd] in M1, M2, M3. subst muts'.
  rewrite map_length. set (s1 := set_t_sol (set_s_reev reev (set_s_num n2 (t_sol s))) s).
  match goal with |- rel _ (bind (eval_uh e' _ _ _ ?a) _) => change a with (mt n2' s1) end.
  rewrite eval_uh_mt by auto. rewrite bind_rmap. destruct (eval_uh e 0 (length cols) muts s1) as [[l s2]|] eqn:EU; cbn [bind]; [|reflexivity].
  assert (K : s_num (t_sol s2) = n2).
  { apply eval_uh_spec in EU as (ys & _ & -> & _). reflexivity. }
  exists n2'. cbn [fst snd t_sol set_t_sol set_s_cuh s_num]. rewrite K. split; [exact M2|reflexivity].
Qed.
Lemma mv0 : mv cand0 = cand0.
Proof using h_nil. unfold move, cand0, cand_of. cbn. now rewrite h_nil. Qed.
Lemma elitist_mt k n' s : elitist g' k (mt n' s) = rmap (mt n') (elitist g k s).
Proof using h_nil.
  unfold elitist. cbn [t_niter t_initel mt g' set_g_fixed g_elit]. destruct ((0 <? t_niter s) && _); auto.
  set (el := g_elit g).
  change (s_cands (t_sol (mt n' s))) with (map mv (s_cands (t_sol s))). rewrite map_length.
  destruct (Nat.ltb _ k); auto.
  set (ref := if e_restart el || e_init el then s_init (t_sol s) else if e_best el then s_best (t_sol s) else cand0).
  assert (Er : (if e_restart el || e_init el then s_init (t_sol (mt n' s)) else if e_best el then s_best (t_sol (mt n' s)) else cand0) = mv ref).
  { unfold ref. destruct (e_restart el || e_init el); [reflexivity|]. destruct (e_best el); [reflexivity|]. now rewrite mv0. }
  rewrite Er. change (c_f (mv ref)) with (c_f ref). set (rf := if e_restart el || e_init el || e_best el then c_f ref else dbl_max).
  assert (Ef : length (filter (fun c => dlt (c_f c) rf) (firstn k (map mv (s_cands (t_sol s))))) = length (filter (fun c => dlt (c_f c) rf) (firstn k (s_cands (t_sol s))))).
  { rewrite firstn_map. generalize (firstn k (s_cands (t_sol s))). intros l. induction l as [|c l IH]; auto. cbn [map filter]. change (c_f (mv c)) with (c_f c). destruct (dlt (c_f c) rf); cbn [length]; auto. }
  cbv zeta. rewrite Ef. destruct (Nat.ltb _ (k / 2)); auto.
  rewrite upd_at_map, bind_rmap, rmap_bind. apply bind_ext'. intros cs. reflexivity.
Qed.
Lemma eval_cols_num cols phen : forall r s s', eval_cols e r cols phen s = Ok s' -> s_num (t_sol s') = s_num (t_sol s).
Proof using Type.
  induction cols as [|x cols IH]; intros r s s' H; cbn [eval_cols] in H; [apply Ok_inj in H; subst; auto|].
  apply bind_ok in H as (c & _ & H). apply bind_ok in H as (y & _ & H). unfold call in H. apply bind_ok in H as (cs & _ & H). apply IH in H. exact H.
Qed.
Lemma eval_mt cols phen n' s : R (s_num (t_sol s)) n' -> Forall okx cols -> Forall okx phen ->
  rel (eval no e g cols phen s) (eval no' e' g' (map h cols) (map h phen) (mt n' s)).
Proof using E_f R_coin R_mutate HM h_nil.
  intros HR F FP. unfold eval. rewrite eval_cols_mt, bind_rmap by auto. destruct (eval_cols e 0 cols phen s) as [s1|] eqn:E1; cbn [bind]; [|reflexivity].
  apply eval_cols_num in E1. rewrite map_length.
  set (s2 := set_t_gens (t_gens s1 ++ [firstn (length cols) (s_cands (t_sol s1))]) s1).
  match goal with |- context [set_t_gens ?G (mt n' s1)] => set (G1 := G) end.
  assert (E : set_t_gens G1 (mt n' s1) = mt n' s2).
  { unfold G1, s2, mt, set_t_gens. cbn. rewrite map_app. cbn. now rewrite firstn_map. }
  rewrite E. change (g_uh g') with (g_uh g).
  apply rel_bind.
  - destruct (bool_dec (g_uh g) true) as [HUH|HUH]; [rewrite HUH at 1 2; apply perform_uh_mt; auto; unfold s2; cbn; now rewrite E1|]. apply not_true_is_false in HUH. rewrite HUH. exists n'. split; [unfold s2; cbn; now rewrite E1|reflexivity].
  - intros s3 n3 _ HR3. cbv zeta. change (s_reev (t_sol (mt n3 s3))) with (s_reev (t_sol s3)). rewrite elitist_mt, bind_rmap.
    destruct (elitist g (length cols) s3) as [s4|] eqn:E4; cbn [bind]; [|reflexivity]. exists n3. split; [|reflexivity].
    apply elitist_spec in E4 as (cs & -> & _). exact HR3.
Qed.
Lemma insert_mt c l : insert_cand (mv c) (map mv l) = map mv (insert_cand c l).
Proof using Type. induction l as [|d l IH]; cbn; auto. destruct (dlt _ _); cbn; [now rewrite IH|auto]. Qed.
Lemma sort_mt l : sort_cands (map mv l) = map mv (sort_cands l).
Proof using Type. induction l as [|c l IH]; cbn; auto. now rewrite IH, insert_mt. Qed.
Lemma compares_mt l : compares_ok (map mv l) = compares_ok l.
Proof using Type.
  unfold compares_ok. rewrite !existsb_map. f_equal. f_equal. apply existsb_ext'. intros a. rewrite existsb_map. reflexivity.
Qed.
Lemma mapM_at l (cs : list (cand T)) : mapM (fun c => at_ (map mv cs) (Z.of_nat (r_idx c))) l = rmap (map mv) (mapM (fun c => at_ cs (Z.of_nat (r_idx c))) l).
Proof using Type.
  induction l as [|c l IH]; cbn [mapM]; auto. rewrite at_map, bind_rmap, rmap_bind. apply bind_ext'. intros a. rewrite IH, bind_rmap, rmap_bind. apply bind_ext'. reflexivity.
Qed.
Lemma uh_mt n' so : uncertainty_handling e' g' (ms n' so) = rmap (ms n') (uncertainty_handling e g so).
Proof using E_sort.
  unfold uncertainty_handling, std_sort. rewrite E_sort.
  change (s_cuh (ms n' so)) with (s_cuh so). change (s_reev (ms n' so)) with (s_reev so). rewrite rmap_bind. apply bind_ext'. intros l1.
  rewrite rmap_bind. apply bind_ext'. intros l2. cbv zeta. rewrite rmap_bind. apply bind_ext'. intros l4.
  change (s_cands (ms n' so)) with (map mv (s_cands so)). rewrite mapM_at, bind_rmap, rmap_bind. apply bind_ext'. intros cs. reflexivity.
Qed.
Lemma rank_mt n' so :
  (if g_uh g then uncertainty_handling e' g' (ms n' so) else sort_candidates (ms n' so)) =
  rmap (ms n') (if g_uh g then uncertainty_handling e g so else sort_candidates so).
Proof using E_sort.
  case (g_uh g); [apply uh_mt|]. unfold sort_candidates. change (s_cands (ms n' so)) with (map mv (s_cands so)). rewrite compares_mt, sort_mt.
  destruct (compares_ok _); reflexivity.
Qed.
Lemma drop_map {A B} (f : A -> B) b l : drop_if b (map f l) = map f (drop_if b l).
Proof using Type. destruct b, l; auto. Qed.
Lemma empty_mt (c : cand T) : (match c_x (mv c) with [] => true | _ => false end) = (match c_x c with [] => true | _ => false end).
Proof using h_nil h_cons. unfold move. cbn. destruct (c_x c) as [|x l]; [now rewrite h_nil|]. pose proof (h_cons x l). destruct (h (x :: l)); tauto. Qed.
Lemma ubc_mt n' so : R (s_num so) n' -> update_best_candidates no' (ms n' so) = rmap (ms n') (update_best_candidates no so).
Proof using R_xmean h_nil h_cons.
  intros HR. unfold update_best_candidates.
  assert (H1 : update_hist (ms n' so) = rmap (ms n') (update_hist so)).
  { unfold update_hist. change (s_cands (ms n' so)) with (map mv (s_cands so)). change (s_kcand (ms n' so)) with (s_kcand so).
    rewrite !at_map. destruct (at_ (s_cands so) 0) as [c0|] eqn:E0; cbn [bind rmap]; [|reflexivity].
    destruct (at_ (s_cands so) (s_kcand so)) as [ck|]; cbn [bind rmap]; [|reflexivity].
    f_equal. unfold ms, set_s_hist, set_s_khist, set_s_bf. cbn [s_cands s_hist s_khist s_bf s_med s_best s_best_iter s_worst s_init s_niter s_nevals s_kcand s_maxhist s_status s_cuh s_reev s_suh s_tpa1 s_tpa2 s_num].
    rewrite !app_length, !map_length. cbn [length]. f_equal; rewrite <- drop_map, map_app; auto. }
  rewrite H1, bind_rmap.
  destruct (update_hist so) as [s3|f3] eqn:E3; cbn [bind]; [|reflexivity]. clear H1.
  assert (HR3 : R (s_num s3) n').
  { unfold update_hist in E3. apply bind_ok in E3 as (? & _ & E3). apply bind_ok in E3 as (? & _ & E3). apply Ok_inj in E3. subst s3. exact HR. }
  assert (H2 : update_medians no' (ms n' s3) = rmap (ms n') (update_medians no s3)).
  { unfold update_medians. change (s_cands (ms n' s3)) with (map mv (s_cands s3)). rewrite map_length, !at_map. cbn [s_num ms]. rewrite (proj2 (R_xmean _ _ HR3)).
    destruct (Z.of_nat (length (s_cands s3)) =? 0); [auto|].
    destruct (_ mod 2 =? 0).
    - destruct (at_ (s_cands s3) _); cbn [bind rmap]; [|auto].
      destruct (at_ (s_cands s3) _); cbn [bind rmap]; [|auto]. reflexivity.
    - destruct (at_ (s_cands s3) _); cbn [bind rmap]; [|auto]. reflexivity. }
  rewrite H2, bind_rmap. destruct (update_medians no s3) as [s4|]; cbn [bind]; [|reflexivity].
  unfold update_seen. change (s_cands (ms n' s4)) with (map mv (s_cands s4)). rewrite at_map, bind_rmap, rmap_bind. apply bind_ext'. intros c0.
  rewrite <- map_rev. destruct (rev (s_cands s4)) as [|cl r]; [reflexivity|]. cbn [map].
  change (s_best (ms n' s4)) with (mv (s_best s4)). change (s_worst (ms n' s4)) with (mv (s_worst s4)). rewrite !empty_mt.
  cbn [rmap]. f_equal. 
  change (c_f (mv (s_best s4))) with (c_f (s_best s4)). change (c_f (mv (s_worst s4))) with (c_f (s_worst s4)).
  change (c_f (mv c0)) with (c_f c0). change (c_f (mv cl)) with (c_f cl). change (s_niter (ms n' s4)) with (s_niter s4).
  destruct (_ || _); destruct (_ || _); reflexivity.
Qed.
Lemma tell_mt n' s : R (s_num (t_sol s)) n' ->
  (forall s1, (if g_uh g then uncertainty_handling e g (t_sol s) else sort_candidates (t_sol s)) = Ok s1 ->
     Forall okx (map c_x (s_cands s1)) /\ length (s_cands s1) = g_lambda g /\ s_num s1 = s_num (t_sol s)) ->
  rel (tell no e g s) (tell no' e' g' (mt n' s)).
Proof using E_sort R_xmean h_nil h_cons R_tpa R_update R_scale.
  intros HR HF. unfold tell. change (g_uh g') with (g_uh g). change (t_sol (mt n' s)) with (ms n' (t_sol s)). rewrite rank_mt, bind_rmap.
  destruct (if g_uh g then uncertainty_handling e g (t_sol s) else sort_candidates (t_sol s)) as [s1|]; cbn [bind]; [|reflexivity].
  destruct (HF s1 eq_refl) as (F1 & L1 & N1). clear HF. rewrite <- N1 in HR. clear N1.
  change (t_niter (mt n' s)) with (t_niter s). change (g_tpa g') with (g_tpa g). cbv zeta.
  set (b := (g_tpa g =? 2) && (0 <? t_niter s)).
  assert (Etpa : exists n2, R (s_num (if b then tpa_update no s1 else s1)) n2 /\ (if b then tpa_update no' (ms n' s1) else ms n' s1) = ms n2 (if b then tpa_update no s1 else s1)).
  { destruct b; [|exists n'; auto]. unfold tpa_update, tpa_rank_diff. cbn [s_tpa1 s_tpa2 s_cands ms s_num].
    assert (F : forall l id i, find_id id i (map mv l) = find_id id i l).
    { induction l as [|c l IH]; intros id i; cbn; auto. destruct (_ =? _); auto. }
    rewrite !F. eexists. split; [|reflexivity]. cbn. apply R_tpa, HR. }
  destruct Etpa as (n2 & HR2 & Etpa). rewrite Etpa.
  assert (C2 : s_cands (if b then tpa_update no s1 else s1) = s_cands s1) by (destruct b; reflexivity).
  set (s2 := if b then tpa_update no s1 else s1) in *. clearbody s2. rewrite <- C2 in F1, L1. clear Etpa C2 HR s1.
  rewrite ubc_mt, bind_rmap by auto. destruct (update_best_candidates no s2) as [s3|] eqn:E3; cbn [bind]; [|reflexivity].
  apply ubc_spec in E3 as [K _]. unfold kept_by_tell in K. injection K as K1 _ _ _ _ _ _ KN _ _ _ _ _.
  rewrite <- K1 in F1, L1. rewrite <- KN in HR2.
  cbn [s_num ms s_cands s_niter set_s_num s_suh].
  assert (XX : map c_x (map mv (s_cands s3)) = map h (map c_x (s_cands s3))) by (rewrite !map_map; reflexivity).
  rewrite XX.
  pose proof (R_update (s_niter s3) (map c_x (s_cands s3)) _ _ HR2 F1 ltac:(rewrite map_length; exact L1)) as RU.
  destruct (g_uh g && (0 <? s_suh s3)).
  - eexists. split; [|reflexivity]. cbn. apply R_scale, RU.
  - eexists. split; [|reflexivity]. exact RU.
Qed.

(** What holds between generations. *)
Hypothesis HU : std_sort_ok e.
Definition V (s : st) : Prop :=
  length (s_cands (t_sol s)) = g_lambda g /\ 0 <= s_niter (t_sol s) /\
  (okx (c_x (s_best (t_sol s))) \/ (c_x (s_best (t_sol s)) = [] /\ s_niter (t_sol s) = 0 /\ t_niter s = 0 /\ c_f (s_best (t_sol s)) = NaN)).
(** The initial point, when generations can be given it, has been evaluated. *)
Definition uses_init (s : st) : bool := e_init (g_elit g) || e_restart (g_elit g) && (e_best (g_elit g) || t_initel s).
Definition W (s : st) : Prop := V s /\ (uses_init s = true -> okx (c_x (s_init (t_sol s)))).
Lemma le1_W s : elitism_le1 g -> V s -> W s.
Proof using Type. intros [A B] HV. split; [exact HV|]. unfold uses_init. rewrite A, B. discriminate. Qed.
Lemma ranked_init (s : st) s1 : ranked e g s s1 -> s_init s1 = s_init (t_sol s).
Proof using Type.
  intros [(_ & _ & ->)|(_ & U2)]; [reflexivity|]. unfold uncertainty_handling in U2.
  apply bind_ok in U2 as (? & _ & U2). apply bind_ok in U2 as (? & _ & U2). cbv zeta in U2.
  apply bind_ok in U2 as (? & _ & U2). apply bind_ok in U2 as (? & _ & U2). apply Ok_inj in U2. subst s1. auto.
Qed.
Definition okc (cols phen : list (list T)) : Prop := length cols = g_lambda g /\ Forall okx cols /\ Forall okx phen.
Lemma eval_okx cols phen s s1 : W s -> okc cols phen -> eval no e g cols phen s = Ok s1 ->
  Forall okx (map c_x (s_cands (t_sol s1))) /\ length (s_cands (t_sol s1)) = g_lambda g /\
  (g_uh g = true -> map r_idx (s_cuh (t_sol s1)) = seq 0 (length (s_cands (t_sol s1)))) /\
  s_best (t_sol s1) = s_best (t_sol s) /\ s_niter (t_sol s1) = s_niter (t_sol s) /\ t_niter s1 = t_niter s /\
  s_init (t_sol s1) = s_init (t_sol s) /\ t_initel s1 = t_initel s.
Proof using Type.
  clear R_new. intros ((H2 & H3 & H4) & H5) (Hc & Hf & _) Hev.
  apply eval_spec in Hev as (_ & _ & K & _ & L & _ & _ & _ & _ & C & U). unfold keep in K. injection K as _ _ _ _ KB _ _ KI KN _ _ _ KT KL _.
  split; [|split; [congruence|split; [intros Q; destruct (U Q) as [-> _]; congruence|auto 6]]].
  assert (FM : Forall okx (map c_x (mid_cands e cols phen s))).
  { unfold mid_cands. rewrite skipn_all2 by lia. rewrite app_nil_r, new_gen_x. exact Hf. }
  destruct C as [[C _]|(C0 & C & _)]; [rewrite C; exact FM|].
  apply Forall_forall. intros x Hx. apply in_map_iff in Hx as (c & <- & Hx). destruct (upd_at_in_inv _ _ _ _ _ C Hx) as [->|Hx'].
  - unfold ref_cand. unfold elit_on in C0. apply andb_true_iff in C0 as [C0 C1]. unfold uses_init in H5.
    destruct (e_restart (g_elit g) || e_init (g_elit g)) eqn:Q.
    + apply H5. destruct (e_restart (g_elit g)), (e_init (g_elit g)), (e_best (g_elit g)), (t_initel s); auto.
    + destruct H4 as [H4|(_ & _ & H4 & _)]; [exact H4|]. rewrite H4 in C0. discriminate.
  - apply (proj1 (Forall_forall _ _) FM). apply in_map, Hx'.
Qed.
Lemma rank_okx s s1 : Forall okx (map c_x (s_cands (t_sol s))) -> length (s_cands (t_sol s)) = g_lambda g ->
  (g_uh g = true -> map r_idx (s_cuh (t_sol s)) = seq 0 (length (s_cands (t_sol s)))) ->
  ranked e g s s1 -> Forall okx (map c_x (s_cands s1)) /\ length (s_cands s1) = g_lambda g /\ s_num s1 = s_num (t_sol s) /\ s_best s1 = s_best (t_sol s) /\ s_niter s1 = s_niter (t_sol s).
Proof using HU.
  intros F L U Hr. apply ranked_perm in Hr as (P3 & N3 & B3 & M3); auto.
  split; [|split; [rewrite (Permutation_length P3); auto|auto]].
  apply Forall_forall. intros x Hx. apply (proj1 (Forall_forall _ _) F). eapply Permutation_in; [apply Permutation_map, P3|exact Hx].
Qed.
Lemma W_gen s cols phen s1 s2 : W s -> okc cols phen -> eval no e g cols phen s = Ok s1 -> tell no e g s1 = Ok s2 -> W (inc_iter s2).
Proof using HU.
  intros HW Ho Hev Ht. pose proof HW as ((H2 & H3 & H4) & H5). destruct (eval_okx _ _ _ _ HW Ho Hev) as (F1 & L1 & U1 & KB & KN & KT & KI & KL). clear Hev Ho HW.
  apply tell_spec in Ht as (s3 & s4 & s5 & n6 & Hr & E4 & E5 & E6 & _). pose proof (ranked_init _ _ Hr) as I3.
  apply rank_okx in Hr as (F3 & L3 & _ & B3 & N3); auto.
  assert (D4 : s_cands s4 = s_cands s3 /\ s_niter s4 = s_niter s3 /\ s_best s4 = s_best s3 /\ s_init s4 = s_init s3) by (subst s4; destruct (_ && _); auto).
  destruct D4 as (D4 & D5 & D6 & D7).
  apply ubc_spec in E5 as [K5 (c0 & ck & cl & m & rest & Ec0 & _ & _ & _ & _ & _ & _ & _ & EB & _)].
  unfold kept_by_tell in K5. injection K5 as K51 K52 K53 _ _ _ _ _ _ _ _ _ _.
  split; [|intros Q; assert (Q' : uses_init s = true) by (subst s2; unfold uses_init in *; cbn in Q; rewrite KL in Q; exact Q); specialize (H5 Q'); subst s2; cbn; rewrite K52, D7, I3, KI; exact H5].
  split; [subst s2; cbn; congruence|]. split; [subst s2; cbn; lia|].
  left. change (okx (c_x (s_best (t_sol s2)))). rewrite E6. cbn [set_t_sol t_sol set_s_num s_best]. rewrite EB.
  unfold best_take. rewrite D5, D6, N3, B3, KB, KN.
  destruct ((s_niter (t_sol s) =? 0) && match c_x (s_best (t_sol s)) with [] => true | _ => false end || dlt (c_f c0) (c_f (s_best (t_sol s)))) eqn:Q.
  + apply (proj1 (Forall_forall _ _) F3). apply in_map. rewrite <- D4. eapply nth_error_In; eauto.
  + destruct H4 as [H4|(H4 & H6 & _)]; [exact H4|]. rewrite H4, H6 in Q. discriminate.
Qed.
Lemma gen_mt n' cols phen s : W s -> R (s_num (t_sol s)) n' -> okc cols phen ->
  rel (do s1 <- eval no e g cols phen s; do s2 <- tell no e g s1; Ok (inc_iter s2))
      (do s1 <- eval no' e' g' (map h cols) (map h phen) (mt n' s); do s2 <- tell no' e' g' s1; Ok (inc_iter s2)).
Proof using HU E_f E_sort R_coin R_mutate HM h_nil h_cons R_xmean R_tpa R_update R_scale.
  intros HW HR Ho. pose proof Ho as (_ & F1 & F2).
  apply rel_bind; [apply eval_mt; auto|]. intros s1 n1 E1 HR1. destruct (eval_okx _ _ _ _ HW Ho E1) as (F3 & L3 & U3 & _).
  apply rel_bind.
  - apply tell_mt; auto. intros s2 E2.
    assert (HK : ranked e g s1 s2).
    { unfold ranked. destruct (g_uh g); [auto|left]. unfold sort_candidates in E2. destruct (compares_ok _); [apply Ok_inj in E2; auto|discriminate]. }
    destruct (rank_okx s1 s2 F3 L3 U3 HK) as (? & ? & ? & _). auto.
  - intros s2 n2 _ HR2. exists n2. split; [exact HR2|reflexivity].
Qed.
Lemma ask_V s pop s' : V s -> ask no e g s = Ok (pop, s') -> V s'.
Proof using Type.
  intros HP' H. apply ask_spec in H as ((K & _ & HC & _) & _). unfold keep in K. injection K as _ _ _ _ KB _ _ _ KN _ _ _ KT _ _.
  unfold V in *. rewrite HC, KB, KN, KT. exact HP'.
Qed.
Lemma ask_W s pop s' : W s -> ask no e g s = Ok (pop, s') -> W s'.
Proof using Type.
  intros [HV HI] H. split; [eapply ask_V; eauto|]. apply ask_spec in H as ((K & _) & _). unfold keep in K. injection K as _ _ _ _ _ _ _ KI _ _ _ _ _ KL _.
  unfold uses_init in *. rewrite KI, KL. exact HI.
Qed.
Lemma round_mt n' s : W s -> R (s_num (t_sol s)) n' -> rel (round no e g s) (round no' e' g' (mt n' s)).
Proof using HU HD HP E_pheno h_fix R_eigen R_sample R_tpa_points HG E_f E_sort R_coin R_mutate HM h_nil h_cons R_xmean R_tpa R_update R_scale.
  intros HW HR. unfold round. pose proof (ask_mt n' s HR) as A. destruct (ask no e g s) as [[pop s1]|] eqn:E; [|rewrite A; reflexivity].
  destruct A as (n1 & HR1 & ->). cbn [bind fst snd]. destruct (ask_ok _ _ _ E) as [L F]. apply ask_W in E; auto. rewrite phen_mt, bind_rmap by auto.
  destruct (mapM (e_pheno e) pop) as [ph|] eqn:EP; cbn [bind]; [|reflexivity]. apply gen_mt; auto. split; [auto|split; auto]. eapply phen_ok; eauto.
Qed.
Lemma W_stop s b s' : W s -> stop no e g s = Ok (b, s') -> W s'.
Proof using Type. intros HW H. apply stop_spec in H as [(_ & -> & _)|(_ & _ & [(_ & _ & ->)|(_ & r & _ & _ & ->)])]; auto. Qed.
Lemma V_stop s b s' : V s -> stop no e g s = Ok (b, s') -> V s'.
Proof using Type. intros HW H. apply stop_spec in H as [(_ & -> & _)|(_ & _ & [(_ & _ & ->)|(_ & r & _ & _ & ->)])]; auto. Qed.
Lemma W_init s s' : V s -> eval_initial no e g s = Ok s' -> W s'.
Proof using HD.
  clear R_new. intros HW H. unfold eval_initial in H. destruct (t_initel s || e_init (g_elit g) || e_best (g_elit g) || g_init_fvalue g) eqn:Q.
  - apply bind_ok in H as (y & _ & H). apply Ok_inj in H. subst s'.
    destruct HW as (H1 & H2 & _). assert (O : okx (n_xmean no (s_num (t_sol s)))) by (destruct HD as (_ & _ & D3 & _); apply D3).
    split; [|intros _; exact O]. split; [exact H1|]. split; [exact H2|]. left. exact O.
  - apply Ok_inj in H. subst s'. split; [exact HW|]. unfold uses_init. destruct (t_initel s), (e_init (g_elit g)), (e_best (g_elit g)); try discriminate. rewrite andb_false_r. discriminate.
Qed.
Lemma W_round s s' : W s -> round no e g s = Ok s' -> W s'.
Proof using HU HD HP HG.
  intros HW H. unfold round in H. apply bind_ok in H as ([pop s1] & E & H). cbn [fst snd] in H. apply bind_ok in H as (ph & EP & H). apply bind_ok in H as (s2 & E2 & H). apply bind_ok in H as (s3 & E3 & H).
  apply Ok_inj in H. subst s'. destruct (ask_ok _ _ _ E) as [L F]. eapply W_gen; [eapply ask_W; eauto| |eauto|eauto]. split; [auto|split; auto]. eapply phen_ok; eauto.
Qed.
Lemma rounds_mt k : forall n' s, W s -> R (s_num (t_sol s)) n' -> rel (rounds no g e k s) (rounds no' g' e' k (mt n' s)).
Proof using HU HD HP E_pheno h_fix R_eigen R_sample R_tpa_points HG E_f E_sort R_coin R_mutate HM h_nil h_cons R_xmean R_tpa R_update R_scale.
  induction k as [|k IH]; intros n' s HW HR; cbn [rounds]; [exists n'; auto|]. apply rel_bind; [apply round_mt; auto|].
  intros s1 n1 E1 HR1. apply IH; auto. eapply W_round; eauto.
Qed.

(** Stopping and the whole optimisation. *)
Lemma best_candidate_ms n' so : R (s_num so) n' -> c_f (best_candidate no' (ms n' so)) = c_f (best_candidate no so).
Proof using h_nil h_cons.
  intros HR. unfold best_candidate. change (s_hist (ms n' so)) with (map mv (s_hist so)). rewrite <- map_rev. destruct (rev (s_hist so)); cbn [map]; auto.
  change (s_init (ms n' so)) with (mv (s_init so)). pose proof (empty_mt (s_init so)) as E. destruct (c_x (mv (s_init so))), (c_x (s_init so)); auto; discriminate.
Qed.
Lemma map_cf l : map c_f (map mv l) = map c_f l.
Proof using Type. rewrite map_map. reflexivity. Qed.
Lemma fold_cf {A} (f : A -> dbl -> A) l a : fold_left (fun m c => f m (c_f c)) (map mv l) a = fold_left (fun m c => f m (c_f c)) l a.
Proof using Type. revert a. induction l as [|c l IH]; intros a; cbn; auto. Qed.
Lemma criterion_ms n' c so : In (c, true) (g_flags g) -> R (s_num so) n' -> criterion no' g' c (ms n' so) = criterion no g c so.
Proof using h_nil h_cons R_crit.
  intros HA HR. unfold criterion. destruct (c =? 8); [reflexivity|]. destruct (c =? 9); [reflexivity|]. destruct (c =? 7); [reflexivity|].
  destruct (c =? 10); [unfold ftarget_crit; rewrite best_candidate_ms by auto; reflexivity|].
  destruct (c =? 1).
  { unfold tol_hist_fun_crit. change (g_lambda g') with (g_lambda g). change (g_dim g') with (g_dim g). change (g_ftol g') with (g_ftol g). destruct (_ =? 0); auto.
    change (s_hist (ms n' so)) with (map mv (s_hist so)). rewrite map_length. change (s_maxhist (ms n' so)) with (s_maxhist so). cbv zeta. destruct (_ <? _); auto.
    rewrite recent_map, bind_rmap. apply bind_ext'. intros a.
    rewrite <- map_rev, (fold_cf (fun m v => dmin v m)), (fold_cf (fun m v => dmax v m)). reflexivity. }
  destruct (c =? 5).
  { unfold equal_fun_vals_crit. change (s_hist (ms n' so)) with (map mv (s_hist so)). change (s_khist (ms n' so)) with (map mv (s_khist so)).
    rewrite map_length. change (s_maxhist (ms n' so)) with (s_maxhist so). change (g_dim g') with (g_dim g). destruct (_ <? s_maxhist so); auto.
    rewrite !recent_map, bind_rmap. apply bind_ext'. intros a. rewrite bind_rmap. apply bind_ext'. intros b. f_equal. f_equal. f_equal. f_equal.
    revert b. induction a as [|x a IH]; intros [|y b]; auto. cbn [map combine filter fst snd].
    change (c_f (mv x)) with (c_f x). change (c_f (mv y)) with (c_f y). destruct (deq _ _); cbn [length]; rewrite ?IH; auto. }
  destruct (c =? 6); [reflexivity|]. f_equal. apply R_crit; auto.
Qed.
Lemma scan_ms n' so : R (s_num so) n' -> stop_scan no' g' (g_flags g') (ms n' so) = stop_scan no g (g_flags g) so.
Proof using h_nil h_cons R_crit.
  intros HR. change (g_flags g') with (g_flags g). assert (X : forall l, incl l (g_flags g) -> stop_scan no' g' l (ms n' so) = stop_scan no g l so); [|apply X, incl_refl].
  induction l as [|[c a] l IH]; intros HI; cbn [stop_scan]; auto. apply incl_cons_inv in HI as [HA HI].
  rewrite IH by auto. destruct a; auto. rewrite criterion_ms; auto.
Qed.
Lemma ms_moved n' so : R (s_num so) n' -> moved_sol h R so (ms n' so).
Proof using Type. intros HR. unfold moved_sol. cbn. repeat split; auto. Qed.
Lemma mt_moved n' s : R (s_num (t_sol s)) n' -> moved h R s (mt n' s).
Proof using Type. intros HR. split; [apply ms_moved, HR|]. repeat split. Qed.
Lemma stop_mt n' s : R (s_num (t_sol s)) n' -> stop no' e' g' (mt n' s) = rmap (fun p => (fst p, mt n' (snd p))) (stop no e g s).
Proof using h_nil h_cons R_crit E_progress.
  intros HR. unfold stop. change (s_status (t_sol (mt n' s))) with (s_status (t_sol s)). destruct (_ <? 0); [reflexivity|].
  change (t_sol (mt n' s)) with (ms n' (t_sol s)).
  rewrite (E_progress (t_sol s) (ms n' (t_sol s)) (ms_moved n' _ HR)). destruct (negb (e_progress e (t_sol s) =? 0)); [reflexivity|]. change (t_niter (mt n' s)) with (t_niter s).
  destruct (t_niter s =? 0); [reflexivity|]. rewrite scan_ms, rmap_bind by auto. apply bind_ext'. intros r. reflexivity.
Qed.
Lemma loop_mt fuel : forall n' s, W s -> R (s_num (t_sol s)) n' -> rel (loop no e g (round no e g) fuel s) (loop no' e' g' (round no' e' g') fuel (mt n' s)).
Proof using HU HD HP E_pheno h_fix R_eigen R_sample R_tpa_points HG E_f E_sort R_coin R_mutate HM h_nil h_cons R_xmean R_tpa R_update R_scale R_crit E_progress.
  induction fuel as [|fuel IH]; intros n' s HW HR; cbn [loop]; [reflexivity|]. rewrite stop_mt, bind_rmap by auto. destruct (stop no e g s) as [[b s1]|] eqn:E; cbn [bind fst snd]; [|reflexivity].
  assert (HR1 : R (s_num (t_sol s1)) n').
  { apply stop_spec in E as [(_ & -> & _)|(_ & _ & [(_ & _ & ->)|(_ & r & _ & _ & ->)])]; auto. }
  apply W_stop in E; auto.
  destruct b; [exists n'; auto|]. apply rel_bind; [apply round_mt; auto|]. intros; apply IH; auto. eapply W_round; eauto.
Qed.
Lemma init_mt n' s : R (s_num (t_sol s)) n' -> eval_initial no' e' g' (mt n' s) = rmap (mt n') (eval_initial no e g s).
Proof using R_xmean E_pheno E_f HD HP.
  intros HR. unfold eval_initial. change (t_initel (mt n' s)) with (t_initel s). change (g_elit g') with (g_elit g). change (g_init_fvalue g') with (g_init_fvalue g). destruct (_ || _); [|reflexivity].
  change (s_num (t_sol (mt n' s))) with n'. rewrite (proj1 (R_xmean _ _ HR)). set (xm := n_xmean no (s_num (t_sol s))).
  assert (OX : okx xm) by (destruct HD as (_ & _ & D3 & _); apply D3). rewrite E_pheno, bind_rmap, rmap_bind by auto.
  destruct (e_pheno e xm) as [y|] eqn:EY; [|reflexivity]. cbn [bind]. assert (OY : okx y) by (eapply HP; eauto).
  unfold call. cbn [rmap]. f_equal.
  replace (length (t_log (mt n' s))) with (length (t_log s)) by (cbn; now rewrite map_length). rewrite E_f by auto.
  unfold mt, update_fevals, set_t_sol, set_t_log. cbn. rewrite map_app. reflexivity.
Qed.
Definition rel2 (r r' : res (Z * st)) : Prop :=
  match r with Ok (c, s) => exists n', R (s_num (t_sol s)) n' /\ r' = Ok (c, mt n' s) | Fault f => r' = Fault f end.
Lemma restart_mt n' s : R (s_num (t_sol s)) n' -> restart_wanted no' g' (mt n' s) = restart_wanted no g s.
Proof using h_nil h_cons.
  intros HR. unfold restart_wanted. change (t_sol (mt n' s)) with (ms n' (t_sol s)). rewrite best_candidate_ms by auto. reflexivity.
Qed.
Lemma restart_ok s : V s -> restart_wanted no g s = Ok true -> e_restart (g_elit g) = true /\ okx (c_x (s_best (t_sol s))).
Proof using Type.
  clear R_new. intros (_ & _ & H) Q. unfold restart_wanted in Q. destruct (e_restart (g_elit g)); [|discriminate]. split; [reflexivity|].
  destruct H as [H|(_ & _ & _ & H)]; [exact H|]. rewrite H in Q. discriminate.
Qed.
Lemma sol_new_mt x n n' : match sol_new no g x n with
  | Ok so => s_num so = n_new no x n /\ sol_new no' g' (h x) n' = Ok (ms (n_new no' (h x) n') so)
  | Fault f => sol_new no' g' (h x) n' = Fault f end.
Proof using h_nil.
  unfold sol_new. change (g_lambda g') with (g_lambda g). destruct (_ =? 0); [reflexivity|]. split; [reflexivity|].
  f_equal. unfold ms. cbn. rewrite mv0. f_equal. generalize (g_lambda g). intros k. induction k as [|k IH]; cbn [repeat map]; [auto|]. rewrite mv0, <- IH. reflexivity.
Qed.
Lemma reinit_mt n' s : e_restart (g_elit g) = true -> okx (c_x (s_best (t_sol s))) -> R (s_num (t_sol s)) n' -> rel (reinit no g s) (reinit no' g' (mt n' s)).
Proof using h_nil R_new.
  intros HE' HX HR. unfold reinit. change (c_x (s_best (t_sol (mt n' s)))) with (h (c_x (s_best (t_sol s)))). change (s_num (t_sol (mt n' s))) with n'.
  pose proof (sol_new_mt (c_x (s_best (t_sol s))) (s_num (t_sol s)) n') as Q.
  destruct (sol_new no g (c_x (s_best (t_sol s))) (s_num (t_sol s))) as [so|f]; cbn [bind]; [|rewrite Q; reflexivity].
  destruct Q as [Q1 ->]. cbn [bind]. exists (n_new no' (h (c_x (s_best (t_sol s)))) n'). split; [|reflexivity].
  cbn [t_sol set_s_nevals s_num]. rewrite Q1. apply R_new; auto.
Qed.
Lemma sol_new_V x n so b1 b2 b3 b4 b5 b6 : sol_new no g x n = Ok so -> V (mkSt (set_s_nevals b1 so) b2 0 b3 b4 b5 b6).
Proof using Type.
  unfold sol_new. destruct (_ =? 0); [discriminate|]. intros H. apply Ok_inj in H. subst so. unfold V. cbn. rewrite repeat_length. repeat split; auto; try lia.
Qed.
Lemma V_reinit s s' : reinit no g s = Ok s' -> V s'.
Proof using Type. intros H. apply reinit_spec in H as (so & H & ->). eapply sol_new_V; eauto. Qed.
Lemma W_loop fuel : forall s s', W s -> loop no e g (round no e g) fuel s = Ok s' -> W s'.
Proof using HU HD HP HG.
  induction fuel as [|fuel IH]; intros s s' HW H; cbn in H; [discriminate|].
  apply bind_ok in H as ([b s1] & E & H). cbn [fst snd] in H. apply W_stop in E; auto. destruct b; [apply Ok_inj in H; subst; auto|].
  apply bind_ok in H as (s2 & E2 & H). eapply IH; [|exact H]. eapply W_round; eauto.
Qed.
Lemma optimize_mt fuel rf : forall n' s, V s -> R (s_num (t_sol s)) n' ->
  rel2 (optimize no e g (round no e g) rf fuel s) (optimize no' e' g' (round no' e' g') rf fuel (mt n' s)).
Proof using HE HU R_new HD HP E_pheno h_fix R_eigen R_sample R_tpa_points HG E_f E_sort R_coin R_mutate HM h_nil h_cons R_xmean R_tpa R_update R_scale R_crit E_progress.
  assert (HE' : g_edm g' = false) by exact HE.
  induction rf as [|rf IH]; intros n' s HV HR; cbn [optimize]; rewrite HE, HE'; rewrite init_mt, bind_rmap by auto;
    (destruct (eval_initial no e g s) as [s1|] eqn:E1; cbn [bind]; [|reflexivity]);
    (assert (HR1 : R (s_num (t_sol s1)) n') by (apply eval_initial_spec in E1 as [(_ & ->)|(_ & y & _ & ->)]; auto));
    apply W_init in E1; auto; pose proof (loop_mt fuel n' s1 E1 HR1) as L;
    (destruct (loop no e g (round no e g) fuel s1) as [s2|] eqn:E2; cbn [rel bind] in *; [|rewrite L; reflexivity]);
    destruct L as (n2 & HR2 & ->); cbn [bind]; rewrite restart_mt by auto;
    (destruct (restart_wanted no g s2) as [[|]|] eqn:ER; cbn [bind]; [| |reflexivity]).
  - reflexivity.
  - exists n2. split; [exact HR2|reflexivity].
  - destruct (restart_ok s2 (proj1 (W_loop _ _ _ E1 E2)) ER) as [Q1 Q2].
    pose proof (reinit_mt n2 s2 Q1 Q2 HR2) as RI. destruct (reinit no g s2) as [s3|] eqn:E3; cbn [rel bind] in *; [|rewrite RI; reflexivity].
    destruct RI as (n3 & HR3 & ->). cbn [bind]. pose proof (IH n3 s3 (V_reinit _ _ E3) HR3) as O.
    destruct (optimize no e g (round no e g) rf fuel s3) as [[c s4]|]; cbn [rel2 bind snd] in *; [|rewrite O; reflexivity].
    destruct O as (n4 & HR4 & ->). cbn [bind snd]. exists n4. split; [exact HR4|reflexivity].
  - exists n2. split; [exact HR2|reflexivity].
Qed.
Lemma W_optimize fuel rf : forall s c s', V s -> optimize no e g (round no e g) rf fuel s = Ok (c, s') -> W s'.
Proof using HE HU HD HP HG.
  induction rf as [|rf IH]; intros s c s' HV H; apply optimize_unfold in H as (s1 & s2 & s3 & w & H1 & H2 & H3 & H4 & H5 & _); rewrite HE in H3; subst s3;
    apply W_init in H1; auto; apply W_loop in H2; auto.
  - destruct H5 as [(_ & ->)|(_ & rf' & s4 & r' & H5 & _)]; [exact H2|discriminate].
  - destruct H5 as [(_ & ->)|(_ & rf' & s4 & r' & H5 & H6 & H7)]; [exact H2|]. injection H5 as <-. eapply IH; [|exact H7]. eapply V_reinit; eauto.
Qed.
(** Calls made by the user. *)
Definition okop (o : op T) : Prop :=
  match o with OEval _ _ | OTell | OInc => False | OGen cols phen => okc cols phen | _ => True end.
Definition is_gen (o : op T) : bool := match o with OGen _ _ => true | _ => false end.
Definition is_opt (o : op T) : bool := match o with OOptimize _ _ => true | _ => false end.
(** [b]: generations can be made. *)
Definition X (b : bool) (s : st) : Prop := V s /\ (b = true -> W s).
Lemma op_mt o b n' s : okop o -> (is_gen o = true -> b = true) -> X b s -> R (s_num (t_sol s)) n' -> rel (do_op no e g o s) (do_op no' e' g' (move_op h o) (mt n' s)).
Proof using HE HU R_new HD HP E_pheno h_fix R_eigen R_sample R_tpa_points HG E_f E_sort R_coin R_mutate HM h_nil h_cons R_xmean R_tpa R_update R_scale R_crit E_progress.
  destruct o as [|cols phen| | | |cols phen|rf fuel]; cbn [do_op okop move_op is_gen]; intros B HB [HV HW] HR; try tauto.
  - pose proof (ask_mt n' s HR) as A. destruct (ask no e g s) as [[pop s1]|]; [|rewrite A; reflexivity]. destruct A as (n1 & HR1 & ->). exists n1. split; [exact HR1|reflexivity].
  - rewrite stop_mt, bind_rmap by auto. destruct (stop no e g s) as [[c s1]|] eqn:E; cbn [bind fst snd]; [|reflexivity]. exists n'. split; [|reflexivity].
    apply stop_spec in E as [(_ & -> & _)|(_ & _ & [(_ & _ & ->)|(_ & r & _ & _ & ->)])]; auto.
  - apply gen_mt; auto.
  - pose proof (optimize_mt fuel rf n' s HV HR) as O. destruct (optimize no e g _ rf fuel s) as [[c s1]|]; cbn [rel2 bind] in *; [|rewrite O; reflexivity].
    destruct O as (n1 & HR1 & ->). exists n1. split; [exact HR1|reflexivity].
Qed.
Lemma W_op o b s s' : okop o -> (is_gen o = true -> b = true) -> X b s -> do_op no e g o s = Ok s' -> X (b || is_opt o) s'.
Proof using HU HD HP HG HE.
  destruct o as [|cols phen| | | |cols phen|rf fuel]; cbn [do_op okop is_gen is_opt]; intros B HB [HV HW] H; try tauto; rewrite ?orb_false_r, ?orb_true_r.
  - apply bind_ok in H as ([pop s1] & E & H). apply Ok_inj in H. subst s'. split; [eapply ask_V; eauto|intros Q; eapply ask_W; eauto].
  - apply bind_ok in H as ([c s1] & E & H). apply Ok_inj in H. subst s'. split; [eapply V_stop; eauto|intros Q; eapply W_stop; eauto].
  - apply bind_ok in H as (s1 & E1 & H). apply bind_ok in H as (s2 & E2 & H). apply Ok_inj in H. subst s'.
    assert (Q : W (inc_iter s2)) by (eapply W_gen; eauto). split; [exact (proj1 Q)|auto].
  - apply bind_ok in H as ([c s1] & E & H). apply Ok_inj in H. subst s'. apply W_optimize in E; auto. split; [exact (proj1 E)|auto].
Qed.
(** Generations made by the user come after [b], or after a call of optimize. *)
Fixpoint ordered_ops (b : bool) (hs : list (op T)) : Prop :=
  match hs with [] => True | o :: hs => (is_gen o = true -> b = true) /\ ordered_ops (b || is_opt o) hs end.
Lemma ops_mt hs : forall b n' s, Forall okop hs -> ordered_ops b hs -> X b s -> R (s_num (t_sol s)) n' -> rel (run_ops no e g hs s) (run_ops no' e' g' (map (move_op h) hs) (mt n' s)).
Proof using HE HU R_new HD HP E_pheno h_fix R_eigen R_sample R_tpa_points HG E_f E_sort R_coin R_mutate HM h_nil h_cons R_xmean R_tpa R_update R_scale R_crit E_progress.
  induction hs as [|o hs IH]; intros b n' s F HO HW HR; cbn [run_ops map]; [exists n'; auto|]. inversion F as [|o1 h1 F1 F2]; subst. destruct HO as [O1 O2].
  apply rel_bind; [eapply op_mt; eauto|]. intros s1 n1 E1 HR1. eapply IH; eauto. eapply W_op; eauto.
Qed.
Lemma new_V x0 n s : st_new no g x0 n = Ok s -> V s.
Proof using Type.
  unfold st_new. intros H. apply bind_ok in H as (so & H & Q). apply Ok_inj in Q. subst s.
  unfold sol_new in H. destruct (_ =? 0); [discriminate|]. apply Ok_inj in H. subst so. unfold V. cbn. rewrite repeat_length. repeat split; auto; lia.
Qed.
Lemma new_initel x0 n s : st_new no g x0 n = Ok s -> t_initel s = false.
Proof using Type. unfold st_new. intros H. apply bind_ok in H as (so & H & Q). apply Ok_inj in Q. subst s. reflexivity. Qed.
Lemma ordered_known hs : initial_known g hs -> ordered_ops (negb (needs_initial g)) hs.
Proof using Type.
  clear R_new. intros H. assert (Q : negb (needs_initial g) = false -> forall h1 h2 cols phen, hs = h1 ++ OGen cols phen :: h2 -> exists rf fuel, In (OOptimize rf fuel) h1).
  { intros Q. apply H. now apply negb_false_iff in Q. }
  revert Q. generalize (negb (needs_initial g)) as b. clear. induction hs as [|o hs IH]; intros b H; cbn [ordered_ops]; [auto|]. split.
  - intros G. destruct b; auto. destruct o; try discriminate. destruct (H eq_refl [] hs cols phen eq_refl) as (? & ? & []).
  - apply IH. intros Q h1 h2 cols phen ->. apply orb_false_iff in Q as [Q1 Q2]. destruct (H Q1 (o :: h1) h2 cols phen eq_refl) as (rf & fuel & [->|I]); [discriminate|eauto].
Qed.
Lemma new_X x0 n s : st_new no g x0 n = Ok s -> X (negb (needs_initial g)) s.
Proof using Type.
  intros H. pose proof (new_V _ _ _ H) as HV. apply new_initel in H. split; [exact HV|]. intros Q. split; [exact HV|].
  unfold uses_init. rewrite H, orb_false_r. unfold needs_initial in Q. apply negb_true_iff in Q. rewrite Q. discriminate.
Qed.
Lemma new_mt x0 n n' : R (n_new no x0 n) (n_new no' (h x0) n') -> rel (st_new no g x0 n) (st_new no' g' (h x0) n').
Proof using h_nil.
  intros HR. unfold st_new. pose proof (sol_new_mt x0 n n') as Q. destruct (sol_new no g x0 n) as [so|f]; cbn [bind]; [|rewrite Q; reflexivity].
  destruct Q as [Q1 ->]. exists (n_new no' (h x0) n'). split; [cbn; rewrite Q1; exact HR|reflexivity].
Qed.
Lemma rel_moved r r' : rel r r' -> moved_result h R r r'.
Proof using Type. destruct r; cbn; [intros (n' & HR & ->); apply mt_moved, HR|intros ->; reflexivity]. Qed.
Lemma morph_history x0 n n' hs : R (n_new no x0 n) (n_new no' (h x0) n') -> Forall okop hs -> initial_known g hs ->
  moved_result h R (do s <- st_new no g x0 n; run_ops no e g hs s) (do s <- st_new no' g' (h x0) n'; run_ops no' e' g' (map (move_op h) hs) s).
Proof.
  intros HR F HO. apply rel_moved. apply rel_bind; [apply new_mt; auto|]. intros s n1 E HR1. eapply ops_mt; eauto; [apply ordered_known, HO|eapply new_X; eauto].
Qed.
Lemma morph_rounds x0 n n' k : R (n_new no x0 n) (n_new no' (h x0) n') -> needs_initial g = false ->
  moved_result h R (do s <- st_new no g x0 n; rounds no g e k s) (do s <- st_new no' g' (h x0) n'; rounds no' g' e' k s).
Proof using HE HU R_new HD HP E_pheno h_fix R_eigen R_sample R_tpa_points HG E_f E_sort R_coin R_mutate HM h_nil h_cons R_xmean R_tpa R_update R_scale R_crit E_progress.
  intros HR Q. apply rel_moved. apply rel_bind; [apply new_mt; auto|]. intros s n1 E HR1. apply rounds_mt; auto. apply (proj2 (new_X _ _ _ E)). rewrite Q. reflexivity.
Qed.
End Morph.
