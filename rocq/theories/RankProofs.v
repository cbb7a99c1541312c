(** Invariance under order-preserving transformations of the objective. *)
From Verif Require Import Base Dbl DblProofs Config Search SpecSearch SpecInvar SortProofs SearchInv StopProofs.
Local Open Scope Z_scope.

Section Rank.
Context {T N : Type}.
Variable no : numops T N.
Variable e : env T N.
Variable g : cfg T.
Variable phi : dbl -> dbl.
Hypothesis Hphi : order_preserving phi.
Hypothesis HU : g_uh g = false.
Hypothesis HG : g_gradient g = false.
Notation st := (st T N).
Implicit Types (s : st).
Notation e' := (compose phi e).

Definition tc (c : cand T) : cand T := set_c_f (phi (c_f c)) c.
Definition ts (md : list dbl) (so : sol T N) : sol T N :=
  mkSol (map tc (s_cands so)) (map tc (s_hist so)) (map tc (s_khist so)) (map phi (s_bf so)) md
    (tc (s_best so)) (s_best_iter so) (tc (s_worst so)) (tc (s_init so)) (s_niter so) (s_nevals so) (s_kcand so) (s_maxhist so)
    (s_status so) (s_cuh so) (s_reev so) (s_suh so) (s_tpa1 so) (s_tpa2 so) (s_num so).
Definition tt (md : list dbl) s : st :=
  mkSt (ts md (t_sol s)) (t_nevals s) (t_niter s) (t_initel s) (t_x0 s)
    (map (fun p => (fst p, phi (snd p))) (t_log s)) (map (map tc) (t_gens s)).

Lemma tc0 : tc cand0 = cand0. Proof. unfold tc, cand0, set_c_f. cbn. now rewrite (proj1 Hphi). Qed.
Lemma phi_lt a b : dlt (phi a) (phi b) = dlt a b. Proof. apply Hphi. Qed.
Lemma phi_nan a : is_nan (phi a) = is_nan a.
Proof.
  destruct Hphi as [H1 H2]. destruct a as [| |z|]; cbn; [rewrite H1; auto| | |].
  - specialize (H2 NegInf PosInf). cbn in H2. destruct (phi NegInf); cbn in *; congruence.
  - specialize (H2 (Fin z) PosInf). cbn in H2. destruct (phi (Fin z)); cbn in *; congruence.
  - specialize (H2 NegInf PosInf). cbn in H2. destruct (phi PosInf); auto. destruct (phi NegInf); discriminate.
Qed.

Lemma insert_tc c l : insert_cand (tc c) (map tc l) = map tc (insert_cand c l).
Proof. induction l as [|d l IH]; cbn; auto. rewrite phi_lt. destruct (dlt _ _); cbn; auto. now rewrite IH. Qed.
Lemma sort_tc l : sort_cands (map tc l) = map tc (sort_cands l).
Proof. induction l as [|c l IH]; cbn; auto. rewrite IH. apply insert_tc. Qed.
Lemma existsb_map {A B} (f : A -> B) p l : existsb p (map f l) = existsb (fun a => p (f a)) l.
Proof. induction l; cbn; auto. now rewrite IHl. Qed.
Lemma existsb_ext' {A} (p q : A -> bool) l : (forall a, p a = q a) -> existsb p l = existsb q l.
Proof. intros H. induction l; cbn; auto. now rewrite H, IHl. Qed.
Lemma compares_tc l : compares_ok (map tc l) = compares_ok l.
Proof.
  unfold compares_ok. rewrite !existsb_map. f_equal. f_equal.
  - apply existsb_ext'. intros a. apply phi_nan.
  - apply existsb_ext'. intros a. rewrite existsb_map. apply existsb_ext'. intros b. apply phi_lt.
Qed.
Lemma at_map {A B} (f : A -> B) l i : at_ (map f l) i = rmap f (at_ l i).
Proof. unfold at_. destruct (_ <? _); auto. rewrite nth_error_map. destruct (nth_error l _); auto. Qed.
Lemma upd_at_map {A B} (f : A -> B) l i a : upd_at (map f l) i (f a) = rmap (map f) (upd_at l i a).
Proof.
  unfold upd_at. rewrite map_length. destruct (_ || _); auto. cbn [rmap]. f_equal. rewrite map_app, map_cons, firstn_map, skipn_map. auto.
Qed.
Lemma bind_rmap {A B C} (f : A -> B) (m : res A) (k : B -> res C) : bind (rmap f m) k = bind m (fun a => k (f a)).
Proof. destruct m; auto. Qed.
Lemma bind_ext' {A B} (m : res A) (k k' : A -> res B) : (forall a, k a = k' a) -> bind m k = bind m k'.
Proof. intros H. destruct m; cbn; auto. Qed.
Lemma rmap_bind {A B C} (f : B -> C) (m : res A) (k : A -> res B) : rmap f (bind m k) = bind m (fun a => rmap f (k a)).
Proof. destruct m; auto. Qed.

Lemma ask_tt md s : ask no e' g (tt md s) = rmap (fun p => (fst p, tt md (snd p))) (ask no e g s).
Proof.
  unfold ask. rewrite HG. cbn [tt t_niter t_sol ts s_num set_t_sol set_s_num].
  destruct (n_sample no (g_lambda g) _) as [pop n2]. cbn [bind].
  match goal with |- context [0 <? ?x] => change x with (t_niter s) end.
  match goal with |- context [rmap _ (bind (if (_ =? 2) && (0 <? ?x) then _ else _) _)] => change x with (t_niter s) end.
  destruct ((g_tpa g =? 2) && (0 <? t_niter s)).
  - cbn [t_sol set_t_sol set_s_num s_num s_tpa1 s_tpa2]. destruct (n_tpa_points no n2) as [[x1 x2] n3].
    cbv zeta. cbn [s_tpa1 s_tpa2 t_sol set_t_sol set_s_num ts].
    rewrite rmap_bind. destruct (set_col _ x1 pop) as [pa|]; cbn [bind]; auto.
    destruct (set_col _ x2 pa) as [pb|]; cbn [bind]; auto. destruct (fix_rows _ pb); cbn; auto.
  - cbn [bind]. destruct (fix_rows _ pop); cbn; auto.
Qed.
Lemma eval_cols_tt cols phen md : forall r s, eval_cols e' r cols phen (tt md s) = rmap (tt md) (eval_cols e r cols phen s).
Proof.
  induction cols as [|x cols IH]; intros r s; cbn [eval_cols]; auto.
  change (s_cands (t_sol (tt md s))) with (map tc (s_cands (t_sol s))). rewrite at_map, bind_rmap, rmap_bind. apply bind_ext'. intros c.
  rewrite rmap_bind. apply bind_ext'. intros y. unfold call. cbn [compose with_objective e_f].
  replace (length (t_log (tt md s))) with (length (t_log s)) by (cbn; now rewrite map_length).
  set (v := e_f e (length (t_log s)) y).
  cbn [t_sol set_t_log]. change (s_cands (t_sol (tt md s))) with (map tc (s_cands (t_sol s))).
  change (mkCand (phi v) x r (c_r (tc c))) with (tc (mkCand v x r (c_r c))). rewrite upd_at_map, bind_rmap, rmap_bind. apply bind_ext'. intros cs.
  rewrite <- IH. f_equal. unfold tt, set_t_sol, set_t_log. cbn. rewrite map_app. reflexivity.
Qed.
Lemma elitist_tt n md s : elitist g n (tt md s) = rmap (tt md) (elitist g n s).
Proof.
  unfold elitist. cbn [t_niter t_initel tt]. destruct ((0 <? t_niter s) && _) eqn:Eon; auto.
  set (el := g_elit g) in *.
  change (s_cands (t_sol (tt md s))) with (map tc (s_cands (t_sol s))). rewrite map_length.
  destruct (Nat.ltb _ n); auto.
  set (ref := if e_restart el || e_init el then s_init (t_sol s) else if e_best el then s_best (t_sol s) else cand0).
  assert (Er : (if e_restart el || e_init el then s_init (t_sol (tt md s)) else if e_best el then s_best (t_sol (tt md s)) else cand0) = tc ref).
  { unfold ref. destruct (e_restart el || e_init el); [reflexivity|]. destruct (e_best el); [reflexivity|]. now rewrite tc0. }
  rewrite Er.
  assert (Eany : e_restart el || e_init el || e_best el = true).
  { apply andb_true_iff in Eon as [_ Eon]. destruct (e_best el), (e_init el), (e_restart el); auto. rewrite andb_false_r in Eon. discriminate. }
  rewrite Eany.
  assert (Ef : length (filter (fun c => dlt (c_f c) (c_f (tc ref))) (firstn n (map tc (s_cands (t_sol s))))) = length (filter (fun c => dlt (c_f c) (c_f ref)) (firstn n (s_cands (t_sol s))))).
  { rewrite firstn_map. generalize (firstn n (s_cands (t_sol s))). intros l. change (c_f (tc ref)) with (phi (c_f ref)). induction l as [|c l IH]; auto. cbn [map filter]. change (c_f (tc c)) with (phi (c_f c)). rewrite phi_lt. destruct (dlt (c_f c) (c_f ref)); cbn [length]; auto. }
  cbv zeta. rewrite Ef. destruct (Nat.ltb _ (n / 2)); auto.
  rewrite upd_at_map, bind_rmap, rmap_bind. apply bind_ext'. intros cs. reflexivity.
Qed.
Lemma eval_tt cols phen md s : eval no e' g cols phen (tt md s) = rmap (tt md) (eval no e g cols phen s).
Proof.
  unfold eval. rewrite HU, eval_cols_tt, bind_rmap, rmap_bind. apply bind_ext'. intros s1. cbn [bind].
  match goal with |- context [set_t_gens ?G (tt md s1)] => set (G1 := G) end.
  assert (E : set_t_gens G1 (tt md s1) = tt md (set_t_gens (t_gens s1 ++ [firstn (length cols) (s_cands (t_sol s1))]) s1)).
  { unfold G1, tt, set_t_gens. cbn. rewrite map_app. cbn. now rewrite firstn_map. }
  rewrite E, elitist_tt, bind_rmap, rmap_bind. apply bind_ext'. intros s3. reflexivity.
Qed.

(** Both runs fail alike or succeed in corresponding states. *)
Definition rel (r : res st) (r' : res st) : Prop :=
  match r with Ok s => exists md, r' = Ok (tt md s) | Fault f => r' = Fault f end.
Lemma rel_bind (m m' : res st) (k k' : st -> res st) : rel m m' -> (forall s md, m = Ok s -> rel (k s) (k' (tt md s))) -> rel (bind m k) (bind m' k').
Proof. destruct m as [s|f]; cbn; [intros [md ->] H; apply H; auto|intros -> _; auto]. Qed.

Lemma tell_tt md s : rel (tell no e g s) (tell no e' g (tt md s)).
Proof.
  unfold tell. rewrite HU. unfold sort_candidates.
  change (s_cands (t_sol (tt md s))) with (map tc (s_cands (t_sol s))). rewrite compares_tc. destruct (compares_ok _); [|reflexivity].
  cbn [bind]. rewrite sort_tc. set (cs := sort_cands (s_cands (t_sol s))).
  change (t_niter (tt md s)) with (t_niter s). cbv zeta. cbn [andb].
  set (s1 := set_s_cands cs (t_sol s)).
  change (set_s_cands (map tc cs) (t_sol (tt md s))) with (ts md s1).
  set (b := (g_tpa g =? 2) && (0 <? t_niter s)).
  assert (Etpa : (if b then tpa_update no (ts md s1) else ts md s1) = ts md (if b then tpa_update no s1 else s1)).
  { destruct b; auto. unfold tpa_update, tpa_rank_diff. cbn [s_tpa1 s_tpa2 s_cands ts s_num].
    assert (F : forall l id i, find_id id i (map tc l) = find_id id i l).
    { induction l as [|c l IH]; intros id i; cbn; auto. destruct (_ =? _); auto. }
    rewrite !F. reflexivity. }
  rewrite Etpa. set (s2 := if b then tpa_update no s1 else s1). clearbody s2. clear -Hphi.
  unfold update_best_candidates. 
  assert (H1 : update_hist (ts md s2) = rmap (ts md) (update_hist s2)).
  { unfold update_hist. change (s_cands (ts md s2)) with (map tc (s_cands s2)). change (s_kcand (ts md s2)) with (s_kcand s2).
    rewrite !at_map. destruct (at_ (s_cands s2) 0) as [c0|] eqn:E0; cbn [bind rmap]; [|reflexivity].
    destruct (at_ (s_cands s2) (s_kcand s2)) as [ck|]; cbn [bind rmap]; [|reflexivity].
    f_equal. unfold ts, set_s_hist, set_s_khist, set_s_bf. cbn [s_cands s_hist s_khist s_bf s_med s_best s_best_iter s_worst s_init s_niter s_nevals s_kcand s_maxhist s_status s_cuh s_reev s_suh s_tpa1 s_tpa2 s_num].
    assert (D : forall A B (f : A -> B) b l, drop_if b (map f l) = map f (drop_if b l)).
    { intros A B f [] l; auto. destruct l; auto. }
    rewrite !app_length, !map_length. cbn [length].
    f_equal; rewrite <- D, map_app; auto. }
  rewrite H1, bind_rmap.
  destruct (update_hist s2) as [s3|f3]; cbn [bind]; [|reflexivity]. clear H1.
  assert (H2 : exists md', match update_medians no s3 with Ok s4 => update_medians no (ts md s3) = Ok (ts md' s4) | Fault f => update_medians no (ts md s3) = Fault f end).
  { unfold update_medians. change (s_cands (ts md s3)) with (map tc (s_cands s3)). rewrite map_length, !at_map.
    destruct (Z.of_nat (length (s_cands s3)) =? 0); [exists md; auto|].
    destruct (_ mod 2 =? 0).
    - destruct (at_ (s_cands s3) _); cbn [bind rmap]; [|exists md; auto].
      destruct (at_ (s_cands s3) _); cbn [bind rmap]; [|exists md; auto]. eexists. reflexivity.
    - destruct (at_ (s_cands s3) _); cbn [bind rmap]; [|exists md; auto]. eexists. reflexivity. }
  destruct H2 as [md' H2]. destruct (update_medians no s3) as [s4|f4]; rewrite H2; cbn [bind]; [|reflexivity]. clear H2.
  assert (H3 : update_seen (ts md' s4) = rmap (ts md') (update_seen s4)).
  { unfold update_seen. change (s_cands (ts md' s4)) with (map tc (s_cands s4)). rewrite at_map, bind_rmap, rmap_bind. apply bind_ext'. intros c0.
    rewrite <- map_rev. destruct (rev (s_cands s4)) as [|cl r]; [reflexivity|]. cbn [map].
    change (c_f (s_best (ts md' s4))) with (phi (c_f (s_best s4))). change (c_f (s_worst (ts md' s4))) with (phi (c_f (s_worst s4))).
    change (c_f (tc c0)) with (phi (c_f c0)). change (c_f (tc cl)) with (phi (c_f cl)). rewrite !phi_lt.
    change (c_x (s_best (ts md' s4))) with (c_x (s_best s4)). change (c_x (s_worst (ts md' s4))) with (c_x (s_worst s4)).
    change (s_niter (ts md' s4)) with (s_niter s4).
    cbn [rmap]. f_equal. destruct (_ || _); destruct (_ || _); reflexivity. }
  rewrite H3, bind_rmap. destruct (update_seen s4) as [s5|]; cbn [bind]; [|reflexivity].
  exists md'. unfold tt, set_t_sol, ts, set_s_num. cbn. rewrite map_map. reflexivity.
Qed.

Lemma pheno_tt : e_pheno e' = e_pheno e. Proof. reflexivity. Qed.
Lemma round_tt md s : rel (round no e g s) (round no e' g (tt md s)).
Proof.
  unfold round. rewrite ask_tt. destruct (ask no e g s) as [[pop s1]|]; cbn [bind rmap fst snd]; [|reflexivity].
  change (e_pheno e') with (e_pheno e). destruct (mapM _ pop) as [ph|]; cbn [bind]; [|reflexivity].
  rewrite eval_tt. destruct (eval no e g pop ph s1) as [s2|]; cbn [bind rmap]; [|reflexivity].
  apply rel_bind with (1 := tell_tt md s2). intros s3 md3 _. exists md3. reflexivity.
Qed.
Lemma rounds_tt k : forall md s, rel (rounds no g e k s) (rounds no g e' k (tt md s)).
Proof. induction k as [|k IH]; intros md s; cbn [rounds]; [exists md; auto|]. apply rel_bind with (1 := round_tt md s). intros; apply IH. Qed.

(** Histories driven by the user. *)
Lemma op_tt o md s : blind_op o -> rel (do_op no e g o s) (do_op no e' g o (tt md s)).
Proof.
  destruct o; cbn [do_op blind_op]; intros B; try tauto.
  - rewrite ask_tt. destruct (ask no e g s) as [[pop s1]|]; cbn; [|reflexivity]. exists md; auto.
  - rewrite eval_tt. destruct (eval no e g _ _ s) as [s1|]; cbn; [|reflexivity]. exists md; auto.
  - apply tell_tt.
  - exists md. reflexivity.
  - rewrite eval_tt. destruct (eval no e g _ _ s) as [s2|]; cbn [bind rmap]; [|reflexivity].
    apply rel_bind with (1 := tell_tt md s2). intros s3 md3 _. exists md3. reflexivity.
Qed.

(** Stopping and the whole optimisation. *)
Hypothesis HE : g_edm g = false.
Hypothesis HF : ordinal_flags g.
Hypothesis HP : blind_progress e.

Lemma phi_inj a b : is_nan a = false -> is_nan b = false -> phi a = phi b -> a = b.
Proof.
  intros A B E. pose proof (phi_lt a b) as L1. pose proof (phi_lt b a) as L2. rewrite E in *.
  assert (X : dlt (phi b) (phi b) = false) by (destruct (phi b); cbn; auto; apply Z.ltb_irrefl). rewrite X in *.
  destruct a, b; cbn in *; try discriminate; auto. symmetry in L1, L2. apply Z.ltb_ge in L1, L2. f_equal. lia.
Qed.
Lemma deq_spec a b : deq a b = true <-> a = b /\ is_nan a = false.
Proof.
  destruct a, b; cbn; try (split; [discriminate|intros [? ?]; discriminate]); try (split; auto; fail).
  rewrite Z.eqb_eq. split; [intros ->; auto|intros [A _]; injection A; auto].
Qed.
Lemma phi_deq a b : deq (phi a) (phi b) = deq a b.
Proof.
  apply eq_true_iff_eq. rewrite !deq_spec, phi_nan. split; intros [A B]; split; auto; [|congruence].
  apply phi_inj; auto. rewrite <- phi_nan, <- A, phi_nan. auto.
Qed.
Lemma recent_map {A B} (f : A -> B) l : forall k, recent k (map f l) = rmap (map f) (recent k l).
Proof.
  induction k as [|k IH]; cbn [recent]; auto. rewrite map_length, at_map, IH, !bind_rmap, rmap_bind. apply bind_ext'. intros a.
  rewrite bind_rmap, rmap_bind. apply bind_ext'. intros; reflexivity.
Qed.
Lemma best_candidate_ts md so : best_candidate no (ts md so) = tc (best_candidate no so).
Proof.
  unfold best_candidate. change (s_hist (ts md so)) with (map tc (s_hist so)). rewrite <- map_rev. destruct (rev (s_hist so)); cbn [map]; auto.
  change (c_x (s_init (ts md so))) with (c_x (s_init so)). destruct (c_x (s_init so)); auto. unfold tc, set_c_f, cand_of. cbn. now rewrite (proj1 Hphi).
Qed.
Lemma criterion_ts md c so : c <> 1 -> c <> 6 -> c <> 10 -> criterion no g c (ts md so) = criterion no g c so.
Proof.
  intros A1 A2 A3. unfold criterion. destruct (c =? 8); [reflexivity|]. destruct (c =? 9); [reflexivity|]. destruct (c =? 7); [reflexivity|].
  destruct (c =? 10) eqn:E; [lia|]. destruct (c =? 1) eqn:E1; [lia|]. destruct (c =? 5) eqn:E5.
  - unfold equal_fun_vals_crit. change (s_hist (ts md so)) with (map tc (s_hist so)). change (s_khist (ts md so)) with (map tc (s_khist so)).
    rewrite map_length. change (s_maxhist (ts md so)) with (s_maxhist so). destruct (_ <? s_maxhist so); auto.
    rewrite !recent_map, bind_rmap. apply bind_ext'. intros a. rewrite bind_rmap. apply bind_ext'. intros b. f_equal. f_equal. f_equal. f_equal.
    revert b. induction a as [|x a IH]; intros [|y b]; auto. cbn [map combine filter fst snd].
    change (c_f (tc x)) with (phi (c_f x)). change (c_f (tc y)) with (phi (c_f y)). rewrite phi_deq. destruct (deq _ _); cbn [length]; rewrite ?IH; auto.
  - destruct (c =? 6) eqn:E6; [lia|]. reflexivity.
Qed.
Lemma scan_ts md so : stop_scan no g (g_flags g) (ts md so) = stop_scan no g (g_flags g) so.
Proof.
  unfold ordinal_flags in HF. revert HF. generalize (g_flags g). induction l as [|[c a] l IH]; intros F; cbn [stop_scan]; auto.
  assert (IH' : stop_scan no g l (ts md so) = stop_scan no g l so) by (apply IH; intros; apply F; right; auto). rewrite IH'.
  destruct a; auto. destruct (F c) as [A [B C]]; [left; auto|]. rewrite criterion_ts; auto.
Qed.
Lemma stop_tt md s : stop no e' g (tt md s) = rmap (fun p => (fst p, tt md (snd p))) (stop no e g s).
Proof.
  unfold stop. change (s_status (t_sol (tt md s))) with (s_status (t_sol s)). destruct (_ <? 0); [reflexivity|].
  assert (Ep : e_progress e' (t_sol (tt md s)) = e_progress e (t_sol s)).
  { cbn. apply HP; cbn; auto. rewrite map_map. reflexivity. }
  rewrite Ep. destruct (negb (e_progress e (t_sol s) =? 0)); [reflexivity|]. change (t_niter (tt md s)) with (t_niter s).
  destruct (t_niter s =? 0); [reflexivity|]. change (t_sol (tt md s)) with (ts md (t_sol s)). rewrite scan_ts, rmap_bind. apply bind_ext'. intros r. reflexivity.
Qed.
Lemma loop_tt fuel : forall md s, rel (loop no e g (round no e g) fuel s) (loop no e' g (round no e' g) fuel (tt md s)).
Proof.
  induction fuel as [|fuel IH]; intros md s; cbn [loop]; [reflexivity|]. rewrite stop_tt. destruct (stop no e g s) as [[b s1]|]; cbn [bind rmap fst snd]; [|reflexivity].
  destruct b; [exists md; auto|]. apply rel_bind with (1 := round_tt md s1). intros; apply IH.
Qed.
Lemma init_tt md s : eval_initial no e' g (tt md s) = rmap (tt md) (eval_initial no e g s).
Proof.
  unfold eval_initial. change (t_initel (tt md s)) with (t_initel s). destruct (_ || _); [|reflexivity].
  change (n_xmean no (s_num (t_sol (tt md s)))) with (n_xmean no (s_num (t_sol s))). change (e_pheno e') with (e_pheno e). rewrite rmap_bind. apply bind_ext'. intros y.
  unfold call. cbn [compose with_objective e_f rmap]. f_equal.
  replace (length (t_log (tt md s))) with (length (t_log s)) by (cbn; now rewrite map_length).
  unfold tt, update_fevals, set_t_sol, set_t_log. cbn. rewrite map_app. reflexivity.
Qed.
Lemma sol_new_tt x n so : sol_new no g x n = Ok so -> ts [] so = so.
Proof.
  intros H. unfold sol_new in H. destruct (_ =? 0); [discriminate|]. apply (f_equal (fun r => match r with Ok a => a | Fault _ => so end)) in H. cbv beta iota in H. subst so.
  unfold ts. cbn [s_cands s_hist s_khist s_bf s_med s_best s_best_iter s_worst s_init s_niter s_nevals s_kcand s_maxhist s_status s_cuh s_reev s_suh s_tpa1 s_tpa2 s_num].
  rewrite tc0. f_equal. induction (g_lambda g); cbn; auto. now rewrite tc0, IHn0.
Qed.
Lemma reinit_tt md s : rel (reinit no g s) (reinit no g (tt md s)).
Proof.
  unfold reinit. change (c_x (s_best (t_sol (tt md s)))) with (c_x (s_best (t_sol s))). change (s_num (t_sol (tt md s))) with (s_num (t_sol s)).
  pose proof (sol_new_tt (c_x (s_best (t_sol s))) (s_num (t_sol s))) as H. destruct (sol_new _ _ _ _) as [so|]; cbn [bind]; [|reflexivity].
  pose proof (H so eq_refl) as E. exists []. f_equal. unfold tt. cbn. f_equal. rewrite <- E at 1. reflexivity.
Qed.
Definition rel2 (r r' : res (Z * st)) : Prop :=
  match r with Ok (c, s) => exists md, r' = Ok (c, tt md s) | Fault f => r' = Fault f end.
Lemma optimize_tt fuel : forall rf md s, rel2 (optimize no e g (round no e g) rf fuel s) (optimize no e' g (round no e' g) rf fuel (tt md s)).
Proof.
  assert (FIN : forall r r', rel r r' -> rel2 (do s4 <- r; Ok ((if 0 <=? s_status (t_sol s4) then 0 else -1), s4)) (do s4 <- r'; Ok ((if 0 <=? s_status (t_sol s4) then 0 else -1), s4))).
  { intros [s4|] r' R; cbn in *; [destruct R as [md ->]; exists md; auto|rewrite R; reflexivity]. }
  induction rf as [|rf IH]; intros md s; cbn [optimize]; rewrite HE, init_tt; (destruct (eval_initial no e g s) as [s1|]; cbn [bind rmap]; [|reflexivity]);
    pose proof (loop_tt fuel md s1) as L; (destruct (loop no e g (round no e g) fuel s1) as [s2|]; cbn [rel] in L; [destruct L as [md2 ->]|rewrite L; reflexivity]); cbn [bind].
  - replace (restart_wanted no g (tt md2 s2)) with (restart_wanted no g s2).
    + destruct (restart_wanted no g s2) as [w|]; cbn [bind]; [|reflexivity]. apply FIN. destruct w; [reflexivity|exists md2; reflexivity].
    + unfold restart_wanted. change (t_sol (tt md2 s2)) with (ts md2 (t_sol s2)). rewrite best_candidate_ts. change (c_f (s_best (ts md2 (t_sol s2)))) with (phi (c_f (s_best (t_sol s2)))).
      change (c_f (tc (best_candidate no (t_sol s2)))) with (phi (c_f (best_candidate no (t_sol s2)))). rewrite phi_lt. reflexivity.
  - replace (restart_wanted no g (tt md2 s2)) with (restart_wanted no g s2).
    + destruct (restart_wanted no g s2) as [w|]; cbn [bind]; [|reflexivity]. apply FIN. destruct w; [|exists md2; reflexivity].
      apply rel_bind with (1 := reinit_tt md2 s2). intros s' md' _. specialize (IH md' s'). destruct (optimize no e g (round no e g) rf fuel s') as [[c s4]|]; cbn [rel2] in IH.
      * destruct IH as [md4 ->]. exists md4. reflexivity.
      * rewrite IH. reflexivity.
    + unfold restart_wanted. change (t_sol (tt md2 s2)) with (ts md2 (t_sol s2)). rewrite best_candidate_ts. change (c_f (s_best (ts md2 (t_sol s2)))) with (phi (c_f (s_best (t_sol s2)))).
      change (c_f (tc (best_candidate no (t_sol s2)))) with (phi (c_f (best_candidate no (t_sol s2)))). rewrite phi_lt. reflexivity.
Qed.
End Rank.

Section RankMain.
Context {T N : Type}.
Variable no : numops T N.
Variable e : env T N.
Variable g : cfg T.
Variable phi : dbl -> dbl.
Hypothesis Hphi : order_preserving phi.
Hypothesis HU : g_uh g = false.
Hypothesis HG : g_gradient g = false.

Lemma tt_same md (s : st T N) : same_search phi s (tt phi md s).
Proof. repeat split. Qed.
Lemma rel_same r r' : rel phi r r' -> same_result (T:=T) (N:=N) phi r r'.
Proof. destruct r; cbn; [intros [md ->]; apply tt_same|intros ->; reflexivity]. Qed.
Lemma new_tt x0 n (s : st T N) : st_new no g x0 n = Ok s -> tt phi [] s = s.
Proof.
  unfold st_new. destruct (sol_new no g x0 n) as [so|] eqn:E; cbn [bind]; [|discriminate]. intros Q. apply Ok_inj in Q. subst s.
  unfold tt. cbn. f_equal. apply (sol_new_tt no g phi Hphi x0 n); auto.
Qed.
(** k generations of the search do the same for phi(f) as for f. *)
Lemma rank_rounds x0 n k s : st_new no g x0 n = Ok s ->
  same_result phi (rounds no g e k s) (rounds no g (compose phi e) k s).
Proof. intros H. rewrite <- (new_tt x0 n s H) at 2. apply rel_same, rounds_tt; auto. Qed.
(** So does a whole optimisation. *)
Lemma rank_optimize x0 n rf fuel s : g_edm g = false -> ordinal_flags g -> blind_progress e -> st_new no g x0 n = Ok s ->
  same_result phi (rmap snd (optimize no e g (round no e g) rf fuel s))
                  (rmap snd (optimize no (compose phi e) g (round no (compose phi e) g) rf fuel s)) /\
  rmap fst (optimize no e g (round no e g) rf fuel s) = rmap fst (optimize no (compose phi e) g (round no (compose phi e) g) rf fuel s).
Proof.
  intros HE HF HP H.
  pose proof (optimize_tt no e g phi Hphi HU HG HE HF HP fuel rf [] s) as R. rewrite (new_tt x0 n s H) in R.
  destruct (optimize no e g (round no e g) rf fuel s) as [[c s1]|]; cbn [rel2] in R.
  - destruct R as [md ->]. cbn. split; auto. apply tt_same.
  - rewrite R. cbn. auto.
Qed.
(** So does any history of ask / eval / tell calls. *)
Lemma rank_ops h : forall s r, Forall blind_op h -> rel phi (Ok s) r -> rel phi (run_ops no e g h s) (do s' <- r; run_ops no (compose phi e) g h s').
Proof.
  induction h as [|o h IH]; intros s r F R; cbn [run_ops].
  - destruct R as [md ->]. cbn. exists md; auto.
  - inversion F as [|o' h' F1 F2]; subst. destruct R as [md ->]. cbn [bind].
    pose proof (op_tt no e g phi Hphi HU HG o md s F1) as O. destruct (do_op no e g o s) as [s'|] eqn:E; cbn [bind].
    + apply IH; auto.
    + cbn [rel] in O. rewrite O. reflexivity.
Qed.
Lemma rank_history x0 n h s : st_new no g x0 n = Ok s -> Forall blind_op h ->
  same_result phi (run_ops no e g h s) (run_ops no (compose phi e) g h s).
Proof. intros H F. apply rel_same. apply (rank_ops h s (Ok s)); auto. exists []. now rewrite (new_tt x0 n s H). Qed.
End RankMain.
