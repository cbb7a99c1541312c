(** A search started from a solution object: what the object guarantees, and the
    comparison with a new search. *)
From Coq Require Import Permutation Reals Lia Lra.
From Verif Require Import Base Dbl DblProofs Vec VecProofs Params Config Search SpecSearch SpecInvar SpecMorph SpecSafe SpecUh SpecWindow SortProofs SearchInv CounterProofs HistProofs StopProofs RankProofs MorphProofs UhProofs WindowProofs Update SpecUpdate UpdateProofs DemoNumProofs SpecAffine AffineProofs SpecWarm WarmProofs WarmNumProofs.
Local Open Scope Z_scope.

Section Left.
Context {T N : Type}.
Variable no : numops T N.
Variable e : env T N.
Variable g : cfg T.
Notation st := (st T N).
Implicit Types (s : st).
Hypothesis HS : samples_ok no.
Hypothesis HU : std_sort_ok e.
Definition jsol (so : sol T N) : Prop :=
  length (s_cands so) = g_lambda g /\ Forall (fun c => c_r c = -1) (s_cands so) /\ c_r (s_best so) = -1 /\ c_r (s_init so) = -1 /\
  s_kcand so = kth g /\ s_maxhist so = hist_len g /\ (1 <= g_lambda g)%nat.
Definition jinv s : Prop := jsol (t_sol s).
Lemma new_gen_r cols : forall r k phen old, Forall (fun c => c_r c = -1) old -> Forall (fun c => c_r c = -1) (new_gen e r k cols phen old).
Proof.
  induction cols as [|x cols IH]; intros r k phen old F; cbn [new_gen]; constructor; auto. cbn.
  destruct (Nat.lt_ge_cases r (length old)) as [H|H]; [|rewrite nth_overflow by auto; reflexivity].
  rewrite Forall_forall in F. apply F, nth_In, H.
Qed.
Lemma jinv_gen s cols phen s1 s2 : jinv s -> length cols = g_lambda g ->
  eval no e g cols phen s = Ok s1 -> tell no e g s1 = Ok s2 -> jinv (inc_iter s2).
Proof.
  intros (J1 & J2 & J3 & J4 & J5 & J6 & J7) HC He Ht.
  destruct (population_of_eval no e g s cols phen s1 J1 HC He) as (gen & _ & Gl & Gp & Gu).
  pose proof (ranking_tell no e g HU s1 s2 gen Gp Gu Ht) as Gr.
  apply eval_spec in He as (_ & _ & K & _ & A5 & _ & _ & _ & _ & A8 & _). unfold keep in K.
  injection K as K1 K2 K3 K4 K5 K6 K7 K8 K9 K10 K11 K12 K13 K14 K15.
  assert (F1 : Forall (fun c => c_r c = -1) (s_cands (t_sol s1))).
  { assert (FM : Forall (fun c => c_r c = -1) (mid_cands e cols phen s)).
    { unfold mid_cands. rewrite skipn_all2 by lia. rewrite app_nil_r. apply new_gen_r, J2. }
    destruct A8 as [[-> _]|(E & A & _)]; [exact FM|].
    unfold upd_at in A. destruct (_ || _) eqn:B; [discriminate|]. injection A as A. rewrite <- A.
    rewrite Forall_forall in FM |- *. intros c Hc. apply in_app_or in Hc as [Hc|[<-|Hc]].
    - apply FM. rewrite <- (firstn_skipn (Z.to_nat 1) (mid_cands e cols phen s)). apply in_or_app. auto.
    - unfold ref_cand. match goal with |- c_r (if ?b then _ else _) = _ => destruct b end; assumption.
    - apply FM. rewrite <- (firstn_skipn (S (Z.to_nat 1)) (mid_cands e cols phen s)). apply in_or_app. auto. }
  assert (HCS : s_best (t_sol s1) = s_best (t_sol s)) by congruence.
  assert (PR : Permutation (s_cands (t_sol s2)) (s_cands (t_sol s1))).
  { destruct (g_uh g) eqn:EU.
    - pose proof Ht as Ht2. apply tell_spec in Ht2 as (u1 & u2 & u3 & n4 & R & E2 & UB & -> & _).
      destruct R as [(Q & _)|(_ & R)]; [congruence|]. apply uh_ranks in R as (PM & _); auto.
      apply ubc_spec in UB as (K & _). unfold kept_by_tell in K. injection K as Q1 _.
      cbn. rewrite Q1, E2. destruct (_ && _); auto.
    - pose proof Ht as Ht2. apply tell_effect in Ht2 as (_ & _ & _ & _ & _ & _ & _ & _ & _ & _ & _ & _ & B & _). destruct (B EU) as [-> _]. apply sort_perm. }
  apply tell_effect in Ht as (_ & _ & _ & _ & _ & _ & _ & _ & T3 & T4 & T5 & _ & _ & c0 & ck & cl & m & rest & lim & C1 & _ & _ & _ & _ & _ & _ & _ & C9 & _).
  unfold jinv, jsol. cbn [inc_iter t_sol set_t_sol set_s_niter s_cands s_best s_init s_kcand s_maxhist].
  rewrite (Permutation_length PR), A5, T3, T4, T5, K8, K10, K11, C9, K5. split; auto.
  split. { rewrite Forall_forall in F1 |- *. intros c Hc. apply F1. eapply Permutation_in; eauto. }
  split; auto. destruct (best_take _ _); auto. rewrite Forall_forall in F1. apply F1. eapply Permutation_in; [exact PR|]. eapply nth_error_In; eauto.
Qed.
Lemma jinv_calls s s' : only_calls s s' -> jinv s -> jinv s'.
Proof using Type.
  intros (K & _ & C & _) H. unfold keep in K. injection K as K1 K2 K3 K4 K5 K6 K7 K8 K9 K10 K11 K12 K13 K14 K15.
  unfold jinv, jsol in *. rewrite C, K5, K8, K10, K11. exact H.
Qed.
Lemma jinv_new x0 n so : sol_new no g x0 n = Ok so -> jsol so.
Proof using Type.
  intros H. apply sol_new_spec in H as (HL & ->). unfold jsol. cbn. rewrite repeat_length.
  split; auto. split. { apply Forall_forall. intros c Hc. apply repeat_spec in Hc as ->. reflexivity. } repeat (split; [reflexivity|]). auto.
Qed.
Lemma jinv_run h s0 s : jinv s0 -> Forall (whole_gen g) h -> run_ops no e g h s0 = Ok s -> jinv s.
Proof.
  intros W0 W H.
  refine (P_ops no e g jinv (fun c => length c = g_lambda g) _ _ _ _ _ _ _ h s0 s _ W0 H).
  - intros sa pop sb _ Ha. apply ask_spec in Ha as (_ & L & _). auto.
  - intros sa pop sb P Ha. apply ask_spec in Ha as (O & _). eapply jinv_calls; eauto.
  - intros; eapply jinv_gen; eauto.
  - intros sa b sb P Hq. apply stop_spec in Hq as [(_ & -> & _)|(_ & _ & [(_ & _ & ->)|(_ & r & _ & _ & ->)])]; auto.
  - intros sa sb P Hq. apply eval_initial_spec in Hq as [(_ & ->)|(_ & y & _ & ->)]; auto.
    destruct P as (J1 & J2 & J3 & J4 & J5 & J6 & J7). unfold jinv, jsol. cbn. auto 10.
  - intros sa sb P Hq. apply edm_spec in Hq as (O & _). eapply jinv_calls; eauto.
  - intros sa sb P _ Hq. apply reinit_spec in Hq as (so & Hq & ->). apply jinv_new in Hq. exact Hq.
  - eapply Forall_impl; [|exact W]. intros [] Q; cbn in *; auto.
Qed.
End Left.

Lemma samples_cma p : samples_ok (cma_num p).
Proof. intros m n. cbn. rewrite map_length, seq_length. reflexivity. Qed.
Lemma left_jsol d lambda mh so : left_by_run d lambda mh so -> forall g : cfg R, g_dim g = d -> g_lambda g = lambda -> g_max_hist g = mh -> jsol g so.
Proof.
  assert (X : forall (g1 g : cfg R) so, g_dim g = g_dim g1 -> g_lambda g = g_lambda g1 -> g_max_hist g = g_max_hist g1 -> jsol (N:=num) g1 so -> jsol g so).
  { intros g1 g s A B C. unfold jsol, kth, hist_len. rewrite A, B, C. auto. }
  induction 1 as [p e g1 x0 n s0 h s D1 D2 D3 D4 SO H0 W H|p e g1 so h s D1 D2 D3 D4 SO HL IH W H]; intros g Q1 Q2 Q3; apply (X g1 g); try congruence.
  - apply (jinv_run (cma_num p) e g1 (samples_cma p) SO h s0 s); auto. apply st_new_spec in H0 as (_ & so & H0 & ->). apply jinv_new in H0. exact H0.
  - apply (jinv_run (cma_num p) e g1 (samples_cma p) SO h (st_from_solution (cma_num p) so) s); auto. apply (IH g1); auto.
Qed.

(** * The comparison *)
Section Compare.
Variables (p : npar) (e : env R num) (g : cfg R).
Hypothesis HP : plain_run p e g.
Hypothesis HG : same_problem p g.
Hypothesis HW : good_weights (p_k p).
Hypothesis HK : pheno_keeps e g.
Let d := k_dim (p_k p).
Notation no := (cma_num p).
Let RR := RN p.
Definition idx (x : list R) : list R := x.

Lemma mv_id c : move idx c = c. Proof. destruct c; reflexivity. Qed.
Lemma map_mv_id l : map (move idx) l = l. Proof. rewrite <- (map_id l) at 2. apply map_ext, mv_id. Qed.
Lemma ms_id (n' : num) (so : sol R num) : ms idx n' so = set_s_num n' so.
Proof. unfold ms. rewrite !map_mv_id, !mv_id. destruct so; reflexivity. Qed.
Lemma mt_id (n' : num) (s : st R num) : mt idx n' s = with_num n' s.
Proof.
  unfold mt, with_num. rewrite ms_id. destruct s as [so a b c x l gs]. cbn [t_sol t_nevals t_niter t_initel t_x0 t_log t_gens set_t_sol].
  assert (E1 : map (fun q : list R * dbl => (idx (fst q), snd q)) l = l) by (rewrite <- (map_id l) at 2; apply map_ext; intros []; reflexivity).
  assert (E2 : map (map (move idx)) gs = gs) by (rewrite <- (map_id gs) at 2; apply map_ext, map_mv_id).
  rewrite E1, E2. reflexivity.
Qed.
Lemma g_self : set_g_fixed (g_fixed g) g = g. Proof. clear. destruct g; reflexivity. Qed.
(** Both searches as states related by [RN]. *)
Hypothesis HSrt : std_sort_ok e.
Notation okx := (fun x : list R => length x = g_dim g).
Lemma map_idx (l : list (list R)) : map idx l = l. Proof. apply map_id. Qed.
Lemma M1 : idx [] = []. Proof. reflexivity. Qed.
Lemma M2 : forall x l, idx (x :: l) <> []. Proof. discriminate. Qed.
Lemma M3 : forall m m', RR m m' -> n_xmean no m' = idx (n_xmean no m) /\ length (n_xmean no m') = length (n_xmean no m).
Proof. intros m m' Q. split; [apply (rn_xmean p), Q|]. cbn. rewrite !tab_length. reflexivity. Qed.
Lemma M4 : forall i m m', RR m m' -> RR (n_eigen no i m) (n_eigen no i m').
Proof. destruct HP as (P1 & P2 & _). intros i m m' Q. apply rn_eigen; auto. Qed.
Lemma M5 : forall k m m', RR m m' -> fst (n_sample no k m') = map idx (fst (n_sample no k m)) /\ RR (snd (n_sample no k m)) (snd (n_sample no k m')).
Proof. destruct HP as (P1 & P2 & _). intros i m m' Q. rewrite map_idx. apply rn_sample; auto. Qed.
Lemma M6 : forall m m', RR m m' -> fst (n_tpa_points no m') = (idx (fst (fst (n_tpa_points no m))), idx (snd (fst (n_tpa_points no m)))) /\
  RR (snd (n_tpa_points no m)) (snd (n_tpa_points no m')).
Proof.
  destruct HP as (P1 & P2 & _). intros m m' Q. unfold idx. cbn [cma_num n_tpa_points]. destruct (rn_tpa_points p P1 P2 m m' Q) as [A B].
  split; [rewrite A; destruct (fst (tpa_points p m)); reflexivity|exact B].
Qed.
Lemma M7 : forall m m', RR m m' -> fst (n_coin no m') = fst (n_coin no m) /\ RR (snd (n_coin no m)) (snd (n_coin no m')).
Proof. intros m m' Q. apply rn_coin, Q. Qed.
Lemma M8 : forall l m m', RR m m' -> Forall okx l -> fst (n_mutate no (map idx l) m') = map idx (fst (n_mutate no l m)) /\ RR (snd (n_mutate no l m)) (snd (n_mutate no (map idx l) m')).
Proof. destruct HG as (G1 & _). intros l m m' Q F. rewrite !map_idx. rewrite G1 in F. apply rn_mutate; auto. Qed.
Lemma M9 : forall z m m', RR m m' -> RR (n_tpa no z m) (n_tpa no z m'). Proof. intros z m m' Q. apply rn_tpa, Q. Qed.
Lemma M10 : forall i xs m m', RR m m' -> Forall okx xs -> length xs = g_lambda g -> RR (n_update no i xs m) (n_update no i (map idx xs) m').
Proof.
  destruct HP as (P1 & P2 & P3 & _ & P4 & _). destruct HG as (G1 & G2 & _). intros i xs m m' Q F L. rewrite !map_idx. rewrite G1 in F. apply rn_update; auto. congruence.
Qed.
Lemma M11 : forall m m', RR m m' -> RR (n_uh_scale no m) (n_uh_scale no m'). Proof. intros m m' Q. apply rn_scale, Q. Qed.
Lemma M12 : forall pop, fix_rows (g_fixed g) (map idx pop) = rmap (map idx) (fix_rows (g_fixed g) pop).
Proof. intros pop. rewrite map_idx. destruct (fix_rows (g_fixed g) pop); cbn [rmap]; rewrite ?map_idx; reflexivity. Qed.
Lemma M13 : forall k x, okx x -> e_f e k (idx x) = e_f e k x. Proof. reflexivity. Qed.
Lemma M14 : forall x, okx x -> e_pheno e (idx x) = rmap idx (e_pheno e x). Proof. intros x _. unfold idx. destruct (e_pheno e x); reflexivity. Qed.
Lemma M15 : g_gradient g = false. Proof. apply HP. Qed.
Lemma M16 : dims_ok no g. Proof. apply dims_of, HG. Qed.
Lemma M17 : forall l m, Forall okx l -> length (fst (n_mutate no l m)) = length l /\ Forall okx (fst (n_mutate no l m)).
Proof.
  destruct HG as (G1 & _). intros l m _. cbn. rewrite map_length, seq_length. split; auto.
  apply Forall_forall. intros x Hx. apply in_map_iff in Hx as (j & <- & _). rewrite G1. apply tab_length.
Qed.
Lemma M18 : elitism_le1 g. Proof. destruct HP as (_ & _ & _ & _ & _ & P6 & _). unfold elitism_le1. rewrite P6. auto. Qed.
Lemma M19 : forall c m m', RR m m' -> n_crit no c m' = n_crit no c m.
Proof. destruct HP as (P1 & P2 & _). intros c m m' Q. apply rn_crit; auto. Qed.
Lemma M20 : forall so so', moved_sol idx RR so so' -> e_progress e so' = e_progress e so.
Proof. destruct HP as (_ & _ & _ & _ & _ & _ & _ & _ & _ & _ & P). intros. rewrite !P. reflexivity. Qed.
Lemma M21 : g_edm g = false. Proof. apply HP. Qed.
Lemma M22 : (g_tpa g =? 2) = false. Proof. destruct HP as (_ & _ & _ & -> & -> & _). reflexivity. Qed.
Ltac ms := first [exact M1|exact M2|exact M3|exact M4|exact M5|exact M6|exact M7|exact M8|exact M9|exact M10|exact M11|exact M12|exact M13|exact M14|exact M15|exact M16|exact M17|exact (fun c m m' _ => M19 c m m')|exact (fun _ => M8)|exact M20|exact M21|exact HK|reflexivity|assumption].
Lemma rounds_rel rd n' (s : st R num) : W g s -> RR (s_num (t_sol s)) n' -> rel idx RR (rounds no g e rd s) (rounds no g e rd (with_num n' s)).
Proof. intros HWs HR. rewrite <- mt_id. rewrite <- g_self at 2. apply (rounds_mt no no e e g (g_fixed g) idx RR); ms. Qed.
Lemma round_rel n' (s : st R num) : W g s -> RR (s_num (t_sol s)) n' -> rel idx RR (round no e g s) (round no e g (with_num n' s)).
Proof. intros HWs HR. rewrite <- mt_id. rewrite <- g_self at 2. apply (round_mt no no e e g (g_fixed g) idx RR); ms. Qed.
Lemma loop_rel fuel n' (s : st R num) : W g s -> RR (s_num (t_sol s)) n' -> rel idx RR (loop no e g (round no e g) fuel s) (loop no e g (round no e g) fuel (with_num n' s)).
Proof.
  intros HWs HR. rewrite <- mt_id. pose proof (loop_mt no no e e g (g_fixed g) idx RR) as L. cbv zeta in L. rewrite g_self in L. apply L; ms.
Qed.
Lemma round_W s s' : W g s -> round no e g s = Ok s' -> W g s'.
Proof. intros A B. eapply (W_round no e g); eauto; ms. Qed.

(** The fresh state [a], the state [b] = [a] with another distribution. *)
Variables (a : st R num) (nw : num).
Hypothesis HA0 : t_niter a = 0.
Hypothesis HAW : W g a.
Let nf := s_num (t_sol a).
Hypothesis HN : RR (wash nf) (wash nw).
Lemma pop_wash n : fst (n_sample no (g_lambda g) (n_eigen no 0 (wash n))) = fst (n_sample no (g_lambda g) (n_eigen no 0 n)).
Proof. destruct HP as (P1 & P2 & _). apply (wash_pop p P1 P2). Qed.
Lemma RN_norm n n' m m' : norm_num n = norm_num m -> norm_num n' = norm_num m' -> RR n n' -> RR m m'.
Proof. unfold RR, RN. intros -> ->. auto. Qed.
Lemma first_round : rel idx RR (round no e g a) (round no e g (with_num nw a)).
Proof.
  pose proof HP as (P1 & P2 & P3 & P4 & P5 & P6 & P7 & P8 & P9 & P10 & P11).
  assert (HX : forall m, length (n_xmean no m) = g_dim g) by (intros m; destruct HG as (-> & _); apply tab_length).
  pose proof (round_num no e g P6 P8 P9 M22 (wash nf) a HX) as Ra.
  pose proof (round_num no e g P6 P8 P9 M22 (wash nw) (with_num nw a) HX) as Rb.
  change (t_niter (with_num nw a)) with (t_niter a) in Rb. change (s_num (t_sol (with_num nw a))) with nw in Rb.
  change (s_niter (t_sol (with_num nw a))) with (s_niter (t_sol a)) in Rb. change (with_num (wash nw) (with_num nw a)) with (with_num (wash nw) a) in Rb.
  rewrite HA0 in Ra, Rb. specialize (Ra (pop_wash nf)). specialize (Rb (pop_wash nw)).
  assert (WA : W g (with_num (wash nf) a)) by exact HAW.
  pose proof (round_rel (wash nw) (with_num (wash nf) a) WA HN) as Rr. change (with_num (wash nw) (with_num (wash nf) a)) with (with_num (wash nw) a) in Rr.
  destruct (round no e g a) as [a1|f].
  - destruct Ra as (xs & A1 & A2). rewrite A2 in Rr. destruct Rr as (n' & R1 & R2). rewrite mt_id in R2.
    destruct (round no e g (with_num nw a)) as [b1|f]; [|congruence].
    destruct Rb as (ys & B1 & B2). rewrite R2 in B2. apply Ok_inj in B2. exists (s_num (t_sol b1)). rewrite mt_id. split.
    + eapply RN_norm; [| |exact R1].
      * cbn [with_num t_sol set_t_sol s_num set_s_num]. rewrite A1. apply (wash_update p P1 P2 P3 P5).
      * assert (E : n' = s_num (t_sol (with_num n' (with_num (n_update no (s_niter (t_sol a)) xs (snd (n_sample no (g_lambda g) (n_eigen no 0 (wash nf))))) a1)))) by reflexivity.
        rewrite E, B2. cbn [with_num t_sol set_t_sol s_num set_s_num]. rewrite B1. apply (wash_update p P1 P2 P3 P5).
    + f_equal. assert (E : with_num (s_num (t_sol b1)) (with_num n' (with_num (n_update no (s_niter (t_sol a)) xs (snd (n_sample no (g_lambda g) (n_eigen no 0 (wash nf))))) a1)) = b1).
      { rewrite B2. destruct b1 as [so ? ? ? ? ? ?]; destruct so; reflexivity. }
      rewrite <- E at 1. reflexivity.
  - rewrite Ra in Rr. cbn in Rr. destruct (round no e g (with_num nw a)) as [b1|f']; [destruct Rb as (ys & _ & B2); congruence|]. cbn. congruence.
Qed.
Lemma more_rounds rd : rel idx RR (rounds no g e (S rd) a) (rounds no g e (S rd) (with_num nw a)).
Proof.
  cbn [rounds]. pose proof first_round as F. destruct (round no e g a) as [a1|f] eqn:E; cbn in F |- *; [|rewrite F; reflexivity].
  destruct F as (n' & R1 & ->). cbn [bind]. rewrite mt_id. apply rounds_rel; auto. eapply round_W; eauto.
Qed.
Hypothesis HST : s_status (t_sol a) = 0.
Lemma stop_0 (s : st R num) : s_status (t_sol s) = 0 -> t_niter s = 0 -> stop no e g s = Ok (false, s).
Proof. destruct HP as (_ & _ & _ & _ & _ & _ & _ & _ & _ & _ & P). intros A B. unfold stop. rewrite A, P, B. reflexivity. Qed.
Lemma more_loop fuel : rel idx RR (loop no e g (round no e g) fuel a) (loop no e g (round no e g) fuel (with_num nw a)).
Proof.
  destruct fuel as [|fuel]; cbn [loop]; [reflexivity|]. rewrite !stop_0 by auto. cbn [bind fst snd].
  pose proof first_round as F. destruct (round no e g a) as [a1|f] eqn:E; cbn in F |- *; [|rewrite F; reflexivity].
  destruct F as (n' & R1 & ->). cbn [bind]. rewrite mt_id. apply loop_rel; auto. eapply round_W; eauto.
Qed.
End Compare.

(** * The initial step size is read by the constructor and the criteria only *)
Lemma eq_idx (l : list (list R)) : l = map idx l. Proof. symmetry. apply map_id. Qed.
Lemma rounds_sigma0 v p (e : env R num) g k s : plain_run p e g -> same_problem p g -> pheno_keeps e g -> std_sort_ok e -> W g s ->
  rounds (cma_num (with_sigma0 v p)) g e k s = rounds (cma_num p) g e k s.
Proof.
  intros HP HG HK HS HW.
  assert (E : rel idx eq (rounds (cma_num p) g e k s) (rounds (cma_num (with_sigma0 v p)) g e k (mt idx (s_num (t_sol s)) s))).
  { rewrite <- (g_self g) at 2. apply (rounds_mt (cma_num p) (cma_num (with_sigma0 v p)) e e g (g_fixed g) idx eq).
    - reflexivity.
    - discriminate.
    - intros m m' <-. split; reflexivity.
    - intros i m m' <-. reflexivity.
    - intros i m m' <-. rewrite <- eq_idx. split; reflexivity.
    - intros m m' <-. split; reflexivity.
    - intros m m' <-. split; reflexivity.
    - intros _ l m m' <- _. rewrite <- !eq_idx. split; reflexivity.
    - intros z m m' <-. reflexivity.
    - intros i xs m m' <- _ _. rewrite <- !eq_idx. reflexivity.
    - intros m m' <-. reflexivity.
    - apply M12.
    - reflexivity.
    - apply M14.
    - reflexivity.
    - apply HP.
    - apply dims_of, HG.
    - eapply M17; eauto.
    - exact HK.
    - exact HS.
    - exact HW.
    - reflexivity. }
  rewrite mt_id in E. replace (with_num (s_num (t_sol s)) s) with s in E by (destruct s as [so ? ? ? ? ? ?]; destruct so; reflexivity).
  destruct (rounds (cma_num p) g e k s) as [s'|f]; cbn [rel] in E.
  - destruct E as (n' & <- & E). rewrite E, mt_id. f_equal. destruct s' as [so ? ? ? ? ? ?]; destruct so; reflexivity.
  - exact E.
Qed.

Section Start.
Variables (p : npar) (e : env R num) (g : cfg R) (so : sol R num) (x0 : list R) (n : num).
Hypothesis HP : plain_run p e g.
Hypothesis HG : same_problem p g.
Hypothesis HW : good_weights (p_k p).
Hypothesis HK : pheno_keeps e g.
Hypothesis HS : std_sort_ok e.
Hypothesis HL : left_by_run (g_dim g) (g_lambda g) (g_max_hist g) so.
Hypothesis HX : forall i, (i < g_dim g)%nat -> init_mean p x0 i = x_mean (s_num so) i.
Hypothesis HQ : x_pos n = x_pos (s_num so) /\ x_upos n = x_upos (s_num so).
Hypothesis H0 : (0 < x_sigma (s_num so))%R.
Variable sg : R.
Hypothesis Hsg : sg = x_sigma (s_num so).
Notation no := (cma_num p).
Notation no0 := (cma_num (with_sigma0 sg p)).
Let w := st_from_solution no so.

Lemma fresh_state a : st_new no0 g x0 n = Ok a ->
  exists q x, w = seen q x (with_cands (s_cands so) (with_num (reset_num (s_num so)) a)) /\ 
  t_niter a = 0 /\ W g a /\ s_status (t_sol a) = 0 /\ RN p (wash (s_num (t_sol a))) (wash (reset_num (s_num so))) /\
  length (s_cands so) = g_lambda g /\ length (s_cands (t_sol a)) = g_lambda g /\ Forall (fun c => c_r c = -1) (s_cands so) /\ Forall (fun c => c_r c = -1) (s_cands (t_sol a)) /\
  told a.
Proof.
  intros H. assert (WA : W g a) by (apply le1_W; [eapply M18; eauto|eapply new_V; eauto]). pose proof (st_new_spec _ _ _ _ _ H) as (_ & sn & H2 & ->). apply sol_new_spec in H2 as (L & ->).
  destruct (left_jsol _ _ _ _ HL g eq_refl eq_refl eq_refl) as (J1 & J2 & J3 & J4 & J5 & J6 & J7).
  exists so, (c_x (best_candidate no so)). split.
  { unfold w, st_from_solution, seen, seen_sol, with_cands, with_num, sol_reset. rewrite <- J5, <- J6 || idtac. clear - J5 J6. destruct so. cbn in *. subst. reflexivity. }
  split; [reflexivity|]. split; [exact WA|]. split; [reflexivity|]. split.
  { destruct HP as (P1 & P2 & _). destruct HG as (G1 & _). destruct HQ as [Q1 Q2]. apply wash_related; cbn; auto.
    - intros i Hi. rewrite <- G1 in Hi. symmetry. apply HX, Hi.
    - unfold init_sigma. cbn. subst sg. destruct (Rlt_dec _ _); [reflexivity|contradiction].
    - rewrite P2. auto. }
  split; [exact J1|]. split; [cbn; apply repeat_length|]. split; [exact J2|]. split.
  { cbn. apply Forall_forall. intros c Hc. apply repeat_spec in Hc as ->. reflexivity. }
  split; [|left; reflexivity]. cbn. change (1 <= hist_len g). apply hist_len_pos.
Qed.

Lemma same_of_rel (s : st R num) n' q x : RN p (s_num (t_sol s)) n' -> same_search (g_dim g) s (seen q x (with_num n' s)).
Proof.
  destruct HG as (-> & _). unfold RN, moved_num, norm_num. cbn. intros (R1 & R2 & R3 & _ & _ & R6 & R7 & _).
  unfold same_search, sigma_of, mean_of, cov_of. cbn. repeat (split; [reflexivity|]). split; [rewrite R2; ring|].
  intros i Hi. rewrite R1, R6, R7 by auto. unfold zero. split; [ring|]. split; [reflexivity|]. split; [reflexivity|]. intros j Hj. apply R3; auto.
Qed.
Lemma same_of_sim (r r1 r2 : res (st R num)) : rel idx (RN p) r r1 -> sim r1 r2 -> same_result (g_dim g) r r2.
Proof.
  destruct r as [s|f]; cbn.
  - intros (n' & RR & ->). rewrite mt_id. cbn. intros (q & x & ->). apply same_of_rel, RR.
  - intros ->. cbn. intros ->. reflexivity.
Qed.
Lemma warm_rounds k : (1 <= g_lambda g)%nat ->
  same_result (g_dim g) (do s <- st_new no0 g x0 n; rounds no0 g e (S k) s) (rounds no g e (S k) w).
Proof.
  intros HLam. destruct (st_new no0 g x0 n) as [a|f] eqn:E.
  2:{ unfold st_new, sol_new in E. destruct (Z.eqb_spec (Z.of_nat (g_lambda g)) 0); [lia|]. discriminate. }
  cbn [bind]. destruct (fresh_state a E) as (q & x & -> & A0 & A1 & A2 & A3 & A4 & A5 & A6 & A7 & A8). rewrite rounds_sigma0 by auto.
  pose proof HP as (P1 & P2 & P3 & P4 & P5 & P6 & P7 & P8 & P9 & P10 & P11).
  eapply same_of_sim; [apply (more_rounds p e g HP HG HW HK HS a (reset_num (s_num so)) A0 A1 A3)|].
  match goal with |- sim ?l ?r => replace l with (rounds no g e (S k) (with_cands (s_cands so) (with_num (reset_num (s_num so)) a))) end.
  - apply (rounds_seen no e g P6 P8 P9 (M22 p e g HP)).
  - cbn [rounds]. rewrite (round_cands no e g P6 P8 P9 (M22 p e g HP)); auto. apply samples_cma.
Qed.
Lemma warm_optimize rf fuel : (1 <= g_lambda g)%nat -> sg = p_sigma0 p ->
  same_outcome (g_dim g) (do s <- st_new no0 g x0 n; optimize no0 e g (round no0 e g) rf fuel s) (optimize no e g (round no e g) rf fuel w).
Proof.
  intros HLam HP0. assert (EP : with_sigma0 sg p = p) by (rewrite HP0; destruct p; reflexivity).
  destruct (st_new no0 g x0 n) as [a|f] eqn:E.
  2:{ unfold st_new, sol_new in E. destruct (Z.eqb_spec (Z.of_nat (g_lambda g)) 0); [lia|]. discriminate. }
  cbn [bind]. destruct (fresh_state a E) as (q & x & Ew & A0 & A1 & A2 & A3 & A4 & A5 & A6 & A7 & A8). rewrite EP in *.
  pose proof HP as (P1 & P2 & P3 & P4 & P5 & P6 & P7 & P8 & P9 & P10 & P11).
  assert (IA : t_initel a = false) by (apply st_new_spec in E as (_ & sn & _ & ->); reflexivity).
  rewrite !(optimize_plain no e g P6 P7 P10) by auto.
  assert (X : same_result (g_dim g) (loop no e g (round no e g) fuel a) (loop no e g (round no e g) fuel w)).
  { eapply same_of_sim; [apply (more_loop p e g HP HG HW HK HS a (reset_num (s_num so)) A0 A1 A3 A2)|]. rewrite Ew.
    match goal with |- sim ?l ?r => replace l with (loop no e g (round no e g) fuel (with_cands (s_cands so) (with_num (reset_num (s_num so)) a))) end.
    - apply (loop_seen no e g P6 P8 P9 (M22 p e g HP) P11). exact A8.
    - destruct fuel as [|fuel]; cbn [loop]; [reflexivity|]. rewrite !(stop_0 p e g HP) by auto. cbn [bind fst snd].
      rewrite (round_cands no e g P6 P8 P9 (M22 p e g HP)); auto. apply samples_cma. }
  destruct (loop no e g (round no e g) fuel a) as [s|], (loop no e g (round no e g) fuel w) as [s'|]; cbn in X |- *; try contradiction; auto.
  split; [|exact X]. destruct X as (_ & _ & _ & _ & _ & _ & -> & _). reflexivity.
Qed.
End Start.
