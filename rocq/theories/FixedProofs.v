(** Fixed parameters along a run. *)
From Coq Require Import Reals List Lia Lra Psatz Permutation.
From Verif Require Import Base Dbl Vec VecProofs Params Config Search SpecSearch SortProofs SearchInv StopProofs NumInv SpecUh UhProofs SearchThms2 SpecSafe Update SpecUpdate UpdateProofs UpdateProofs2.
Import ListNotations.
Local Open Scope Z_scope.

(** Induction principle with a condition on populations and phenotypes. *)
Section Principle2.
Context {T N : Type}.
Variable no : numops T N.
Variable e : env T N.
Variable g : cfg T.
Variable P : st T N -> Prop.
Variable okc : list (list T) -> list (list T) -> Prop.
Hypothesis P_pop : forall s pop s' phen, P s -> ask no e g s = Ok (pop, s') -> mapM (e_pheno e) pop = Ok phen -> okc pop phen.
Hypothesis P_ask : forall s pop s', P s -> ask no e g s = Ok (pop, s') -> P s'.
Hypothesis P_gen : forall s cols phen s1 s2, P s -> okc cols phen ->
  eval no e g cols phen s = Ok s1 -> tell no e g s1 = Ok s2 -> P (inc_iter s2).
Hypothesis P_stop : forall s b s', P s -> stop no e g s = Ok (b, s') -> P s'.
Hypothesis P_init : forall s s', P s -> eval_initial no e g s = Ok s' -> P s'.
Hypothesis P_edm : forall s s', P s -> g_edm g = true -> edm no e g s = Ok s' -> P s'.
Hypothesis P_reinit : forall s s', P s -> restart_wanted no g s = Ok true -> reinit no g s = Ok s' -> P s'.
Lemma P2_round s s' : P s -> round no e g s = Ok s' -> P s'.
Proof.
  intros HP H. unfold round in H. inv_do H. destruct a as [pop s1]. inv_do H. inv_do H. inv_do H. injection H as <-.
  cbn [fst snd] in *. eapply P_gen; [eapply P_ask; eauto| |exact H2|exact H3]. eapply P_pop; eauto.
Qed.
Lemma P2_loop fuel : forall s s', P s -> loop no e g (round no e g) fuel s = Ok s' -> P s'.
Proof.
  induction fuel as [|fuel IH]; intros s s' HP H; cbn in H; [discriminate|].
  inv_do H. destruct a as [b s1]. cbn [fst snd] in H.
  assert (P s1) by eauto. destruct b; [injection H as <-; auto|]. inv_do H. eapply IH; [|exact H]. eapply P2_round; eauto.
Qed.
Lemma P2_optimize rf fuel : forall s r s', P s -> optimize no e g (round no e g) rf fuel s = Ok (r, s') -> P s'.
Proof.
  induction rf as [|rf IH]; intros s r s' HP H; apply optimize_unfold in H as (s1 & s2 & s3 & w & H1 & H2 & H3 & H4 & H5 & H6).
  all: assert (PA : P s3) by (assert (P s2) by (eapply P2_loop; [eapply P_init; eauto|eauto]); destruct (g_edm g) eqn:?; [eapply P_edm; eauto|subst; auto]).
  - destruct H5 as [[-> ->]|(-> & rf' & s4 & r' & E & _)]; [auto|discriminate].
  - destruct H5 as [[-> ->]|(-> & rf' & s4 & r' & E & H5 & H7)]; [auto|]. injection E as <-. eapply IH; [|eauto]. eapply P_reinit; eauto.
Qed.
Definition okop2 (o : op T) : Prop :=
  match o with OEval _ _ | OTell | OInc => False | OGen cols phen => okc cols phen | _ => True end.
Lemma P2_ops h : forall s s', Forall okop2 h -> P s -> run_ops no e g h s = Ok s' -> P s'.
Proof.
  induction h as [|o h IH]; intros s s' W HP H; cbn in H; [injection H as <-; auto|].
  inv_do H. inversion W; subst. apply (IH a s'); auto. clear IH H W H4. destruct o; cbn [okop2 do_op] in *; try contradiction.
  - inv_do H0. destruct a0. injection H0 as <-. eauto.
  - inv_do H0. destruct a0. injection H0 as <-. eauto.
  - inv_do H0. inv_do H0. injection H0 as <-. eauto.
  - inv_do H0. destruct a0. injection H0 as <-. eapply P2_optimize; eauto.
Qed.
End Principle2.

Section Ranked.
Context {T N : Type}.
Variable e : env T N.
Variable g : cfg T.
Hypothesis HU : std_sort_ok e.
Lemma ranked_perm (s : st T N) s1 : (g_uh g = true -> map r_idx (s_cuh (t_sol s)) = seq 0 (length (s_cands (t_sol s)))) -> ranked e g s s1 ->
  Permutation (s_cands s1) (s_cands (t_sol s)) /\ s_niter s1 = s_niter (t_sol s) /\ s_best s1 = s_best (t_sol s) /\ s_num s1 = s_num (t_sol s).
Proof.
  intros U [(_ & _ & ->)|(U1 & U2)]; [split; [apply sort_perm|auto]|].
  destruct (uh_ranks e g HU (t_sol s) s1 (U U1) U2) as (PP & _). split; [exact PP|].
  unfold uncertainty_handling in U2. apply bind_ok in U2 as (? & _ & U2). apply bind_ok in U2 as (? & _ & U2). cbv zeta in U2.
  apply bind_ok in U2 as (? & _ & U2). apply bind_ok in U2 as (? & _ & U2). apply Ok_inj in U2. subst s1. auto.
Qed.
End Ranked.

Lemma put_fixed_other fx : forall x j, (forall i v, In (i, v) fx -> Z.of_nat j <> i) -> put_fixed fx x j = x j.
Proof.
  induction fx as [|[i v] fx IH]; intros x j H; cbn [put_fixed]; auto. rewrite IH by (intros i' v' Hi; apply (H i' v'); right; auto).
  destruct (Z.eqb_spec (Z.of_nat j) i); auto. exfalso. apply (H i v); [left; auto|auto].
Qed.
Lemma put_fixed_at fx : NoDup (map fst fx) -> forall x i v, In (i, v) fx -> 0 <= i -> put_fixed fx x (Z.to_nat i) = v.
Proof.
  induction fx as [|[i' v'] fx IH]; intros ND x i v Hi H0; [destruct Hi|]. cbn in ND. apply NoDup_cons_iff in ND as [N1 N2]. cbn [put_fixed].
  destruct Hi as [Q|Hi]; [|auto]. injection Q as <- <-. rewrite put_fixed_other.
  - rewrite Z2Nat.id, Z.eqb_refl by auto. reflexivity.
  - intros i v Hi Q. rewrite Z2Nat.id in Q by auto. subst i. apply N1. apply (in_map fst) in Hi. exact Hi.
Qed.

Section Fixed.
Variable p : npar.
Let k := p_k p.
Let d := k_dim k.
Variable e : env R num.
Variable g : cfg R.
Let no := cma_num p.
Hypothesis HS : sound_params k.
Hypothesis HG : same_problem p g.
Hypothesis HF : fixed_ok p.
Hypothesis HL : elitism_le1 g.
Hypothesis HU : std_sort_ok e.
Hypothesis HScale : forall x, p_scale p x = x.

Notation fixedpt := (has_fixed (k_fixed k)).
Let okc (cols phen : list (list R)) : Prop := length cols = g_lambda g /\ Forall fixedpt cols.
Definition mean_fixed (m : vec) : Prop := forall i v, In (i, v) (k_fixed k) -> m (Z.to_nat i) = v.

Lemma init_mean_fixed x0 : mean_fixed (init_mean p x0).
Proof using HF HScale.
  intros i v Hi. unfold init_mean. rewrite HScale. fold k d. destruct HF as [ND RG]. specialize (RG i v Hi). fold k d in RG, ND.
  rewrite at0_tab by lia. apply put_fixed_at; auto. lia.
Qed.
Lemma new_mean_fixed xs n : (k_mu k <= length xs)%nat -> Forall fixedpt xs -> mean_fixed (new_mean p xs n).
Proof using HS.
  intros Hl F i v Hi. assert (B : (v <= new_mean p xs n (Z.to_nat i) <= v)%R); [|lra].
  apply (new_mean_between p HS). intros j Hj. fold k in Hj.
  assert (E : pt xs j (Z.to_nat i) = v); [|lra].
  unfold pt, at0. apply nth_error_nth. apply (proj1 (Forall_forall _ _) F); [|auto]. apply nth_In. lia.
Qed.
Lemma mean_point m : mean_fixed m -> fixedpt (tab d m).
Proof using HF.
  intros H i v Hi. destruct HF as [_ RG]. specialize (RG i v Hi). fold k d in RG. unfold tab. rewrite nth_error_map.
  rewrite (nth_error_nth' _ 0%nat) by (rewrite seq_length; lia). cbn. rewrite seq_nth by lia. cbn. f_equal. apply H; auto.
Qed.

Let P (s : st R num) : Prop :=
  mean_fixed (mean_of s) /\ length (s_cands (t_sol s)) = g_lambda g /\ 0 <= s_niter (t_sol s) /\
  (fixedpt (c_x (s_best (t_sol s))) \/ (c_x (s_best (t_sol s)) = [] /\ s_niter (t_sol s) = 0 /\ t_niter s = 0)) /\
  (0 < s_niter (t_sol s) -> Forall fixedpt (map c_x (s_cands (t_sol s)))).
Lemma fixed_sample_ok : samples_ok no.
Proof using Type. intros c n. cbn. now rewrite map_length, seq_length. Qed.
Lemma fx_ask s pop s' : ask no e g s = Ok (pop, s') -> okc pop [].
Proof using HG HF.
  intros H. destruct HG as (G1 & G2 & G3). destruct HF as [ND RG]. split.
  - apply ask_spec in H as (_ & H & _). apply H, fixed_sample_ok.
  - apply Forall_forall. intros x Hx i v Hi. unfold k in Hi. rewrite <- G3 in Hi. rewrite <- G3 in ND.
    eapply (ask_fixed no e g); eauto. intros i' v' Hi'. rewrite G3 in Hi'. specialize (RG i' v' Hi'). lia.
Qed.
Lemma ask_mean s pop s' : ask no e g s = Ok (pop, s') -> mean_of s' = mean_of s.
Proof using Type.
  intros H. apply (ask_num no e g (fun n => x_mean n = x_mean (s_num (t_sol s)))) in H; auto.
  intros i n <-. unfold no, cma_num, n_eigen, eigen_num. destruct (_ || _); [reflexivity|]. destruct (_ || _ || _); reflexivity.
Qed.
Lemma gradf_sol x s r s' : gradf no e g x s = (r, s') -> s_cands (t_sol s') = s_cands (t_sol s).
Proof using Type.
  intros G. unfold gradf in G. destruct (e_gfunc e); [injection G as <- <-; reflexivity|].
  destruct (calls e _ _) as [vs s5] eqn:E. injection G as <- <-. apply calls_num in E. cbn. rewrite E. reflexivity.
Qed.
Lemma ask_cands s pop s' : ask no e g s = Ok (pop, s') -> s_cands (t_sol s') = s_cands (t_sol s).
Proof using Type.
  intros HA. unfold ask in HA. destruct (n_sample _ _ _) as [pop0 n2]. apply bind_ok in HA as ([pop2 s2] & A1 & HA). apply bind_ok in HA as ([pop3 s3] & A2 & HA).
  apply bind_ok in HA as (pop4 & A3 & HA). apply Ok_inj in HA. injection HA as <- <-.
  assert (C2 : s_cands (t_sol s2) = s_cands (t_sol s)).
  { destruct (g_gradient g); [|apply Ok_inj in A1; injection A1 as <- <-; reflexivity]. apply bind_ok in A1 as (x & _ & A1).
    destruct (gradf _ _ _ _ _) as [gr s4] eqn:G. apply gradf_sol in G.
    destruct (n_gradcol _ _ _); [apply bind_ok in A1 as (? & _ & A1)|]; apply Ok_inj in A1; injection A1 as <- <-; exact G. }
  destruct (_ && _); [|apply Ok_inj in A2; injection A2 as <- <-; exact C2].
  destruct (n_tpa_points _ _) as [[x1 x2] n3]. apply bind_ok in A2 as (? & _ & A2). apply bind_ok in A2 as (? & _ & A2). apply Ok_inj in A2. injection A2 as <- <-.
  destruct (g_gradient g); exact C2.
Qed.
Lemma fx_gen s cols phen s1 s2 : P s -> okc cols phen -> eval no e g cols phen s = Ok s1 -> tell no e g s1 = Ok s2 -> P (inc_iter s2).
Proof using HS HG HL HU.
  intros (H1 & H2 & H3 & H4 & H5) [Hc Hf] Hev Ht.
  destruct HG as (G1 & G2 & G3).
  apply eval_spec in Hev as (_ & _ & K & _ & L & _ & _ & _ & _ & C & U). unfold keep in K. injection K as _ _ _ _ KB _ _ _ KN _ _ _ KT _ _.
  assert (F1 : Forall fixedpt (map c_x (s_cands (t_sol s1)))).
  { assert (FM : Forall fixedpt (map c_x (mid_cands e cols phen s))).
    { unfold mid_cands. rewrite skipn_all2 by lia. rewrite app_nil_r, new_gen_x. exact Hf. }
    destruct C as [[C _]|(C0 & C & _)]; [rewrite C; exact FM|].
    apply Forall_forall. intros x Hx. apply in_map_iff in Hx as (c & <- & Hx). destruct (upd_at_in_inv _ _ _ _ _ C Hx) as [->|Hx'].
    - unfold ref_cand. destruct HL as [-> ->]. cbn [orb].
      destruct H4 as [H4|(_ & _ & H4)]; [exact H4|]. unfold elit_on in C0. rewrite H4 in C0. discriminate.
    - apply (proj1 (Forall_forall _ _) FM). apply in_map, Hx'. }
  assert (LC : length (s_cands (t_sol s1)) = g_lambda g) by congruence.
  pose proof Ht as Ht'. apply tell_spec in Ht' as (s3 & s4 & s5 & n6 & Hr & E4 & E5 & E6 & _).
  apply ranked_perm in Hr as (P3 & N3 & B3 & _); auto; [|intros Q; destruct (U Q) as [-> _]; congruence].
  assert (D4 : s_cands s4 = s_cands s3 /\ s_niter s4 = s_niter s3 /\ s_best s4 = s_best s3) by (subst s4; destruct (_ && _); auto).
  destruct D4 as (D4 & D5 & D6).
  apply ubc_spec in E5 as [K5 (c0 & ck & cl & m & rest & Ec0 & _ & _ & _ & _ & _ & _ & _ & EB & _)].
  unfold kept_by_tell in K5. injection K5 as K51 _ K53 _ _ _ _ _ _ _ _ _ _.
  assert (FS : Forall fixedpt (map c_x (s_cands (t_sol s2)))).
  { subst s2. cbn. rewrite K51, D4. apply Forall_forall. intros x Hx. apply (proj1 (Forall_forall _ _) F1).
    eapply Permutation_in; [apply Permutation_map, P3|exact Hx]. }
  assert (LS : length (s_cands (t_sol s2)) = g_lambda g) by (subst s2; cbn; rewrite K51, D4, (Permutation_length P3); congruence).
  assert (NS : s_niter (t_sol s2) = s_niter (t_sol s)) by (subst s2; cbn; congruence).
  split.
  - destruct (tell_mean p e g s1 s2 Ht) as (n & E). change (mean_of (inc_iter s2)) with (mean_of s2). unfold mean_of.
    assert (X : x_mean (s_num (t_sol s2)) = new_mean p (map c_x (s_cands (t_sol s2))) n) by (destruct E as [-> | ->]; reflexivity).
    rewrite X. apply new_mean_fixed; auto. rewrite map_length, LS, G2. pose proof HS as (_ & _ & (_ & _ & W & _) & _). fold k. lia.
  - split; [exact LS|]. split; [cbn; lia|]. split; [|intros _; exact FS].
    left. change (fixedpt (c_x (s_best (t_sol s2)))). rewrite E6. cbn [set_t_sol t_sol set_s_num s_best]. rewrite EB.
    unfold best_take. rewrite D5, D6, N3, B3, KB, KN.
    destruct ((s_niter (t_sol s) =? 0) && match c_x (s_best (t_sol s)) with [] => true | _ => false end || dlt (c_f c0) (c_f (s_best (t_sol s)))) eqn:Q.
    + apply (proj1 (Forall_forall _ _) FS). apply in_map. subst s2. cbn. rewrite K51. eapply nth_error_In; eauto.
    + destruct H4 as [H4|(H4 & H6 & _)]; [exact H4|]. rewrite H4, H6 in Q. discriminate.
Qed.
Lemma fx_stop s b s' : P s -> stop no e g s = Ok (b, s') -> P s'.
Proof using Type. intros HP H. apply stop_spec in H as [(_ & -> & _)|(_ & _ & [(_ & _ & ->)|(_ & r & _ & _ & ->)])]; auto. Qed.
Lemma fx_init s s' : P s -> eval_initial no e g s = Ok s' -> P s'.
Proof using HF.
  intros HP H. apply eval_initial_spec in H as [(_ & ->)|(_ & y & _ & ->)]; auto.
  destruct HP as (H1 & H2 & H3 & _ & H5). split; [exact H1|]. split; [exact H2|]. split; [exact H3|]. split; [|exact H5].
  left. cbn. apply mean_point, H1.
Qed.
Lemma fx_edm s s' : P s -> edm no e g s = Ok s' -> P s'.
Proof using Type.
  intros HP H. unfold edm in H. apply bind_ok in H as (x & _ & H). destruct (gradf _ _ _ _ _) as [gr s4] eqn:G. apply Ok_inj in H. subst s'.
  unfold gradf in G. destruct (e_gfunc e); [injection G as <- <-; exact HP|]. destruct (calls e _ _) as [vs s5] eqn:E. injection G as <- <-.
  assert (TN : t_niter s5 = t_niter s) by (apply calls_spec in E as [E _]; rewrite E; reflexivity).
  apply calls_num in E. unfold P, mean_of in *. cbn. rewrite E, TN. exact HP.
Qed.
Lemma fx_new x0 n s : st_new no g x0 n = Ok s -> P s.
Proof using HF HScale.
  intros H. pose proof H as H'. apply st_new_num in H'. unfold st_new in H. apply bind_ok in H as (so & H & Q). apply Ok_inj in Q. subst s. cbn [t_sol] in *.
  unfold sol_new in H. destruct (_ =? 0); [discriminate|]. apply Ok_inj in H. subst so.
  split; [unfold mean_of; cbn [t_sol]; rewrite H'; apply init_mean_fixed|]. cbn. rewrite repeat_length.
  split; [reflexivity|]. split; [lia|]. split; [right; auto|lia].
Qed.
Lemma fx_askP s pop s' : P s -> ask no e g s = Ok (pop, s') -> P s'.
Proof using Type.
  intros HP H. pose proof (ask_mean _ _ _ H) as HM. pose proof (ask_cands _ _ _ H) as HC. apply ask_spec in H as ((K & _) & _). unfold keep in K. injection K as _ _ _ _ KB _ _ _ KN _ _ _ KT _ _.
  unfold P in *. rewrite HM, HC, KB, KN, KT. exact HP.
Qed.
Lemma fx_ops h s s' : Forall (okop2 okc) h -> P s -> run_ops no e g h s = Ok s' -> P s'.
Proof using HS HG HF HL HU HScale.
  intros W HP H. refine (P2_ops no e g P okc _ _ _ _ _ _ _ h s s' W HP H); clear h s s' W HP H.
  - intros s pop s' phen _ H _. apply fx_ask in H. exact H.
  - apply fx_askP.
  - apply fx_gen.
  - apply fx_stop.
  - apply fx_init.
  - intros s s' HP _. apply fx_edm; auto.
  - intros s s' HP Hr H. exfalso. unfold restart_wanted in Hr. destruct HL as [_ E]. rewrite E in Hr. discriminate.
Qed.
Lemma fixed_mean h x0 n s0 s : Forall (okop2 okc) h -> st_new no g x0 n = Ok s0 -> run_ops no e g h s0 = Ok s ->
  (forall i v, In (i, v) (k_fixed k) -> mean_of s (Z.to_nat i) = v) /\
  (0 < s_niter (t_sol s) -> Forall fixedpt (map c_x (s_cands (t_sol s)))).
Proof using HS HG HF HL HU HScale.
  intros W H0 H. apply fx_ops in H; [|exact W|eapply fx_new; eauto]. destruct H as (A & _ & _ & _ & B). split; auto.
Qed.

(** ** Points evaluated *)
Hypothesis HPh : forall x, length x = d -> e_pheno e x = Ok x.
Hypothesis HGr : g_gradient g = false.
Hypothesis HUh : g_uh g = false.
Hypothesis HEdm : g_edm g = false.
Let okc2 (cols phen : list (list R)) : Prop := length cols = g_lambda g /\ Forall fixedpt cols /\ Forall fixedpt phen.
Let P2 (s : st R num) : Prop := P s /\ Forall (fun q => fixedpt (fst q)) (t_log s).
Lemma pop_len s pop s' : ask no e g s = Ok (pop, s') -> Forall (fun x => length x = d) pop.
Proof using HGr HG.
  unfold ask. rewrite HGr. intros H. destruct (n_sample _ _ _) as [pop0 n2] eqn:Es. cbn [bind] in H.
  assert (F0 : Forall (fun x => length x = d) pop0).
  { cbn in Es. unfold sample_num in Es. injection Es as <- _. apply Forall_forall. intros x Hx. apply in_map_iff in Hx as (c & <- & _). apply tab_length. }
  assert (FR : forall fx a b, fix_rows fx a = Ok b -> Forall (fun x : list R => length x = d) a -> Forall (fun x => length x = d) b).
  { clear. induction fx as [|[i v] fx IH]; intros a b H F; cbn in H; [apply Ok_inj in H; subst; auto|]. apply bind_ok in H as (c & H1 & H). apply (IH _ _ H).
    clear IH H. revert c H1. unfold set_row. induction F as [|x a Hx F IH]; intros c H1; cbn in H1; [apply Ok_inj in H1; subst; constructor|].
    apply bind_ok in H1 as (y & H2 & H1). apply bind_ok in H1 as (r & H3 & H1). apply Ok_inj in H1. subst c. constructor; auto. apply upd_at_length in H2. congruence. }
  assert (SC : forall i x (a b : list (list R)), set_col i x a = Ok b -> length x = d -> Forall (fun x => length x = d) a -> Forall (fun x => length x = d) b).
  { intros i x a b H1 Hx F. apply Forall_forall. intros y Hy. destruct (upd_at_in_inv _ _ _ _ _ H1 Hy) as [->|Hy']; auto. exact (proj1 (Forall_forall _ _) F y Hy'). }
  cbn [t_niter set_t_sol] in H. destruct (_ && _).
  - cbn [t_sol set_t_sol set_s_num s_num n_tpa_points no cma_num tpa_points] in H. cbv zeta in H. unfold tpa_points in H.
    apply bind_ok in H as ([pop3 s3] & H1 & H). apply bind_ok in H1 as (pa & A1 & H1). apply bind_ok in H1 as (pb & A2 & H1). apply Ok_inj in H1. injection H1 as <- <-.
    apply bind_ok in H as (pop4 & H3 & H). apply Ok_inj in H. injection H as <- <-.
    eapply FR; [eauto|]. eapply SC; [eauto|apply tab_length|]. eapply SC; [eauto|apply tab_length|auto].
  - cbn [bind] in H. apply bind_ok in H as (pop4 & H3 & H). apply Ok_inj in H. injection H as <- <-. eapply FR; eauto.
Qed.
Lemma pheno_id pop phen : Forall (fun x => length x = d) pop -> mapM (e_pheno e) pop = Ok phen -> phen = pop.
Proof using HPh.
  intros F. revert phen. induction F as [|x pop Hx F IH]; intros phen H; cbn in H; [apply Ok_inj in H; auto|].
  rewrite HPh in H by auto. cbn [bind] in H. apply bind_ok in H as (r & H1 & H). apply Ok_inj in H. subst phen. f_equal. auto.
Qed.
Lemma eval_from_fst j ys : map fst (eval_from e j ys) = ys.
Proof using Type. revert j. induction ys as [|y ys IH]; intros j; [reflexivity|]. rewrite eval_from_cons. cbn. f_equal. apply IH. Qed.
Lemma new_points_fixed (cols phen : list (list R)) : Forall fixedpt cols -> Forall fixedpt phen -> (phen = [] \/ cols = [] \/ (length cols <= length phen)%nat) ->
  Forall fixedpt (new_points 0 cols phen).
Proof using Type.
  intros F1 F2 HL2. destruct HL2 as [-> |[-> |HL2]].
  - assert (E : forall r c, new_points (T := R) r c [] = c) by (clear; intros r c; revert r; induction c as [|x c IH]; intros r; cbn; [reflexivity|]; f_equal; auto). rewrite E. auto.
  - cbn. constructor.
  - assert (G : forall r c, (r + length c <= length phen)%nat -> Forall fixedpt (new_points r c phen)).
    { intros r c. revert r. induction c as [|x c IH]; intros r Hr; cbn; [constructor|]. cbn in Hr. constructor; [|apply IH; lia].
      destruct phen as [|p0 phen]; [cbn in Hr; lia|]. apply (proj1 (Forall_forall _ _) F2), nth_In. lia. }
    apply G. lia.
Qed.
Lemma fx2_ops h s s' : Forall (okop2 okc2) h -> P2 s -> run_ops no e g h s = Ok s' -> P2 s'.
Proof using HS HG HF HL HU HScale HPh HGr HUh HEdm.
  intros W HP H. refine (P2_ops no e g P2 okc2 _ _ _ _ _ _ _ h s s' W HP H); clear h s s' W HP H.
  - intros s pop s' phen _ H HM. pose proof (pheno_id _ _ (pop_len _ _ _ H) HM) as ->. destruct (fx_ask _ _ _ H) as [A B]. split; auto.
  - intros s pop s' [HP HLg] H. split; [eapply fx_askP; eauto|].
    assert (E : t_log s' = t_log s); [|rewrite E; auto].
    clear -H HGr. unfold ask in H. rewrite HGr in H. destruct (n_sample _ _ _) as [pop0 n2]. cbn [bind] in H. apply bind_ok in H as ([p3 s3] & H1 & H).
    apply bind_ok in H as (p4 & _ & H). apply Ok_inj in H. injection H as _ <-.
    destruct (_ && _); [|apply Ok_inj in H1; injection H1 as _ <-; reflexivity].
    destruct (n_tpa_points _ _) as [[? ?] ?]. apply bind_ok in H1 as (? & _ & H1). apply bind_ok in H1 as (? & _ & H1). apply Ok_inj in H1. injection H1 as _ <-. reflexivity.
  - intros s cols phen s1 s2 [HP HLg] (A & B & C) Hev Ht. split; [eapply fx_gen; eauto; split; auto|].
    assert (E : t_log (inc_iter s2) = t_log s1) by (apply tell_spec in Ht as (? & ? & ? & ? & _ & _ & _ & -> & _); reflexivity). rewrite E.
    apply eval_spec in Hev as (_ & HPl & _ & _ & _ & _ & _ & _ & (ys & EL & U & _) & _). rewrite (U HUh), app_nil_r in EL. rewrite EL.
    apply Forall_app. split; auto. apply Forall_forall. intros q Hq. apply (in_map fst) in Hq. rewrite eval_from_fst in Hq.
    apply (proj1 (Forall_forall _ _) (new_points_fixed cols phen B C HPl)), Hq.
  - intros s b s' [HP HLg] H. split; [eapply fx_stop; eauto|]. apply stop_spec in H as [(_ & -> & _)|(_ & _ & [(_ & _ & ->)|(_ & r & _ & _ & ->)])]; auto.
  - intros s s' [HP HLg] H. split; [eapply fx_init; eauto|]. apply eval_initial_spec in H as [(_ & ->)|(_ & y & EY & ->)]; auto.
    cbn. apply Forall_app. split; auto. constructor; [|constructor]. cbn [fst].
    cbn [no cma_num n_xmean] in EY. rewrite HPh in EY by apply tab_length. apply Ok_inj in EY. subst y. apply mean_point, HP.
  - intros s s' _ E. congruence.
  - intros s s' HP Hr H. exfalso. unfold restart_wanted in Hr. destruct HL as [_ E]. rewrite E in Hr. discriminate.
Qed.
Lemma fixed_evaluated h x0 n s0 s : Forall (okop2 okc2) h -> st_new no g x0 n = Ok s0 -> run_ops no e g h s0 = Ok s ->
  forall y v, In (y, v) (t_log s) -> fixedpt y.
Proof using HS HG HF HL HU HScale HPh HGr HUh HEdm.
  intros W H0 H y v Hy. apply fx2_ops in H; [|exact W|].
  - destruct H as [_ F]. apply (proj1 (Forall_forall _ _) F) in Hy. exact Hy.
  - split; [eapply fx_new; eauto|]. unfold st_new in H0. apply bind_ok in H0 as (so & _ & Q). apply Ok_inj in Q. subst s0. constructor.
Qed.
End Fixed.
