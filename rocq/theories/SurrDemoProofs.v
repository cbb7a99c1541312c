(** Facts about the surrogates of SurrDemo.v. *)
From Coq Require Import QArith Permutation.
From Verif Require Import Base Dbl Config Search SpecSearch SpecUh SearchInv StopProofs Surr SpecSurr SurrInv SurrProofs SurrThms3 Demo DemoProofs SurrDemo.
Local Open Scope Z_scope.
Lemma mk_so_sort pr n0 n1 : cand_sort_ok (mk_so pr n0 n1).
Proof. intros cmp l. apply isort_ok. Qed.
Lemma fair_mod n m : (n <= m)%nat -> (0 < m)%nat -> fair n (fun k => k mod m)%nat.
Proof.
  intros H P a k L. exists (a + k * m)%nat. split; [nia|]. rewrite Nat.mod_add by lia. apply Nat.mod_small. lia.
Qed.
Lemma toy_samples xm pts : samples_ok (toy xm pts).
Proof. intros k n. cbn. now rewrite map_length, seq_length. Qed.
Lemma mk_env_below f : below_max (mk_env f).
Proof.
  intros k x. cbn [mk_env e_f]. unfold dint, dbl_max. cbn [dlt]. apply Z.ltb_lt.
  set (b := 2 ^ 900). assert (E : Z.max (- b) (Z.min (f k x) b) * 2 ^ 1074 <= b * 2 ^ 1074) by (apply Z.mul_le_mono_nonneg_r; unfold b; [lia|lia]).
  eapply Z.le_lt_trans; [exact E|]. vm_compute. reflexivity.
Qed.

(** Loops without end, for every number of draws. *)
Section Diverge.
Context {T N M : Type}.
Variable so : surrops T N M.
Variable no : numops T N.
Variable e : env T N.
Variable g : cfg T.
Notation surr := (surr T N M).
Lemma select0_result fuel pop : forall used nc k, select0 so g fuel pop used nc k = Fault Diverges \/ exists r, select0 so g fuel pop used nc k = Ok r.
Proof.
  induction fuel as [|fuel IH]; intros used nc k; cbn [select0]; destruct (_ <? _)%nat; eauto.
  destruct (nth_error pop _); eauto. destruct (drawn _ _); eauto.
Qed.
Lemma few_diverges d cols (u : surr) sl : 
  sort_candidates (set_s_cands (predict so u (map (fun x => mkCand (Fin 0) x (-1) (-1)) cols)) (t_sol (u_st u))) = Ok sl ->
  (1 <= length cols < g_lambda g)%nat -> pre_selection_eval so e g d cols u = Fault Diverges.
Proof.
  intros Es L. unfold pre_selection_eval. rewrite Es. cbn [bind].
  assert (LS : length (s_cands sl) = length cols).
  { apply sort_candidates_spec in Es. subst sl. cbn [s_cands set_s_cands]. now rewrite SortProofs.sort_length, predict_len, map_length. }
  destruct (at_ (s_cands sl) 0) as [c0|f] eqn:Ec; cbn [bind].
  2:{ exfalso. unfold at_ in Ec. destruct (s_cands sl); [cbn in LS; lia|]. cbn in Ec. discriminate. }
  destruct (select0_result d (s_cands sl) [0%nat] [with_rank 0 c0] (u_k0 (set_u_st (set_t_sol sl (u_st u)) u))) as [->|[[nc k] E]]; [reflexivity|]. exfalso.
  pose proof E as E'. apply select0_spec in E'; [|cbn [length]; lia|cbn [length]; lia].
  apply select0_sizes in E; auto; [lia|]. split; [constructor; [cbn; tauto|constructor]|]. intros a [<-|[]]. lia.
Qed.
Lemma few_round (u u' : surr) pop ph sl : acm_ask no e g u = Ok (pop, u') -> mapM (e_pheno e) pop = Ok ph -> u_exploit u' && full u' = true ->
  sort_candidates (set_s_cands (predict so u' (map (fun x => mkCand (Fin 0) x (-1) (-1)) pop)) (t_sol (u_st u'))) = Ok sl ->
  (1 <= length pop < g_lambda g)%nat -> forall d, acm_round so no e g d u = Fault Diverges.
Proof.
  intros H1 H2 H3 H4 H5 d. unfold acm_round. rewrite H1. cbn [bind fst snd]. rewrite H2. cbn [bind]. unfold acm_eval. rewrite H3.
  now rewrite (few_diverges d pop u' sl).
Qed.
End Diverge.
Lemma many_refuted : exists u, srun good_so demo_no demo_e acm_g acm_k 12 [4; 4] many_h = Ok u /\
  forall d u', k_round good_so demo_no demo_e acm_g (ACM d) u <> Ok u'.
Proof.
  eexists. split; [vm_compute; reflexivity|]. intros d u' H. unfold k_round, acm_round in H. inv_do H. vm_compute in H0. apply Ok_inj in H0. subst a.
  cbn [fst snd] in H. inv_do H. clear H0. inv_do H. clear H. unfold acm_eval in H0.
  match type of H0 with (if ?b then _ else _) = _ => let v := eval vm_compute in b in change b with v in H0 end. cbv iota in H0.
  apply preselection_sizes in H0 as [_ H0]; [|apply mk_so_sort]. vm_compute in H0. congruence.
Qed.
