(** The concrete instances satisfy the hypotheses of the theorems. *)
From Coq Require Import Permutation Sorting.Sorted.
From Verif Require Import Base Dbl DblProofs Config Search SpecSearch SpecStop SpecSafe SpecInvar SpecUh StopProofs UhProofs SearchThms SearchThms2 Demo.
Local Open Scope Z_scope.

Lemma dint_finite z : finite_dbl (dint z).
Proof.
  unfold finite_dbl, dint, dbl_max, dneg.
  assert (B : - 2 ^ 900 <= Z.max (- 2 ^ 900) (Z.min z (2 ^ 900)) <= 2 ^ 900) by (assert (0 <= 2 ^ 900) by (apply Z.pow_nonneg; lia); lia).
  set (c := Z.max _ _) in *.
  assert (E : 2 ^ 900 * 2 ^ 1074 <= (2 ^ 53 - 1) * 2 ^ 2045) by (vm_compute; discriminate).
  assert (P : 0 < 2 ^ 1074) by (apply Z.pow_pos_nonneg; lia).
  generalize dependent (2 ^ 1074). generalize dependent (2 ^ 900). generalize ((2 ^ 53 - 1) * 2 ^ 2045). intros M b B q E P.
  split; apply dle_fin; nia.
Qed.
Lemma mk_env_real f : real_values (mk_env f).
Proof. intros k x. apply dint_finite. Qed.
Lemma dint_nn z : dint z <> NaN. Proof. discriminate. Qed.
Lemma mk_env_nonan f : no_nan (mk_env f).
Proof. intros k x. apply dint_nn. Qed.
Lemma toy_samples xm pts : samples_ok (toy xm pts).
Proof. intros k n. cbn. now rewrite map_length, seq_length. Qed.
Lemma toy_dims xm pts (g : cfg Z) : length xm = g_dim g -> (forall n i, length (pts n i) = g_dim g) -> dims_ok (toy xm pts) g.
Proof.
  intros H1 H2. split; [apply toy_samples|]. split; [|split; [|split]].
  - intros k n x Hx. cbn in Hx. apply in_map_iff in Hx as (i & <- & _). auto.
  - intros n. exact H1.
  - intros gr n x. cbn. destruct gr as [[|? ?]|]; intros Q; try discriminate. injection Q as <-. auto.
  - intros n. cbn. now rewrite !map_length.
Qed.
Lemma mk_env_pheno f g : pheno_total (mk_env f) g.
Proof. intros x _. exists x. reflexivity. Qed.
Lemma mk_env_pheno_returns f : pheno_returns (mk_env f).
Proof. intros x. discriminate. Qed.

Lemma ins_perm {A} cmp (x : A) l : Permutation (ins cmp x l) (x :: l).
Proof. induction l as [|y l IH]; cbn; auto. destruct (cmp y x); auto. rewrite IH. apply perm_swap. Qed.
Lemma isort_perm {A} (cmp : A -> A -> bool) l : Permutation (isort cmp l) l.
Proof. induction l as [|x l IH]; cbn; auto. rewrite ins_perm. auto. Qed.
Lemma ins_sorted {A} (cmp : A -> A -> bool) dom x l : strict_weak_order cmp dom -> dom x -> (forall a, In a l -> dom a) ->
  StronglySorted (fun a b => cmp b a = false) l -> StronglySorted (fun a b => cmp b a = false) (ins cmp x l).
Proof.
  intros (I & As & Tr & In') Dx. induction l as [|y l IH]; intros D S; cbn.
  - repeat constructor.
  - inversion S as [|? ? S1 S2]; subst. assert (Dy : dom y) by (apply D; left; auto).
    destruct (cmp y x) eqn:E.
    + constructor; [apply IH; auto; intros a Ha; apply D; right; auto|]. apply Forall_forall. intros a Ha.
      apply (Permutation_in _ (ins_perm cmp x l)) in Ha as [<-|Ha]; [apply As; auto|]. rewrite Forall_forall in S2. apply (S2 a Ha).
    + constructor; [constructor; auto|]. constructor; auto. apply Forall_forall. intros a Ha. rewrite Forall_forall in S2. pose proof (S2 a Ha) as Q. cbv beta in Q.
      assert (Da : dom a) by (apply D; right; auto). destruct (cmp a x) eqn:E2; auto. exfalso.
      destruct (cmp x y) eqn:E3; [pose proof (Tr a x y Da Dx Dy E2 E3); congruence|].
      destruct (cmp y a) eqn:E4; [pose proof (Tr y a x Dy Da Dx E4 E2); congruence|].
      destruct (In' a y x Da Dy Dx Q E4 E E3). congruence.
Qed.
Lemma isort_ok {A} (cmp : A -> A -> bool) l : swo_on cmp l = true -> Permutation (isort cmp l) l /\ sorted_by cmp (isort cmp l).
Proof.
  intros H. apply swo_on_spec in H. split; [apply isort_perm|].
  assert (S : StronglySorted (fun a b => cmp b a = false) (isort cmp l)).
  { assert (G : forall m, (forall a, In a m -> In a l) -> StronglySorted (fun a b => cmp b a = false) (isort cmp m)).
    { induction m as [|x m IH]; intros Hm; cbn; [constructor|]. eapply (ins_sorted cmp _ x _ H).
      - apply Hm; left; auto.
      - intros a Ha. apply Hm. right. eapply Permutation_in; [apply isort_perm|exact Ha].
      - apply IH. intros a Ha. apply Hm; right; auto. }
    apply G. auto. }
  clear H. intros i j a b Hij Ha Hb. revert i j a b Hij Ha Hb. induction S as [|x m S IH F]; intros i j a b Hij Ha Hb; [destruct i; discriminate|].
  destruct i as [|i]; cbn in Ha.
  - injection Ha as <-. destruct j as [|j]; [lia|]. cbn in Hb. rewrite Forall_forall in F. apply (F b). eapply nth_error_In; eauto.
  - destruct j as [|j]; [lia|]. apply (IH i j); auto; lia.
Qed.
Lemma mk_env_sort f : std_sort_ok (mk_env f).
Proof. intros cmp l. apply isort_ok. Qed.

Lemma all_active_wf d l : flags_wf (mk_cfg d l).
Proof. reflexivity. Qed.

Lemma demo_dims : dims_ok demo_no demo_g.
Proof. apply toy_dims; reflexivity. Qed.
Lemma line_dims g : g_dim g = 1%nat -> dims_ok line_no g.
Proof. intros H. apply toy_dims; rewrite H; reflexivity. Qed.
Lemma demo_fixed : fixed_in_range demo_g.
Proof. intros i v []. Qed.
Lemma demo_room : room demo_g.
Proof. split; [cbn; lia|discriminate]. Qed.
Lemma demo_le1 : elitism_le1 demo_g.
Proof. split; reflexivity. Qed.

(** Elitist restarts for ever. *)
Definition loop_state (nev : Z) (x0 : list Z) (log : list (list Z * dbl)) (gens : list (list (cand Z))) : st Z nat :=
  mkSt (set_s_nevals nev (mkSol (repeat cand0 2) [] [] [] [] cand0 None cand0 cand0 0 0 1 25 0 [] 0 0 0 1 0%nat)) nev 0 true x0 log gens.
Lemma reinit_state s : exists nev x0 log gens, reinit loop_no loop_g s = Ok (loop_state nev x0 log gens).
Proof. exists (t_nevals s), (c_x (s_best (t_sol s))), (t_log s), (t_gens s). reflexivity. Qed.
Lemma run_state fuel nev x0 log gens : exists s1, eval_initial loop_no loop_e loop_g (loop_state nev x0 log gens) = Ok s1 /\
  (loop loop_no loop_e loop_g (round loop_no loop_e loop_g) fuel s1 = Fault Diverges \/
   exists s2, loop loop_no loop_e loop_g (round loop_no loop_e loop_g) fuel s1 = Ok s2 /\ restart_wanted loop_no loop_g s2 = Ok true).
Proof.
  eexists. split; [reflexivity|].
  do 6 (destruct fuel as [|fuel]; [left; vm_compute; reflexivity|]).
  right. eexists. split; vm_compute; reflexivity.
Qed.
Lemma optimize_eq rf fuel s s1 : eval_initial loop_no loop_e loop_g s = Ok s1 ->
  (loop loop_no loop_e loop_g (round loop_no loop_e loop_g) fuel s1 = Fault Diverges \/
   exists s2, loop loop_no loop_e loop_g (round loop_no loop_e loop_g) fuel s1 = Ok s2 /\ restart_wanted loop_no loop_g s2 = Ok true) ->
  (forall rf', rf = S rf' -> forall nev x0 log gens, optimize loop_no loop_e loop_g (round loop_no loop_e loop_g) rf' fuel (loop_state nev x0 log gens) = Fault Diverges) ->
  optimize loop_no loop_e loop_g (round loop_no loop_e loop_g) rf fuel s = Fault Diverges.
Proof.
  intros E1 H IH. destruct rf as [|rf]; cbn [optimize]; rewrite E1; cbn [bind]; destruct H as [->|(s2 & -> & W)]; cbn [bind]; try reflexivity.
  all: change (g_edm loop_g) with false; cbn match; cbn [bind]; rewrite W; cbn [bind]; try reflexivity.
  destruct (reinit_state s2) as (nev & x0 & log & gens & ->). cbn [bind]. rewrite (IH rf eq_refl). reflexivity.
Qed.
Lemma restarts_forever rf : forall fuel nev x0 log gens,
  optimize loop_no loop_e loop_g (round loop_no loop_e loop_g) rf fuel (loop_state nev x0 log gens) = Fault Diverges.
Proof.
  induction rf as [|rf IH]; intros fuel nev x0 log gens; destruct (run_state fuel nev x0 log gens) as (s1 & E1 & H); apply (optimize_eq _ _ _ s1 E1 H).
  - discriminate.
  - intros rf' Q. injection Q as <-. auto.
Qed.
Lemma first_run fuel s : st_new loop_no loop_g [9] 0%nat = Ok s -> exists s1, eval_initial loop_no loop_e loop_g s = Ok s1 /\
  (loop loop_no loop_e loop_g (round loop_no loop_e loop_g) fuel s1 = Fault Diverges \/
   exists s2, loop loop_no loop_e loop_g (round loop_no loop_e loop_g) fuel s1 = Ok s2 /\ restart_wanted loop_no loop_g s2 = Ok true).
Proof.
  intros H. vm_compute in H. apply Ok_inj in H. subst s. eexists. split; [reflexivity|].
  do 6 (destruct fuel as [|fuel]; [left; vm_compute; reflexivity|]).
  right. eexists. split; vm_compute; reflexivity.
Qed.
Lemma never_returns : exists s, st_new loop_no loop_g [9] 0%nat = Ok s /\
  forall rf fuel, optimize loop_no loop_e loop_g (round loop_no loop_e loop_g) rf fuel s = Fault Diverges.
Proof.
  destruct (st_new loop_no loop_g [9] 0%nat) as [s|] eqn:E; [|discriminate]. exists s. split; auto. intros rf fuel.
  destruct (first_run fuel s E) as (s1 & E1 & H). apply (optimize_eq _ _ _ s1 E1 H). intros rf' _ nev x0 log gens. apply restarts_forever.
Qed.
