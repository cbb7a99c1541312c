(** Ranking SVM: multipliers, errors. *)
From Coq Require Import QArith.
From Verif Require Import Base Dbl DblProofs Config Search SearchInv StopProofs Rsvm SpecRsvm SpecSurr.
Local Open Scope Z_scope.

Section Gen.
Context {X D : Type}.
Variable ar : arith D.
Variable cval eps : D.
Variable draw : nat -> D.

Lemma weights_nth n i : (i < n)%nat -> nth_error (weights_C ar cval n) i = Some (a_mul ar cval (a_sq ar (S i))).
Proof.
  intros Hi. unfold weights_C. rewrite <- map_rev, nth_error_map.
  assert (E : nth_error (rev (seq 0 n)) i = Some (n - 1 - i)%nat).
  { rewrite (nth_error_nth' _ 0%nat) by (rewrite rev_length, seq_length; lia). rewrite rev_nth, seq_nth, seq_length by (rewrite ?seq_length; lia). f_equal. lia. }
  rewrite E. cbn [option_map]. do 3 f_equal. lia.
Qed.
Lemma weights_length n : length (weights_C ar cval n) = n.
Proof. unfold weights_C. now rewrite rev_length, map_length, seq_length. Qed.
Lemma start_length C : length (start_alpha ar draw C) = length C.
Proof. unfold start_alpha. rewrite map_length, combine_length, seq_length. lia. Qed.
Lemma combine_seq_nth {A} : forall (l : list A) a i, nth_error (combine (seq a (length l)) l) i = option_map (fun x => ((a + i)%nat, x)) (nth_error l i).
Proof.
  induction l as [|x l IH]; intros a i; cbn [length seq combine]; [now destruct i|].
  destruct i as [|i]; cbn [nth_error option_map]; [now rewrite Nat.add_0_r|]. rewrite IH. destruct (nth_error l i); cbn; auto. do 2 f_equal. lia.
Qed.
Lemma start_nth C i : nth_error (start_alpha ar draw C) i = option_map (fun c => a_mul ar c (a_add ar (a_95 ar) (a_mul ar (a_05 ar) (draw i)))) (nth_error C i).
Proof. unfold start_alpha. rewrite nth_error_map, combine_seq_nth. now destruct (nth_error C i). Qed.
Lemma sums_length d alpha : length (start_sums ar eps d alpha) = length alpha.
Proof. unfold start_sums. now rewrite map_length, seq_length. Qed.

Lemma set_nth {A} (l : list A) i a j : (i < length l)%nat -> nth_error (firstn i l ++ a :: skipn (S i) l) j = if (j =? i)%nat then Some a else nth_error l j.
Proof.
  intros B. destruct (Nat.eqb_spec j i) as [->|NE].
  - rewrite nth_error_app2 by (rewrite firstn_length; lia). rewrite firstn_length, Nat.min_l, Nat.sub_diag by lia. reflexivity.
  - destruct (Nat.lt_ge_cases j i).
    + rewrite nth_error_app1 by (rewrite firstn_length; lia). apply SortProofs.nth_error_firstn'. lia.
    + rewrite nth_error_app2 by (rewrite firstn_length; lia). rewrite firstn_length, Nat.min_l by lia.
      destruct (j - i)%nat as [|k] eqn:E; [lia|]. cbn [nth_error]. rewrite SortProofs.nth_error_skipn'. f_equal. lia.
Qed.
Lemma set_length {A} (l : list A) i a : (i < length l)%nat -> length (firstn i l ++ a :: skipn (S i) l) = length l.
Proof. intros B. rewrite app_length, firstn_length. cbn [length]. rewrite skipn_length. lia. Qed.

(** Shape of an iteration. *)
Definition new_alpha (old sa c : D) : D := a_max ar (a_min ar (a_add ar old sa) c) (a_0 ar).
Lemma opt_step_spec d C i alpha sums r : length sums = length alpha -> length C = length alpha -> opt_step ar eps d C i (alpha, sums) = r ->
  match length alpha with
  | O => r = Fault DivByZero
  | n => exists old sa c, nth_error alpha (i mod n) = Some old /\ nth_error sums (i mod n) = Some sa /\ nth_error C (i mod n) = Some c /\
      let i1 := (i mod n)%nat in
      let new := new_alpha old sa c in let delta := a_sub ar new old in
      let dL := a_mul ar (a_mul ar delta (d i1 i1)) (a_add ar (a_sub ar sa (a_mul ar (a_half ar) delta)) eps) in
      r = Ok (if a_lt ar (a_0 ar) dL then
              (firstn i1 alpha ++ new :: skipn (S i1) alpha,
               map (fun p => a_sub ar (snd p) (a_mul ar delta (a_div ar (d i1 (fst p)) (d (fst p) (fst p))))) (combine (seq 0 n) sums))
            else (alpha, sums))
  end.
Proof.
  intros Ls LC <-. unfold opt_step. destruct (length alpha) as [|n] eqn:E; [reflexivity|].
  assert (B : (i mod S n < S n)%nat) by (apply Nat.mod_upper_bound; lia).
  destruct (nth_error alpha (i mod S n)) as [old|] eqn:E1; [|apply nth_error_None in E1; lia].
  destruct (nth_error sums (i mod S n)) as [sa|] eqn:E2; [|apply nth_error_None in E2; lia].
  destruct (nth_error C (i mod S n)) as [c|] eqn:E3; [|apply nth_error_None in E3; lia].
  exists old, sa, c. do 3 (split; auto). cbn zeta. unfold new_alpha. now destruct (a_lt ar _ _).
Qed.
Lemma opt_steps_inv d C (I : list D -> list D -> Prop) :
  (forall i alpha sums s', I alpha sums -> opt_step ar eps d C i (alpha, sums) = Ok s' -> I (fst s') (snd s')) ->
  forall k i s s', I (fst s) (snd s) -> opt_steps ar eps d C i k s = Ok s' -> I (fst s') (snd s').
Proof.
  intros St. induction k as [|k IH]; intros i s s' Hi H; cbn [opt_steps] in H.
  - apply Ok_inj in H. now subst.
  - inv_do H. eapply IH; [|exact H]. destruct s as [al su]. eapply St; eauto.
Qed.
Lemma opt_steps_ok d C : forall k i alpha sums, length sums = length alpha -> length C = length alpha -> (length alpha <> 0)%nat ->
  exists s', opt_steps ar eps d C i k (alpha, sums) = Ok s'.
Proof.
  induction k as [|k IH]; intros i alpha sums Ls LC N; cbn [opt_steps]; [eauto|].
  pose proof (opt_step_spec d C i alpha sums _ Ls LC eq_refl) as H. destruct (length alpha) as [|n] eqn:E; [lia|].
  destruct H as (old & sa & c & N1 & N2 & N3 & H). cbn zeta in H. rewrite H. cbn [bind].
  assert (B : (i mod S n < S n)%nat) by (apply Nat.mod_upper_bound; lia).
  destruct (a_lt ar _ _); apply IH; rewrite ?set_length, ?map_length, ?combine_length, ?seq_length; try lia.
Qed.
End Gen.

(** Doubles *)
Lemma dle_spec a b : dle a b = true <-> dlt a b = true \/ deq a b = true.
Proof. unfold dle. now rewrite orb_true_iff. Qed.
Lemma dle_fin x y : dle (Fin x) (Fin y) = true <-> x <= y.
Proof. unfold dle. cbn. rewrite orb_true_iff, Z.ltb_lt, Z.eqb_eq. lia. Qed.
Lemma dval_le x y : x <= y -> (dval x <= dval y)%Q.
Proof. intros. unfold dval, Qle. cbn [Qnum Qden]. apply Z.mul_le_mono_nonneg_r; auto. apply Pos2Z.is_nonneg. Qed.
Lemma dval_nonneg x : 0 <= x -> (0 <= dval x)%Q.
Proof. intros H. change 0%Q with (0 # 1). unfold dval, Qle. cbn [Qnum Qden]. lia. Qed.
Lemma dval_one : (dval (2 ^ 1074) == 1)%Q.
Proof. vm_compute. reflexivity. Qed.
Lemma between_fin a b v : dle (Fin a) v = true -> dle v (Fin b) = true -> exists z, v = Fin z /\ a <= z <= b.
Proof.
  destruct v as [| |z|]; cbn; try discriminate.
  intros H1 H2. exists z. split; auto. unfold dle in *. cbn in *. apply orb_true_iff in H1, H2. rewrite Z.ltb_lt, Z.eqb_eq in *. lia.
Qed.

Section Box.
Variable ar : arith dbl.
Hypothesis fl : floating ar.

Lemma clamp_box v c : dle (Fin 0) (Fin c) = true -> v <> NaN ->
  within (Fin 0) (Fin c) (a_max ar (a_min ar v (Fin c)) (a_0 ar)).
Proof.
  destruct fl as (Lt & Z0 & _). intros Hc Nv. unfold a_max, a_min, within. rewrite !Lt, Z0. apply dle_fin in Hc.
  destruct v as [| |z|]; [congruence| | |]; cbn [dlt].
  - rewrite !dle_fin. lia.
  - destruct (Z.ltb_spec c z); cbn [dlt]; [destruct (Z.ltb_spec c 0)|destruct (Z.ltb_spec z 0)]; rewrite !dle_fin; lia.
  - destruct (Z.ltb_spec c 0); rewrite !dle_fin; lia.
Qed.
Lemma factor_unit u z : u = Fin z -> 0 <= z <= 2 ^ 1074 -> exists k, a_add ar (a_95 ar) (a_mul ar (a_05 ar) u) = Fin k /\ 0 <= k <= 2 ^ 1074.
Proof.
  destruct fl as (_ & _ & E95 & E05 & _ & rnd & (Mono & Idem & R0 & R1 & R95 & R05) & Add & Mul). intros -> Hz. rewrite E95, E05.
  unfold d_05. rewrite Mul. set (p := dval (7205759403792794 * 2 ^ 1017)) in *.
  assert (Hp : (0 <= p)%Q) by (apply dval_nonneg; lia).
  assert (Hd : (0 <= dval z)%Q) by (apply dval_nonneg; lia).
  assert (Hd1 : (dval z <= 1)%Q) by (rewrite <- dval_one; apply dval_le; lia).
  assert (A1 : dle (Fin 0) (rnd (p * dval z)%Q) = true).
  { rewrite <- R0. apply Mono. apply Qmult_le_0_compat; auto. }
  assert (A2 : dle (rnd (p * dval z)%Q) d_05 = true).
  { rewrite <- R05. apply Mono. rewrite <- (Qmult_1_r p) at 2. rewrite (Qmult_comm p (dval z)), (Qmult_comm p 1). apply Qmult_le_compat_r; auto. }
  destruct (between_fin _ _ _ A1 A2) as (y & Ey & By). rewrite Ey. unfold d_95. rewrite Add.
  assert (B1 : dle (Fin 0) (rnd (dval (8556839292003942 * 2 ^ 1021) + dval y)%Q) = true).
  { rewrite <- R0. apply Mono. rewrite <- (Qplus_0_l 0). apply Qplus_le_compat; apply dval_nonneg; lia. }
  assert (B2 : dle (rnd (dval (8556839292003942 * 2 ^ 1021) + dval y)%Q) d_one = true).
  { rewrite <- R1. apply Mono. apply Qle_trans with (dval (8556839292003942 * 2 ^ 1021) + dval (7205759403792794 * 2 ^ 1017))%Q.
    - apply Qplus_le_compat; [apply Qle_refl|apply dval_le; lia].
    - vm_compute. discriminate. }
  destruct (between_fin _ _ _ B1 B2) as (k & Ek & Bk). eauto.
Qed.
(** A number that is the result of an operation. *)
Definition rounded (a : dbl) : Prop := exists x y, a = a_mul ar (Fin x) (Fin y).
Lemma start_box u c z : rounded (Fin c) -> 0 <= c -> u = Fin z -> 0 <= z <= 2 ^ 1074 ->
  within (Fin 0) (Fin c) (a_mul ar (Fin c) (a_add ar (a_95 ar) (a_mul ar (a_05 ar) u))).
Proof.
  intros (x & y & Rc) Hc Eu Hz. destruct (factor_unit u z Eu Hz) as (k & -> & Hk).
  destruct fl as (_ & _ & _ & _ & _ & rnd & (Mono & Idem & R0 & _) & _ & Mul). rewrite Mul. rewrite Mul in Rc.
  symmetry in Rc. apply Idem in Rc.
  assert (Hq : (0 <= dval c)%Q) by (apply dval_nonneg; lia). assert (Hkq : (0 <= dval k)%Q) by (apply dval_nonneg; lia).
  assert (Hk1 : (dval k <= 1)%Q) by (rewrite <- dval_one; apply dval_le; lia). split.
  - rewrite <- R0. apply Mono. apply Qmult_le_0_compat; auto.
  - rewrite <- Rc. apply Mono. rewrite <- (Qmult_1_r (dval c)) at 2. rewrite (Qmult_comm _ (dval k)), (Qmult_comm _ 1). apply Qmult_le_compat_r; auto.
Qed.
End Box.

Definition boxed (C alpha : list dbl) : Prop := length alpha = length C /\
  forall i a c, nth_error alpha i = Some a -> nth_error C i = Some c -> within (Fin 0) c a.
Definition finite_C (C : list dbl) : Prop := forall i c, nth_error C i = Some c -> exists z, c = Fin z /\ 0 <= z.

Lemma step_box ar eps d C i alpha sums s' : floating ar -> finite_C C -> boxed C alpha -> length sums = length alpha ->
  opt_step ar eps d C i (alpha, sums) = Ok s' -> boxed C (fst s') /\ length (snd s') = length (fst s').
Proof.
  intros fl FC [LC B] Ls H. pose proof (opt_step_spec ar eps d C i alpha sums _ Ls (eq_sym LC) H) as Sp.
  destruct (length alpha) as [|n] eqn:E; [discriminate|]. destruct Sp as (old & sa & c & N1 & N2 & N3 & Q). cbn zeta in Q. apply Ok_inj in Q. subst s'.
  assert (Hi : (i mod S n < length alpha)%nat) by (rewrite E; apply Nat.mod_upper_bound; lia).
  destruct (a_lt ar _ _) eqn:Lt; cbn [fst snd]; [|split; [split; [now rewrite <- LC, E|exact B]|now rewrite E]].
  split; [|rewrite map_length, combine_length, seq_length, set_length; lia]. split; [rewrite set_length; lia|].
  intros j a cj Hj Hc. rewrite set_nth in Hj by auto. destruct (Nat.eqb_spec j (i mod S n)) as [->|NE]; [|eauto].
  injection Hj as <-. rewrite Hc in N3. injection N3 as <-. destruct (FC _ _ Hc) as (z & -> & Hz).
  unfold new_alpha in *. apply clamp_box; auto; [now apply dle_fin|]. intros EN. rewrite EN in Lt.
  destruct fl as (Ltd & Z0 & _ & _ & Nn & _).
  assert (EM : a_max ar (a_min ar NaN (Fin z)) (a_0 ar) = NaN).
  { unfold a_max, a_min. rewrite !Ltd. reflexivity. }
  rewrite EM in Lt. destruct (Nn old) as (_ & Sn & _). rewrite Sn in Lt.
  destruct (Nn (d (i mod S n)%nat (i mod S n)%nat)) as (_ & _ & Mn & _). rewrite Mn in Lt.
  destruct (Nn (a_add ar (a_sub ar sa (a_mul ar (a_half ar) NaN)) eps)) as (_ & _ & Mn' & _). rewrite Mn' in Lt. rewrite Ltd in Lt. now destruct (a_0 ar).
Qed.

(** Multipliers after training. *)
Lemma multipliers (X : Type) ar c eps draw kernel (encode : X -> X) x niter alpha : floating ar -> unit_draws draw ->
  0 <= c -> no_overflow ar (Fin c) (length x) ->
  train ar (Fin c) eps draw kernel encode x niter = Ok alpha ->
  length alpha = (length x - 1)%nat /\
  forall i a, nth_error alpha i = Some a -> within (Fin 0) (a_mul ar (Fin c) (a_sq ar (S i))) a.
Proof.
  intros fl Hu Hc Sq H. unfold train in H. destruct (map encode x) as [|x0 xs] eqn:Ex; [discriminate|].
  assert (Lx : length (x0 :: xs) = length x) by (rewrite <- Ex; apply map_length).
  remember (x0 :: xs) as ys. set (d := dK ar _) in H. set (C := weights_C ar (Fin c) (length ys - 1)) in *.
  set (al := start_alpha ar draw C) in *. inv_do H. apply Ok_inj in H. subst alpha.
  assert (FC : finite_C C).
  { intros i cc Hcc. assert (Hi : (i < length ys - 1)%nat).
    { assert (nth_error C i <> None) as Q by congruence; apply nth_error_Some in Q; unfold C in Q; rewrite weights_length in Q; exact Q. }
    unfold C in Hcc. rewrite weights_nth in Hcc by auto. injection Hcc as <-.
    destruct (Sq (S i)) as (p & Ep & Hp & No); [lia|]. rewrite Ep.
    destruct fl as (_ & _ & _ & _ & _ & rnd & (Mono & _ & R0 & _) & _ & Mul). rewrite Mul in No |- *.
    assert (Q : dle (Fin 0) (rnd (dval c * dval p)%Q) = true).
    { rewrite <- R0. apply Mono. apply Qmult_le_0_compat; apply dval_nonneg; lia. }
    destruct (rnd (dval c * dval p)%Q) as [| |z|]; cbn in Q; try discriminate Q; [|congruence]. exists z. split; auto. now apply (dle_fin 0 z) in Q. }
  assert (B0 : boxed C al).
  { split; [apply start_length|]. intros i a0 cc Ha Hcc. unfold al in Ha. rewrite start_nth, Hcc in Ha. injection Ha as <-.
    destruct (FC _ _ Hcc) as (z & -> & Hz). destruct (Hu i) as (u & Eu & Bu). eapply start_box; eauto.
    assert (nth_error C i <> None) as Q by congruence. apply nth_error_Some in Q. unfold C in Q. rewrite weights_length in Q.
    unfold C in Hcc. rewrite weights_nth in Hcc by auto. injection Hcc as Hcc. destruct (Sq (S i)) as (p & Ep & _); [lia|]. rewrite Ep in Hcc. exists c, p. auto. }
  assert (Inv : boxed C (fst a) /\ length (snd a) = length (fst a)).
  { apply (opt_steps_inv ar eps d C (fun al su => boxed C al /\ length su = length al)) in H0; auto.
    - intros i al0 su s' [B L] E. eapply step_box; eauto.
    - split; [exact B0|]. cbn [fst snd]. apply sums_length. }
  destruct Inv as [[L B] _]. unfold C in L. rewrite weights_length in L. rewrite <- Lx. split; [exact L|].
  intros i v Hv. apply (B i); auto. apply weights_nth. rewrite <- L. apply nth_error_Some. congruence.
Qed.
Lemma train_ok (X D : Type) ar (c eps : D) draw kernel (encode : X -> X) x niter : (2 <= length x)%nat ->
  exists alpha, train ar c eps draw kernel encode x niter = Ok alpha.
Proof.
  intros H. unfold train. destruct (map encode x) as [|x0 xs] eqn:Ex.
  - apply (f_equal (@length X)) in Ex. rewrite map_length in Ex. cbn in Ex. lia.
  - assert (Lx : length (x0 :: xs) = length x) by (rewrite <- Ex; apply map_length).
    cbn zeta. set (C := weights_C ar c (length (x0 :: xs) - 1)). set (d := dK ar _). set (al := start_alpha ar draw C).
    assert (La : length al = length C) by apply start_length. assert (LC : length C = (length (x0 :: xs) - 1)%nat) by apply weights_length.
    destruct (opt_steps_ok ar eps d C (Z.to_nat niter) 0 al (start_sums ar eps d al)) as [s' E]; [apply sums_length|auto|lia|].
    rewrite E. cbn [bind]. eauto.
Qed.
Lemma train_one (X D : Type) ar (c eps : D) draw kernel (encode : X -> X) x niter : 0 < niter ->
  train ar c eps draw kernel encode [x] niter = Fault DivByZero.
Proof. intros H. unfold train. cbn [map length Nat.sub]. destruct (Z.to_nat niter) eqn:E; [lia|]. reflexivity. Qed.

(** Errors *)
Lemma filter_diag n (P : nat * nat -> bool) : (length (filter (fun p => negb (fst p =? snd p)%nat && P p) (list_prod (seq 0 n) (seq 0 n))) <= n * n - n)%nat.
Proof.
  assert (G : forall l1 l2, NoDup l1 -> (forall x, In x l1 -> In x l2) -> NoDup l2 ->
    (length (filter (fun p => negb (fst p =? snd p)%nat && P p) (list_prod l1 l2)) + length l1 <= length l1 * length l2)%nat).
  { induction l1 as [|a l1 IH]; intros l2 N1 I N2; [cbn; lia|]. cbn [list_prod]. rewrite filter_app, app_length. inversion N1; subst.
    specialize (IH l2 H2 (fun x Hx => I x (or_intror Hx)) N2).
    assert (Q : (length (filter (fun p => negb (fst p =? snd p)%nat && P p) (map (fun y => (a, y)) l2)) + 1 <= length l2)%nat).
    { specialize (I a (or_introl eq_refl)). clear - I. induction l2 as [|b l2 IH2]; [contradiction|]. cbn [map filter fst snd].
      destruct I as [->|I].
      - rewrite Nat.eqb_refl. cbn [negb andb length]. pose proof (SortProofs.filter_length_le (fun p => negb (fst p =? snd p)%nat && P p) (map (fun y => (a, y)) l2)) as F.
        rewrite map_length in F. lia.
      - specialize (IH2 I). cbn [length]. destruct (negb (a =? b)%nat && P (a, b)); cbn [length]; lia. }
    cbn [length]. lia. }
  specialize (G (seq 0 n) (seq 0 n) (seq_NoDup _ _) (fun _ H => H) (seq_NoDup _ _)). rewrite seq_length in G. lia.
Qed.
Lemma svm_error (X D : Type) (ar : arith D) kernel (encode : X -> X) alpha test train ref q : (2 <= length ref)%nat ->
  error ar kernel encode alpha test train ref = Ok q -> unit_error q.
Proof.
  intros Hn H. unfold error in H. inv_do H. destruct a as [|f0 fs].
  - apply Ok_inj in H. subst q. exists 1%Q. split; auto. split; discriminate.
  - destruct (_ <? _)%nat; [discriminate|]. apply Ok_inj in H. subst q. destruct (Nat.ltb_spec (length ref) 2); [lia|].
    eexists. split; [reflexivity|]. set (n := length ref) in *.
    match goal with |- context [length (filter ?f (list_prod _ _))] => set (e := length (filter f (list_prod (seq 0 n) (seq 0 n)))) end.
    assert (B : (e <= n * n - n)%nat).
    { unfold e. apply (filter_diag n (fun p => misordered ar (nth (fst p) ref f0, nth (snd p) ref f0) (nth (fst p) (f0 :: fs) f0, nth (snd p) (f0 :: fs) f0))). }
    assert (Pn : (0 < n * n - n)%nat) by nia. clearbody e. generalize dependent (n * n - n)%nat. intros m B Pn. split.
    + apply Qle_shift_div_l; [change 0%Q with (inject_Z 0); rewrite <- Zlt_Qlt; lia|]. rewrite Qmult_0_l. change 0%Q with (inject_Z 0). rewrite <- Zle_Qle. lia.
    + apply Qle_shift_div_r; [change 0%Q with (inject_Z 0); rewrite <- Zlt_Qlt; lia|]. rewrite Qmult_1_l. rewrite <- Zle_Qle. lia.
Qed.
