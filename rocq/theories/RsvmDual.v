(** Ranking SVM in exact arithmetic: the dual objective along the iterations. *)
From Coq Require Import QArith Reals Lra Psatz.
From Verif Require Import Base Config Search SearchInv StopProofs Vec VecProofs Rsvm SpecRsvm RsvmProofs.
Local Open Scope R_scope.
Local Open Scope nat_scope.

Section Dual.
Variable eps : R.
Variable d : nat -> nat -> R.
Variable n : nat.
Hypothesis sym : forall i j, d i j = d j i.
Hypothesis pos : forall i, (i < n)%nat -> (0 < d i i)%R.
Local Open Scope R_scope.

Definition sums_ok (alpha sums : list R) : Prop := length alpha = n /\ length sums = n /\
  forall i, (i < n)%nat -> nth i sums 0 = (eps - rsum n (fun j => nth j alpha 0 * d i j)) / d i i.
Definition upd (i : nat) (x : R) (l : list R) := (firstn i l ++ x :: skipn (S i) l)%list.
Lemma nth_of (l : list R) i : nth i l 0 = match nth_error l i with Some x => x | None => 0 end.
Proof. revert i; induction l; destruct i; cbn; auto. Qed.
Lemma upd_nth_R l i x j : (i < length l)%nat -> nth j (upd i x l) 0 = if (j =? i)%nat then x else nth j l 0.
Proof. intros H. unfold upd. rewrite !nth_of, set_nth by auto. now destruct (j =? i)%nat. Qed.

(** Change of a linear form and of the dual when one coordinate changes. *)
Lemma rsum_upd (f : nat -> R) l i x : (i < n)%nat -> length l = n ->
  rsum n (fun j => nth j (upd i x l) 0 * f j) = rsum n (fun j => nth j l 0 * f j) + (x - nth i l 0) * f i.
Proof.
  intros Hi Ll. rewrite (rsum_ext n _ (fun j => nth j l 0 * f j + (if (j =? i)%nat then (x - nth i l 0) * f i else 0))).
  - rewrite rsum_plus. f_equal. rewrite (rsum_single n _ i Hi); [now rewrite Nat.eqb_refl|]. intros j _ NE. apply Nat.eqb_neq in NE. now rewrite NE.
  - intros j Hj. rewrite upd_nth_R by lia. destruct (Nat.eqb_spec j i) as [->|]; ring.
Qed.
Lemma quad_upd l i x : (i < n)%nat -> length l = n ->
  let delta := x - nth i l 0 in
  rsum n (fun k => rsum n (fun j => nth k (upd i x l) 0 * nth j (upd i x l) 0 * d k j)) =
  rsum n (fun k => rsum n (fun j => nth k l 0 * nth j l 0 * d k j)) + 2 * delta * rsum n (fun j => nth j l 0 * d i j) + delta * delta * d i i.
Proof.
  intros Hi Ll delta.
  assert (A : forall l1 l2, rsum n (fun k => rsum n (fun j => nth k l1 0 * nth j l2 0 * d k j)) = rsum n (fun k => nth k l1 0 * rsum n (fun j => nth j l2 0 * d k j))).
  { intros. apply rsum_ext. intros k Hk. rewrite <- rsum_scal. apply rsum_ext. intros. ring. }
  rewrite !A. rewrite (rsum_upd (fun k => rsum n (fun j => nth j (upd i x l) 0 * d k j)) l i x Hi Ll). fold delta.
  rewrite (rsum_upd (fun j => d i j) l i x Hi Ll). fold delta.
  rewrite (rsum_ext n (fun j => nth j l 0 * rsum n (fun j0 => nth j0 (upd i x l) 0 * d j j0))
     (fun j => nth j l 0 * rsum n (fun j0 => nth j0 l 0 * d j j0) + delta * (nth j l 0 * d i j))).
  - rewrite rsum_plus, rsum_scal. ring.
  - intros j Hj. rewrite (rsum_upd (fun k => d j k) l i x Hi Ll). fold delta. rewrite (sym j i). ring.
Qed.
Lemma dual_upd alpha sums i x : sums_ok alpha sums -> (i < n)%nat ->
  let delta := x - nth i alpha 0 in
  dual eps d (upd i x alpha) = dual eps d alpha + delta * d i i * (nth i sums 0 - delta / 2).
Proof.
  intros (La & Ls & S) Hi delta. unfold dual. assert (Lu : length (upd i x alpha) = n) by (unfold upd; rewrite set_length; lia). rewrite Lu, La.
  pose proof (quad_upd alpha i x Hi La) as Q. cbn zeta in Q. fold delta in Q. rewrite Q. clear Q.
  assert (L : rsum n (fun j => nth j (upd i x alpha) 0) = rsum n (fun j => nth j alpha 0) + delta).
  { pose proof (rsum_upd (fun _ => 1) alpha i x Hi La) as H. rewrite Rmult_1_r in H. fold delta in H.
    rewrite (rsum_ext n (fun j => nth j (upd i x alpha) 0) (fun j => nth j (upd i x alpha) 0 * 1)) by (intros; ring). rewrite H. f_equal. apply rsum_ext. intros; ring. }
  rewrite L, (S i Hi). specialize (pos i Hi). field. lra.
Qed.
Lemma Rltb_true a b : Rltb a b = true <-> a < b.
Proof. unfold Rltb. destruct (Rlt_dec a b); split; auto; discriminate. Qed.
Lemma clamp_R old sa c : 0 <= old <= c -> 0 <= new_alpha exact old sa c <= c /\
  ((0 <= sa /\ 0 <= new_alpha exact old sa c - old <= sa) \/ (sa <= 0 /\ sa <= new_alpha exact old sa c - old <= 0)).
Proof.
  intros H. unfold new_alpha, a_max, a_min, exact, Rltb. cbn [a_lt a_0 a_add]. destruct (Rlt_dec c (old + sa)); [destruct (Rlt_dec c 0)|destruct (Rlt_dec (old + sa) 0)]; lra.
Qed.
Definition box (C alpha : list R) : Prop := length C = n /\ forall i, (i < n)%nat -> 0 <= nth i alpha 0 <= nth i C 0.

Lemma step_dual C i alpha sums s' : sums_ok alpha sums -> box C alpha -> opt_step exact eps d C i (alpha, sums) = Ok s' ->
  sums_ok (fst s') (snd s') /\ box C (fst s') /\ dual eps d alpha <= dual eps d (fst s') /\ (fst s' <> alpha -> dual eps d alpha < dual eps d (fst s')).
Proof.
  intros HS HB H. pose proof HS as (La & Ls & S). pose proof HB as (LC & B).
  pose proof (opt_step_spec exact eps d C i alpha sums _ ltac:(lia) ltac:(lia) H) as Sp. rewrite La in Sp.
  destruct n as [|m] eqn:En; [discriminate|]. rewrite <- En in *. destruct Sp as (old & sa & c & N1 & N2 & N3 & Q). cbn zeta in Q. apply Ok_inj in Q. subst s'. clear H.
  set (i1 := (i mod n)%nat) in *. assert (Hi : (i1 < n)%nat) by (apply Nat.mod_upper_bound; lia).
  assert (E1 : nth i1 alpha 0 = old) by (rewrite nth_of, N1; auto). assert (E2 : nth i1 sums 0 = sa) by (rewrite nth_of, N2; auto).
  assert (E3 : nth i1 C 0 = c) by (rewrite nth_of, N3; auto).
  destruct (a_lt exact _ _) eqn:Lt; cbn [fst snd]; [|split; [exact HS|split; [exact HB|split; [lra|congruence]]]].
  apply Rltb_true in Lt. cbn in Lt. fold (upd i1 (new_alpha exact old sa c) alpha).
  pose proof (clamp_R old sa c ltac:(rewrite <- E1, <- E3; apply B; auto)) as [Bx Sg]. set (new := new_alpha exact old sa c) in *.
  set (delta := new - old) in *.
  assert (Nz : delta <> 0). { intros Z. rewrite Z in Lt. lra. }
  assert (Dl : dual eps d alpha < dual eps d (upd i1 new alpha)).
  { rewrite (dual_upd alpha sums i1 new HS Hi). rewrite E1, E2. fold delta. pose proof (pos i1 Hi) as Hp.
    assert (0 < delta * (sa - delta / 2)) by (destruct Sg as [[? ?]|[? ?]]; nra). assert (delta * d i1 i1 * (sa - delta / 2) = d i1 i1 * (delta * (sa - delta / 2))) by ring. nra. }
  split; [|split; [|split; [lra|auto]]].
  - unfold sums_ok. unfold upd. rewrite set_length, map_length, combine_length, seq_length by lia. split; [lia|]. split; [lia|]. intros j Hj.
    fold (upd i1 new alpha). rewrite (rsum_upd (fun k => d j k) alpha i1 new Hi La), E1. fold delta.
    rewrite nth_of, nth_error_map. replace n with (length sums) at 1 by lia. rewrite combine_seq_nth. pose proof (S j Hj) as Sj. rewrite nth_of in Sj.
    destruct (nth_error sums j) as [sj|] eqn:Ej; [|apply nth_error_None in Ej; lia]. cbn [option_map fst snd Nat.add]. change (a_sub exact new old) with delta. cbn [a_sub a_mul a_div exact]. rewrite Sj, (sym i1 j). pose proof (pos j Hj). field. lra.
  - split; [auto|]. intros j Hj. rewrite upd_nth_R by lia. destruct (Nat.eqb_spec j i1) as [->|]; [rewrite E3; exact Bx|auto].
Qed.
End Dual.

Definition improves (f : nat -> R) : Prop := forall k l, (k <= l)%nat -> (f k <= f l)%R.
Lemma steps_app_R eps d C : forall k l i s, opt_steps exact eps d C i (k + l) s = do s' <- opt_steps exact eps d C i k s; opt_steps exact eps d C (i + k) l s'.
Proof.
  induction k as [|k IH]; intros l i s; cbn [opt_steps Nat.add bind]; [now rewrite Nat.add_0_r|].
  destruct (opt_step exact eps d C i s) as [s'|]; cbn [bind]; auto. rewrite IH. now replace (S i + k)%nat with (i + S k)%nat by lia.
Qed.
Lemma steps_dual eps d n C : (forall i j, d i j = d j i) -> (forall i, (i < n)%nat -> (0 < d i i)%R) ->
  forall k i s s', sums_ok eps d n (fst s) (snd s) -> box n C (fst s) -> opt_steps exact eps d C i k s = Ok s' ->
  sums_ok eps d n (fst s') (snd s') /\ box n C (fst s') /\ (dual eps d (fst s) <= dual eps d (fst s'))%R.
Proof.
  intros Sy P. induction k as [|k IH]; intros i s s' HS HB H; cbn [opt_steps] in H.
  - apply Ok_inj in H. subst s'. split; [auto|split; [auto|lra]].
  - inv_do H. destruct s as [al su]. cbn [fst snd] in *. destruct (step_dual eps d n Sy P C i al su a HS HB H0) as (S1 & B1 & D1 & _).
    destruct (IH _ _ _ S1 B1 H) as (S2 & B2 & D2). split; auto. split; auto. lra.
Qed.
Local Open Scope R_scope.
Lemma fold_rsum (f : nat -> R) : forall (l : list R) a z,
  fold_left (fun s p => s + snd p * f (fst p)) (combine (seq a (length l)) l) z = z + rsum (length l) (fun j => nth j l 0 * f (a + j)%nat).
Proof.
  induction l as [|x l IH]; intros a z; [cbn; ring|]. cbn [length seq combine fold_left fst snd]. rewrite IH, rsum_S_l. cbn [nth]. rewrite Nat.add_0_r.
  rewrite (rsum_ext _ (fun j => nth j l 0 * f (S a + j)%nat) (fun i => nth i l 0 * f (a + S i)%nat)); [ring|]. intros. do 2 f_equal. lia.
Qed.
Lemma start_sums_ok eps d alpha : sums_ok eps d (length alpha) alpha (start_sums exact eps d alpha).
Proof.
  split; auto. split; [apply sums_length|]. intros i Hi. unfold start_sums. rewrite nth_of, nth_error_map.
  rewrite (nth_error_nth' _ 0%nat) by (now rewrite seq_length). rewrite seq_nth by auto. cbn [option_map Nat.add]. cbn.
  rewrite (fold_rsum (d i) alpha 0 0). cbn [Nat.add]. now rewrite Rplus_0_l.
Qed.
Lemma start_box_R cval draw m : 0 <= cval -> (forall i, 0 <= draw i <= 1) -> box m (weights_C exact cval m) (start_alpha exact draw (weights_C exact cval m)).
Proof.
  intros Hc Hu. split; [apply weights_length|]. intros i Hi. rewrite !nth_of, start_nth, weights_nth by auto. cbn [option_map]. unfold exact. cbn [a_mul a_sq a_add a_95 a_05].
  specialize (Hu i). set (c := cval * (INR (S i) * INR (S i))). assert (0 <= c) by (pose proof (pos_INR (S i)); unfold c; apply Rmult_le_pos; nra). clearbody c. nra.
Qed.

(** The training set after [encode]. *)
Lemma train_unfold (X : Type) cval eps draw kernel (encode : X -> X) x0 xs niter : let ys := map encode (x0 :: xs) in
  train exact cval eps draw kernel encode (x0 :: xs) niter =
  let C := weights_C exact cval (length xs) in let d := differences kernel (encode x0) ys in
  do s <- opt_steps exact eps d C 0 (Z.to_nat niter) (start_alpha exact draw C, start_sums exact eps d (start_alpha exact draw C)); Ok (fst s).
Proof.
  intros ys. unfold train. fold ys. change ys with (encode x0 :: map encode xs) at 1. cbv beta iota zeta.
  replace (length (encode x0 :: map encode xs) - 1)%nat with (length xs) by (cbn [length]; rewrite map_length; lia). reflexivity.
Qed.
Lemma dual_improves (X : Type) cval eps draw kernel (encode : X -> X) x0 xs k l a b :
  (forall x y, kernel x y = kernel y x) -> 0 <= cval -> (forall i, 0 <= draw i <= 1) ->
  (forall i, (i < length xs)%nat -> 0 < differences kernel (encode x0) (map encode (x0 :: xs)) i i) -> (k <= l)%Z ->
  train exact cval eps draw kernel encode (x0 :: xs) k = Ok a -> train exact cval eps draw kernel encode (x0 :: xs) l = Ok b ->
  dual eps (differences kernel (encode x0) (map encode (x0 :: xs))) a <= dual eps (differences kernel (encode x0) (map encode (x0 :: xs))) b.
Proof.
  intros Sy Hc Hu P Kl Ha Hb. rewrite train_unfold in Ha, Hb. cbv zeta in Ha, Hb.
  set (d := differences kernel (encode x0) (map encode (x0 :: xs))) in *. set (C := weights_C exact cval (length xs)) in *. set (al := start_alpha exact draw C) in *.
  assert (Sd : forall i j, d i j = d j i).
  { intros i j. unfold d, differences. rewrite (Sy (nth (S i) _ _) (nth j _ _)), (Sy (nth i _ _) (nth (S j) _ _)), (Sy (nth i _ _) (nth j _ _)), (Sy (nth (S i) _ _) (nth (S j) _ _)). ring. }
  assert (La : length al = length xs) by (unfold al; rewrite start_length; apply weights_length).
  assert (S0 : sums_ok eps d (length xs) al (start_sums exact eps d al)) by (rewrite <- La; apply start_sums_ok).
  assert (B0 : box (length xs) C al) by (apply start_box_R; auto).
  inv_do Ha. rename a0 into sa. apply Ok_inj in Ha. subst a. inv_do Hb. rename a into sb. apply Ok_inj in Hb. subst b.
  replace (Z.to_nat l) with (Z.to_nat k + (Z.to_nat l - Z.to_nat k))%nat in H0 by lia. rewrite steps_app_R, H in H0. cbn [bind] in H0.
  destruct (steps_dual eps d (length xs) C Sd P _ _ (al, start_sums exact eps d al) sa S0 B0 H) as (S1 & B1 & _).
  destruct (steps_dual eps d (length xs) C Sd P _ _ _ _ S1 B1 H0) as (_ & _ & D). exact D.
Qed.

(** A training set on which an improving step is never taken: one constraint,
    whose optimal multiplier is one less than the initial one. *)
Definition stuck_y : R := sqrt (1 / 949999).
Lemma stuck_sq : stuck_y * stuck_y = 1 / 949999.
Proof. unfold stuck_y. apply sqrt_def. lra. Qed.
Lemma stuck_steps k : forall i, opt_steps exact 1 (differences Rmult 0 [0; stuck_y]) [1000000] i k ([950000], [-1]) = Ok ([950000], [-1]).
Proof.
  assert (D : differences Rmult 0 [0; stuck_y] 0 0 = 1 / 949999) by (unfold differences; cbn [nth]; rewrite stuck_sq; ring).
  induction k as [|k IH]; intros i; cbn [opt_steps]; [reflexivity|]. unfold opt_step. cbn [length]. rewrite Nat.mod_1_r. cbn [nth_error]. rewrite D.
  assert (N : a_max exact (a_min exact (a_add exact 950000 (-1)) 1000000) (a_0 exact) = 949999).
  { unfold a_max, a_min, exact, Rltb. cbn [a_lt a_0 a_add]. destruct (Rlt_dec 1000000 (950000 + -1)); [lra|]. destruct (Rlt_dec (950000 + -1) 0); lra. }
  rewrite N. destruct (a_lt exact _ _) eqn:L; [|cbn [bind]; apply IH]. exfalso.
  unfold exact in L. cbn [a_lt a_0 a_mul a_sub a_add a_half] in L. apply Rltb_true in L. lra.
Qed.
Lemma stuck_train niter : train exact 1000000 1 (fun _ => 0) Rmult (fun x => x) [0; stuck_y] niter = Ok [950000].
Proof.
  rewrite train_unfold. cbv zeta. cbn [map].
  assert (C : weights_C exact 1000000 (length [stuck_y]) = [1000000]).
  { unfold weights_C. cbn [length seq map rev app Nat.sub exact a_mul a_sq INR]. f_equal. lra. }
  rewrite C. assert (A : start_alpha exact (fun _ : nat => 0) [1000000] = [950000]).
  { unfold start_alpha. cbn [length seq combine map fst snd exact a_mul a_add a_95 a_05]. f_equal. lra. }
  rewrite A. assert (S : start_sums exact 1 (differences Rmult 0 [0; stuck_y]) [950000] = [-1]).
  { unfold start_sums. cbn [length seq combine map fold_left fst snd exact a_mul a_add a_sub a_div a_0]. f_equal.
    unfold differences. cbn [nth]. rewrite stuck_sq. field_simplify; lra. }
  rewrite S, stuck_steps. reflexivity.
Qed.
Lemma stuck : exists x : list R, length x = 2%nat /\ forall niter, exists a, train exact 1000000 1 (fun _ => 0) Rmult (fun x => x) x niter = Ok [a] /\
  exists b, 0 <= b <= 1000000 /\ dual 1 (differences Rmult 0 x) [a] < dual 1 (differences Rmult 0 x) [b].
Proof.
  exists [0; stuck_y]. split; [reflexivity|]. intros niter. exists 950000. split; [apply stuck_train|]. exists 949999. split; [lra|].
  unfold dual, differences. cbn [length rsum nth]. rewrite stuck_sq. lra.
Qed.
