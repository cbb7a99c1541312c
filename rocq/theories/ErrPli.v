(** The profile likelihood. *)
From Coq Require Import Reals Lra.
From Verif Require Import Base EoMatrix Pwq Scaling GenoPheno SpecBounds SpecGeno Errstats SpecErr
  EoMatrixProofs PwqProofs GenoPhenoProofs ScalingProofs GpParProofs ErrVec ErrVpk.
Lemma Ok_inj {A} (a b : A) : Ok a = Ok b -> a = b.
Proof. congruence. Qed.
Local Open Scope nat_scope.

Lemma best_last s h b : s_hist s = h ++ [b] -> best s = Ok b.
Proof. intros H. unfold best. rewrite H, rev_app_distr. reflexivity. Qed.

(** * The sampled curve *)
Lemma argmin_from_spec l : forall i bi b, bi < i ->
  exists v, (argmin_from i bi b l = bi /\ v = b \/ (i <= argmin_from i bi b l /\ nth_error l (argmin_from i bi b l - i) = Some v)) /\
    (v <= b)%R /\ forall w, In w l -> (v <= w)%R.
Proof.
  induction l as [|a l IH]; intros i bi b Hb; cbn [argmin_from].
  - exists b. split; [left; auto|]. split; [lra|]. intros w [].
  - unfold rlt. destruct (Rlt_dec a b) as [Hab|Hab].
    + destruct (IH (S i) i a ltac:(lia)) as (v & Hv & Hl & Hm). exists v. split; [|split; [lra|]].
      * right. destruct Hv as [[E ->]|[E1 E2]].
        -- rewrite E. split; [lia|]. rewrite Nat.sub_diag. reflexivity.
        -- split; [lia|]. set (r := argmin_from (S i) i a l) in *. replace (r - i) with (S (r - S i)) by lia. exact E2.
      * intros w [<-|Hw]; [exact Hl|apply Hm; exact Hw].
    + destruct (IH (S i) bi b ltac:(lia)) as (v & Hv & Hl & Hm). exists v. split; [|split; [exact Hl|]].
      * destruct Hv as [[E ->]|[E1 E2]]; [left; auto|right].
        split; [lia|]. set (r := argmin_from (S i) bi b l) in *. replace (r - i) with (S (r - S i)) by lia. exact E2.
      * intros w [<-|Hw]; [lra|apply Hm; exact Hw].
Qed.
Lemma argmin_spec l i : argmin l = Ok i -> exists v, nth_error l i = Some v /\ forall w, In w l -> (v <= w)%R.
Proof.
  destruct l as [|a l]; cbn [argmin]; intros H; [discriminate|]. injection H as <-.
  destruct (argmin_from_spec l 1 0 a ltac:(lia)) as (v & Hv & Hl & Hm). exists v. split.
  - destruct Hv as [[-> ->]|[E1 E2]]; [reflexivity|].
    destruct (argmin_from 1 0 a l) as [|r]; [lia|]. cbn [nth_error]. replace (S r - 1) with r in E2 by lia. exact E2.
  - intros w [<-|Hw]; auto.
Qed.
Lemma argmin_total l : l <> [] -> exists i, argmin l = Ok i /\ i < length l.
Proof.
  intros H. destruct (argmin l) as [i|e] eqn:E.
  - exists i. split; [reflexivity|]. destruct (argmin_spec _ _ E) as (v & Hv & _). apply nth_error_Some. congruence.
  - destruct l; [congruence|discriminate].
Qed.
Lemma argmin_lt l i : argmin l = Ok i -> i < length l.
Proof. intros E. destruct (argmin_spec _ _ E) as (v & Hv & _). apply nth_error_Some. congruence. Qed.

(** Fields that no stored point changes. *)
Definition same_meta (l l' : pli) : Prop :=
  p_k l' = p_k l /\ p_size l' = p_size l /\ p_fup l' = p_fup l /\
  length (p_fvaluem l') = length (p_fvaluem l) /\ length (p_xm l') = length (p_xm l) /\ length (p_err l') = length (p_err l).
Lemma same_meta_refl l : same_meta l l.
Proof. repeat split. Qed.
Lemma same_meta_trans a b c : same_meta a b -> same_meta b c -> same_meta a c.
Proof. unfold same_meta. intuition congruence. Qed.
(** Row [i] of the curve: value and point. *)
Definition row (l : pli) (i : nat) : option R * option (list R) := (nth_error (p_fvaluem l) i, nth_error (p_xm l) i).

Lemma put_Z {A} (l l' : list A) i a : put l i a = Ok l' -> (0 <= i)%Z /\ Z.to_nat i < length l /\ l' = put_nat l (Z.to_nat i) a.
Proof.
  unfold put. destruct (Z.ltb_spec i 0); [discriminate|]. destruct (Z.leb_spec (Z.of_nat (length l)) i); [discriminate|].
  cbn [orb]. intros E. injection E as <-. split; [lia|]. split; [lia|reflexivity].
Qed.
Lemma pli_store_ok i f x e l l' : pli_store i f x e l = Ok l' ->
  ((0 <= i)%Z /\ Z.to_nat i < length (p_fvaluem l)) /\ same_meta l l' /\ row l' (Z.to_nat i) = (Some f, Some x) /\ (forall j, j <> Z.to_nat i -> row l' j = row l j).
Proof.
  unfold pli_store. intros H. apply bind_ok in H; destruct H as (fs & Hf & H). apply bind_ok in H; destruct H as (xs & Hx & H).
  apply bind_ok in H; destruct H as (es & He & H). injection H as <-.
  apply put_Z in Hf, Hx, He. destruct Hf as (Hi & Lf & ->), Hx as (_ & Lx & ->), He as (_ & Le & ->).
  split; [split; [exact Hi|exact Lf]|]. split; [|split].
  - unfold same_meta; cbn. rewrite !put_nat_length by assumption. auto 10.
  - unfold row; cbn. rewrite !nth_put_nat by assumption. rewrite Nat.eqb_refl. reflexivity.
  - intros j Hj. unfold row; cbn. rewrite !nth_put_nat by assumption. destruct (Nat.eqb_spec j (Z.to_nat i)); [contradiction|reflexivity].
Qed.
Lemma pli_store_in i f x e l : (0 <= i)%Z -> Z.to_nat i < length (p_fvaluem l) -> length (p_xm l) = length (p_fvaluem l) ->
  length (p_err l) = length (p_fvaluem l) -> exists l', pli_store i f x e l = Ok l'.
Proof.
  intros Hi L Lx Le. unfold pli_store. replace i with (Z.of_nat (Z.to_nat i)) by lia.
  rewrite put_in by lia. cbn [bind]. rewrite put_in by lia. cbn [bind]. rewrite put_in by lia. cbn [bind]. eauto.
Qed.

Definition on_side (s : nat) (sign : Z) (i : nat) : Prop := exists j, j < s /\ Z.of_nat i = (Z.of_nat s + sign * (1 + Z.of_nat j))%Z.
Lemma pad_ok m : forall j s sign f x e l l', (sign = 1 \/ sign = -1)%Z -> pad j m s sign f x e l = Ok l' ->
  same_meta l l' /\
  (forall i, (forall j', j <= j' < j + m -> Z.of_nat i <> (s + sign * (1 + Z.of_nat j'))%Z) -> row l' i = row l i) /\
  (forall j' i, j <= j' < j + m -> Z.of_nat i = (s + sign * (1 + Z.of_nat j'))%Z -> row l' i = (Some f, Some x)).
Proof.
  induction m as [|m IH]; intros j s sign f x e l l' Hs H; cbn [pad] in H.
  - injection H as <-. split; [apply same_meta_refl|]. split; [auto|]. intros; lia.
  - apply bind_ok in H; destruct H as (l1 & H1 & H).
    destruct (pli_store_ok _ _ _ _ _ _ H1) as ([Hi _] & M1 & R1 & R2).
    destruct (IH _ _ _ _ _ _ _ _ Hs H) as (M2 & R3 & R4).
    split; [exact (same_meta_trans _ _ _ M1 M2)|]. split.
    + intros i Hn. rewrite R3 by (intros j' Hj'; apply Hn; lia). apply R2.
      intros ->. apply (Hn j); [lia|]. rewrite Z2Nat.id; [reflexivity|exact Hi].
    + intros j' i Hj' E. destruct (Nat.eq_dec j' j) as [->|Hne].
      * rewrite R3.
        -- rewrite <- R1. f_equal. lia.
        -- intros j'' Hj''. nia.
      * apply (R4 j'); [lia|exact E].
Qed.
Lemma pad_total m : forall j s sign f x e l, (sign = 1 \/ sign = -1)%Z -> (j + m <= s) ->
  length (p_fvaluem l) = 2 * s + 1 -> length (p_xm l) = length (p_fvaluem l) -> length (p_err l) = length (p_fvaluem l) ->
  exists l', pad j m (Z.of_nat s) sign f x e l = Ok l'.
Proof.
  induction m as [|m IH]; intros j s sign f x e l Hs Hj L Lx Le; cbn [pad]; [eauto|].
  destruct (pli_store_in (Z.of_nat s + sign * (1 + Z.of_nat j)) f x e l) as (l1 & H1); try nia.
  rewrite H1; cbn [bind]. destruct (pli_store_ok _ _ _ _ _ _ H1) as (_ & (_ & _ & _ & A & B & C) & _ & _).
  apply IH; auto; lia || congruence.
Qed.

(** * Accesses outside the iterations *)
Lemma get_in_range {A} (l : list A) i : i < length l -> in_range (get l (Z.of_nat i)).
Proof. intros H. rewrite get_nat. destruct (nth_error l i) eqn:E; [apply in_range_ok|]. apply nth_error_None in E. lia. Qed.
Lemma put_in_range {A} (l : list A) i a : i < length l -> in_range (put l (Z.of_nat i) a).
Proof. intros H. rewrite put_in by exact H. apply in_range_ok. Qed.

Section Pl.
Variable func : list R -> R.
Variable par : epar.
Variable cm : (list R -> R) -> ipar -> res iout.
Notation PL := (profile_likelihood func par cm).

(** ** What one side of the search leaves *)
(** The point found is the best of a search with the coordinate held fixed, and
    has the level. *)
Definition found (sol : esol) (k : nat) (minf fup : R) (f : R) (y : list R) : Prop :=
  exists v x s c, optimize_pk func par cm sol k v x false false = Ok s /\ best s = Ok c /\
    pheno (a_gp par) (ec_x c) = Ok y /\ ec_f c = f /\ near_level minf fup f /\ ~ (f < minf / 10)%R.

Lemma pad_centre_ok s sign e l l' : (sign = 1 \/ sign = -1)%Z -> pad_centre s sign e l = Ok l' ->
  same_meta l l' /\ (forall i, ~ on_side s sign i -> row l' i = row l i) /\
  (forall i, on_side s sign i -> row l' i = row l s).
Proof.
  intros Hs H. unfold pad_centre in H. destruct s as [|s].
  - injection H as <-. split; [apply same_meta_refl|]. split; [auto|]. intros i (j & Hj & _). lia.
  - apply bind_ok in H; destruct H as (f & Hf & H). apply bind_ok in H; destruct H as (x & Hx & H).
    apply get_ok in Hf, Hx. destruct (pad_ok _ _ _ _ _ _ _ _ _ Hs H) as (M & R1 & R2).
    split; [exact M|]. split.
    + intros i Hi. apply R1. intros j' Hj' E. apply Hi. exists j'. split; [lia|exact E].
    + intros i (j & Hj & E). rewrite (R2 j i); [|lia|exact E]. unfold row. rewrite Hf, Hx. reflexivity.
Qed.

Lemma pl_loop_ok sol k sign s minf fup delta maxiters curve : (sign = 1 \/ sign = -1)%Z ->
  forall fuel lfuel i linit d x l l', length (p_fvaluem l) = 2 * s + 1 ->
  pl_loop func par cm fuel lfuel sol k sign s minf fup delta maxiters curve i linit d x l = Ok l' ->
  same_meta l l' /\ (forall j, ~ on_side s sign j -> row l' j = row l j) /\
  (curve = false ->
     (forall j, on_side s sign j -> row l' j = row l j) \/
     (forall j, on_side s sign j -> row l' j = row l s) \/
     (exists f y, found sol k minf fup f y /\ forall j, on_side s sign j -> row l' j = (Some f, Some y))).
Proof.
  intros Hs. induction fuel as [|fuel IH]; intros lfuel i linit d x l l' Hi H; cbn [pl_loop] in H; [discriminate|].
  apply bind_ok in H; destruct H as ([d' x'] & Hst & H).
  apply bind_ok in H; destruct H as (v & Hv & H).
  apply bind_ok in H; destruct H as (ns & Hns & H).
  assert (C : forall e, pad_centre s sign e l = Ok l' -> same_meta l l' /\ (forall j, ~ on_side s sign j -> row l' j = row l j) /\
    (curve = false ->
     (forall j, on_side s sign j -> row l' j = row l j) \/
     (forall j, on_side s sign j -> row l' j = row l s) \/
     (exists f y, found sol k minf fup f y /\ forall j, on_side s sign j -> row l' j = (Some f, Some y)))).
  { intros e He. destruct (pad_centre_ok _ _ _ _ _ Hs He) as (M & R1 & R2). split; [exact M|]. split; [exact R1|]. right; left; exact R2. }
  destruct (s_status ns <? 0)%Z; [exact (C _ H)|].
  apply bind_ok in H; destruct H as (b & Hb & H).
  destruct (rlt (ec_f b) (0.1 * minf)) eqn:Elow; [exact (C _ H)|]. clear C.
  apply bind_ok in H; destruct H as (y & Hy & H).
  apply bind_ok in H; destruct H as (l1 & Hl1 & H).
  destruct curve; cbn [negb andb] in H.
  - destruct (pli_store_ok _ _ _ _ _ _ Hl1) as ([Hp Hq] & M1 & R1 & R2).
    assert (F1 : forall j, ~ on_side s sign j -> row l1 j = row l j).
    { intros j Hj. apply R2. intros ->. apply Hj. exists i. split; [destruct Hs as [-> | ->]; lia|]. rewrite Z2Nat.id by exact Hp. reflexivity. }
    assert (E : l1 = l' -> same_meta l l' /\ (forall j, ~ on_side s sign j -> row l' j = row l j)) by (intros <-; auto).
    assert (G : same_meta l l' /\ (forall j, ~ on_side s sign j -> row l' j = row l j)).
    { destruct (S i =? s)%nat; [apply Ok_inj in H; auto|]. destruct (Z.of_nat (S i) =? maxiters)%Z; [apply Ok_inj in H; auto|].
      assert (L1 : length (p_fvaluem l1) = 2 * s + 1) by (destruct M1 as (_ & _ & _ & A & _); congruence).
      destruct (IH _ _ _ _ _ _ _ L1 H) as (M2 & R3 & _).
      split; [exact (same_meta_trans _ _ _ M1 M2)|]. intros j Hj. rewrite R3 by exact Hj. apply F1; exact Hj. }
    destruct G as [G1 G2]. split; [exact G1|]. split; [exact G2|]. discriminate.
  - injection Hl1 as <-. destruct (rle _ _) eqn:Er.
    + destruct (pad_ok _ _ _ _ _ _ _ _ _ Hs H) as (M & R1 & R2). split; [exact M|]. split.
      * intros j Hj. apply R1. intros j' Hj' E. apply Hj. exists j'. split; [lia|exact E].
      * intros _. right; right. exists (ec_f b), y. split.
        -- exists v, x', ns, b. do 4 (split; [assumption || reflexivity|]).
           unfold rle in Er. destruct (Rle_dec _ _) as [Hr|]; [|discriminate].
           unfold rlt in Elow. destruct (Rlt_dec _ _) as [|Hl]; [discriminate|]. unfold near_level. split; lra.
        -- intros j (j' & Hj' & E). apply (R2 j'); [lia|exact E].
    + destruct (Z.of_nat (S i) =? maxiters)%Z; [injection H as <-; split; [apply same_meta_refl|]; auto|].
      apply (IH _ _ _ _ _ _ _ Hi H).
Qed.

Lemma side_up s j : on_side s 1 j <-> s < j <= 2 * s.
Proof.
  split.
  - intros (i & Hi & E). lia.
  - intros H. exists (j - s - 1). lia.
Qed.
Lemma side_down s j : on_side s (-1) j <-> j < s.
Proof.
  split.
  - intros (i & Hi & E). lia.
  - intros H. exists (s - j - 1). lia.
Qed.

Lemma pli_new_ok k s dim y f fup delta l : pli_new k s dim y f fup delta = Ok l ->
  length y = dim /\ p_k l = k /\ p_size l = s /\ p_fup l = fup /\
  length (p_fvaluem l) = 2 * s + 1 /\ length (p_xm l) = 2 * s + 1 /\ length (p_err l) = 2 * s + 1 /\
  row l s = (Some f, Some y) /\ (forall i, i <> s -> i < 2 * s + 1 -> row l i = (Some 0%R, Some (repeat 0%R dim))).
Proof.
  unfold pli_new. intros H. apply bind_ok in H; destruct H as (xs & Hx & H). apply bind_ok in H; destruct H as (fs & Hf & H).
  apply bind_ok in H; destruct H as (es & He & H). apply Ok_inj in H; subst l.
  destruct (Nat.eqb_spec (length y) dim) as [L|]; [|discriminate].
  apply put_nat_ok in Hx, Hf, He. destruct Hx as [Lx ->], Hf as [Lf ->], He as [Le ->].
  cbn [p_k p_size p_fup p_fvaluem p_xm p_err]. rewrite !put_nat_length by assumption. rewrite !repeat_length.
  do 7 (split; [assumption || reflexivity|]). unfold row; cbn [p_fvaluem p_xm]. split.
  - rewrite !nth_put_nat by assumption. rewrite Nat.eqb_refl. reflexivity.
  - intros i Hi Hlt. rewrite !nth_put_nat by assumption. destruct (Nat.eqb_spec i s); [contradiction|].
    rewrite !nth_error_repeat by assumption. reflexivity.
Qed.

(** The search on one side. *)
Lemma search_ok fuel lfuel l sol k neg s fup delta maxiters curve l' : length (p_fvaluem l) = 2 * s + 1 ->
  profile_likelihood_search func par cm fuel lfuel l sol k neg s fup delta maxiters curve = Ok l' ->
  exists b, best sol = Ok b /\ k < length (ec_x b) /\
  let sign := if neg then (-1)%Z else 1%Z in
  same_meta l l' /\ (forall j, ~ on_side s sign j -> row l' j = row l j) /\
  (curve = false ->
     (forall j, on_side s sign j -> row l' j = row l j) \/
     (forall j, on_side s sign j -> row l' j = row l s) \/
     (exists f y, found sol k (ec_f b) fup f y /\ forall j, on_side s sign j -> row l' j = (Some f, Some y))).
Proof.
  intros Hl H. unfold profile_likelihood_search in H. cbv zeta in H.
  apply bind_ok in H; destruct H as (b & Hb & H). apply bind_ok in H; destruct H as (xk & Hx & H).
  exists b. split; [exact Hb|]. split; [apply get_ok in Hx; apply nth_error_Some; congruence|].
  cbv zeta. eapply pl_loop_ok; [destruct neg; auto|exact Hl|exact H].
Qed.

Lemma nth_map_some {A B} (f : A -> B) l i b : nth_error (map f l) i = Some b -> exists a, nth_error l i = Some a /\ b = f a.
Proof. rewrite nth_error_map. destruct (nth_error l i); cbn; intros E; [injection E as <-; eauto|discriminate]. Qed.
Lemma nth_firstn {A} (l : list A) s i : i < s -> nth_error (firstn s l) i = nth_error l i.
Proof. revert s i; induction l as [|a l IH]; intros [|s] [|i] H; cbn; try reflexivity; try lia. apply IH; lia. Qed.
Lemma nth_skipn {A} (l : list A) m i : nth_error (skipn m l) i = nth_error l (m + i).
Proof. revert l; induction m as [|m IH]; intros [|a l]; cbn; try reflexivity; [destruct i; reflexivity|apply IH]. Qed.

(** [i] has, among the rows from [lo] to [hi], a value closest to [a]. *)
Definition closest (vs : list R) (a : R) (lo hi i : nat) : Prop :=
  lo <= i < hi /\ exists v, nth_error vs i = Some v /\
    forall j w, lo <= j < hi -> nth_error vs j = Some w -> (Rabs (v - a) <= Rabs (w - a))%R.

Lemma getMinMax_ok a l q : length (p_fvaluem l) = 2 * p_size l + 1 -> getMinMax a l = Ok q ->
  exists i j ri rj u w, closest (p_fvaluem l) a 0 (p_size l) i /\
    closest (p_fvaluem l) a (p_size l + 1) (2 * p_size l + 1) j /\
    nth_error (p_xm l) i = Some ri /\ nth_error ri (p_k l) = Some u /\
    nth_error (p_xm l) j = Some rj /\ nth_error rj (p_k l) = Some w /\
    fst (fst (fst q)) = Rmin u w /\ snd (fst (fst q)) = Rmax u w.
Proof.
  intros L H. unfold getMinMax in H. cbv zeta in H.
  apply bind_ok in H; destruct H as (i & Hi & H). apply bind_ok in H; destruct H as (j & Hj & H).
  apply bind_ok in H; destruct H as (ri & Hri & H). apply bind_ok in H; destruct H as (u & Hu & H).
  apply bind_ok in H; destruct H as (rj & Hrj & H). apply bind_ok in H; destruct H as (w & Hw & H).
  apply get_ok in Hri, Hu, Hrj, Hw. apply Ok_inj in H; subst q.
  set (s := p_size l) in *. exists i, (s + 1 + j), ri, rj, u, w.
  pose proof (argmin_lt _ _ Hi) as Li. rewrite map_length, firstn_length in Li.
  pose proof (argmin_lt _ _ Hj) as Lj. rewrite map_length, skipn_length in Lj.
  destruct (argmin_spec _ _ Hi) as (v & Hv & Hm). destruct (argmin_spec _ _ Hj) as (v' & Hv' & Hm').
  split; [|split].
  - split; [lia|]. apply nth_map_some in Hv. destruct Hv as (a0 & Ha & ->). rewrite nth_firstn in Ha by lia.
    exists a0. split; [exact Ha|]. intros j0 w0 Hj0 Hw0. apply Hm.
    apply in_map_iff. exists w0. split; [reflexivity|]. apply (nth_error_In _ j0). rewrite nth_firstn by lia. exact Hw0.
  - split; [lia|]. apply nth_map_some in Hv'. destruct Hv' as (a0 & Ha & ->). rewrite nth_skipn in Ha.
    replace (length (p_fvaluem l) - s + j) with (s + 1 + j) in Ha by lia.
    exists a0. split; [exact Ha|]. intros j0 w0 Hj0 Hw0. apply Hm'.
    apply in_map_iff. exists w0. split; [reflexivity|]. apply (nth_error_In _ (j0 - (s + 1))). rewrite nth_skipn.
    replace (length (p_fvaluem l) - s + (j0 - (s + 1))) with j0 by lia. exact Hw0.
  - do 4 (split; [assumption|]). unfold rlt. destruct (Rlt_dec w u); cbn.
    + rewrite Rmin_right, Rmax_left by lra. auto.
    + rewrite Rmin_left, Rmax_right by lra. auto.
Qed.

Lemma pl_result fuel lfuel sol k curve s fup delta maxiters l sol' :
  PL fuel lfuel sol k curve s fup delta maxiters = Ok (l, sol') ->
  exists b y v, best sol = Ok b /\ pheno (a_gp par) (ec_x b) = Ok y /\ length y = a_dim par /\ nth_error y k = Some v /\
    sol' = insert_pli k l sol /\ p_k l = k /\ p_size l = s /\ p_fup l = fup /\
    length (p_fvaluem l) = 2 * s + 1 /\ length (p_xm l) = 2 * s + 1 /\ row l s = (Some (ec_f b), Some y) /\
    p_errmin l = (p_min l - v)%R /\ p_errmax l = (p_max l - v)%R /\
    (exists i j ri rj u w, closest (p_fvaluem l) (ec_f b + fup) 0 s i /\
      closest (p_fvaluem l) (ec_f b + fup) (s + 1) (2 * s + 1) j /\
      nth_error (p_xm l) i = Some ri /\ nth_error ri k = Some u /\
      nth_error (p_xm l) j = Some rj /\ nth_error rj k = Some w /\
      p_min l = Rmin u w /\ p_max l = Rmax u w) /\
    (curve = false -> forall i, i <> s -> i < 2 * s + 1 ->
      row l i = (Some 0%R, Some (repeat 0%R (a_dim par))) \/ row l i = row l s \/
      exists f z, found sol k (ec_f b) fup f z /\ row l i = (Some f, Some z)).
Proof.
  intros H. unfold profile_likelihood in H.
  apply bind_ok in H; destruct H as (b & Hb & H). apply bind_ok in H; destruct H as (y & Hy & H).
  apply bind_ok in H; destruct H as (l0 & H0 & H). apply bind_ok in H; destruct H as (l1 & H1 & H).
  apply bind_ok in H; destruct H as (l2 & H2 & H). apply bind_ok in H; destruct H as (l3 & H3 & H).
  apply Ok_inj in H; injection H as -> <-.
  destruct (pli_new_ok _ _ _ _ _ _ _ _ H0) as (Ly & K0 & S0 & F0 & Lf & Lx & Le & C0 & Z0).
  destruct (search_ok _ _ _ _ _ _ _ _ _ _ _ _ Lf H1) as (b1 & Hb1 & _ & M1 & A1 & T1). cbv zeta in *.
  assert (b1 = b) by congruence. subst b1.
  pose proof M1 as (K1 & S1 & F1 & Lf1 & Lx1 & Le1).
  destruct (search_ok _ _ _ _ _ _ _ _ _ _ _ _ (eq_trans Lf1 Lf) H2) as (b2 & Hb2 & _ & M2 & A2 & T2). cbv zeta in *.
  assert (b2 = b) by congruence. subst b2.
  pose proof M2 as (K2 & S2 & F2 & Lf2 & Lx2 & Le2).
  assert (C1 : row l1 s = row l0 s) by (apply A1; rewrite side_up; lia).
  assert (C2 : row l2 s = row l1 s) by (apply A2; rewrite side_down; lia).
  unfold setErrMinMax in H3. apply bind_ok in H3; destruct H3 as (f0 & Hf0 & H3). apply bind_ok in H3; destruct H3 as (q & Hq & H3).
  destruct q as [[[mi ma] qi] qj]. apply bind_ok in H3; destruct H3 as (r & Hr & H3). apply bind_ok in H3; destruct H3 as (x & Hx & H3).
  apply Ok_inj in H3. assert (Sz : p_size l2 = s) by congruence. assert (Kz : p_k l2 = k) by congruence.
  rewrite Sz in *. apply get_ok in Hf0, Hr, Hx.
  assert (Cz : row l2 s = (Some (ec_f b), Some y)) by congruence.
  unfold row in Cz. rewrite Hf0, Hr in Cz. injection Cz as -> ->.
  assert (Fz : p_fup l2 = fup) by congruence. rewrite Fz in *.
  destruct (getMinMax_ok _ _ _ ltac:(rewrite Sz; lia) Hq) as (i & j & ri & rj & u & w & Q1 & Q2 & Q3 & Q4 & Q5 & Q6 & Q7 & Q8).
  rewrite Sz, Kz in *. cbn [fst snd] in Q7, Q8.
  exists b, y, x. do 4 (split; [assumption|]). split; [reflexivity|].
  subst l. cbn [p_k p_size p_fup p_fvaluem p_xm p_errmin p_errmax p_min p_max].
  split; [assumption || reflexivity|]. split; [assumption || reflexivity|]. split; [assumption || reflexivity|]. split; [congruence|]. split; [congruence|].
  split; [unfold row; cbn; rewrite Hf0, Hr; reflexivity|]. split; [reflexivity|]. split; [reflexivity|].
  split; [exists i, j, ri, rj, u, w; auto 10|].
  intros Hc. specialize (T1 Hc). specialize (T2 Hc).
  change (forall i0, i0 <> s -> i0 < 2 * s + 1 -> row l2 i0 = (Some 0%R, Some (repeat 0%R (a_dim par))) \/ row l2 i0 = row l2 s \/
    (exists f z, found sol k (ec_f b) fup f z /\ row l2 i0 = (Some f, Some z))).
  intros i0 Hne Hlt. destruct (le_lt_dec i0 s) as [Hle|Hgt].
  - assert (D : on_side s (-1) i0) by (apply side_down; lia).
    assert (D1 : row l1 i0 = row l0 i0) by (apply A1; rewrite side_up; lia).
    destruct T2 as [T|[T|(f & z & Hfz & T)]]; rewrite (T i0 D).
    + left. rewrite D1. apply Z0; assumption.
    + right; left. congruence.
    + right; right; eauto.
  - assert (D : on_side s 1 i0) by (apply side_up; lia).
    assert (D1 : row l2 i0 = row l1 i0) by (apply A2; rewrite side_down; lia).
    rewrite D1. destruct T1 as [T|[T|(f & z & Hfz & T)]]; rewrite (T i0 D).
    + left. apply Z0; assumption.
    + right; left. congruence.
    + right; right; eauto.
Qed.

(** The bounds reported without curve. *)
Lemma pl_bounds fuel lfuel sol k s fup delta maxiters l sol' :
  PL fuel lfuel sol k false s fup delta maxiters = Ok (l, sol') ->
  exists b y v, best sol = Ok b /\ pheno (a_gp par) (ec_x b) = Ok y /\ nth_error y k = Some v /\
    forall u, u = p_min l \/ u = p_max l ->
      u = 0%R \/ u = v \/ exists f z, found sol k (ec_f b) fup f z /\ nth_error z k = Some u.
Proof.
  intros H. destruct (pl_result _ _ _ _ _ _ _ _ _ _ _ H)
    as (b & y & v & Hb & Hy & Ly & Hv & _ & _ & _ & _ & Lf & Lx & Cs & _ & _ & (i & j & ri & rj & u & w & (Hi & _) & (Hj & _) & Q3 & Q4 & Q5 & Q6 & Q7 & Q8) & T).
  exists b, y, v. do 3 (split; [assumption|]). specialize (T eq_refl).
  assert (G : forall i r u, i <> s -> i < 2 * s + 1 -> nth_error (p_xm l) i = Some r -> nth_error r k = Some u ->
    u = 0%R \/ u = v \/ exists f z, found sol k (ec_f b) fup f z /\ nth_error z k = Some u).
  { clear - T Cs Hv Ly. intros i r u Hne Hlt Hr Hu. destruct (T i Hne Hlt) as [E|[E|(f & z & Hf & E)]].
    - left. unfold row in E. rewrite Hr in E. injection E as _ ->.
      assert (k < length y) by (apply nth_error_Some; congruence).
      rewrite nth_error_repeat in Hu by lia. congruence.
    - right; left. rewrite Cs in E. unfold row in E. rewrite Hr in E. injection E as _ ->. congruence.
    - right; right. unfold row in E. rewrite Hr in E. injection E as _ ->. eauto. }
  assert (Gu : u = 0%R \/ u = v \/ exists f z, found sol k (ec_f b) fup f z /\ nth_error z k = Some u)
    by (apply (G i ri); auto; lia).
  assert (Gw : w = 0%R \/ w = v \/ exists f z, found sol k (ec_f b) fup f z /\ nth_error z k = Some w)
    by (apply (G j rj); auto; lia).
  intros t [-> | ->].
  - rewrite Q7. unfold Rmin. destruct (Rle_dec u w); assumption.
  - rewrite Q8. unfold Rmax. destruct (Rle_dec u w); assumption.
Qed.

(** A sample size of zero. *)
Lemma pl_zero fuel lfuel sol k curve fup delta maxiters l sol' :
  PL fuel lfuel sol k curve 0 fup delta maxiters = Ok (l, sol') -> False.
Proof.
  intros H. destruct (pl_result _ _ _ _ _ _ _ _ _ _ _ H)
    as (b & y & v & _ & _ & _ & _ & _ & _ & _ & _ & _ & _ & _ & _ & _ & (i & j & ri & rj & u & w & (Hi & _) & _) & _). lia.
Qed.

(** The store of intervals. *)
Lemma pl_cached fuel lfuel sol k curve s fup delta maxiters l sol' :
  PL fuel lfuel sol k curve s fup delta maxiters = Ok (l, sol') ->
  get_pli k sol' = match get_pli k sol with Some l0 => Some l0 | None => Some l end /\
  forall k', k' <> k -> get_pli k' sol' = get_pli k' sol.
Proof.
  intros H. destruct (pl_result _ _ _ _ _ _ _ _ _ _ _ H) as (b & y & v & _ & _ & _ & _ & -> & _).
  assert (A : forall (q : list (nat * pli)) k' p, find (fun q => (fst q =? k')%nat) (q ++ [p]) =
    match find (fun q => (fst q =? k')%nat) q with Some r => Some r | None => if (fst p =? k')%nat then Some p else None end).
  { induction q as [|p0 q IH]; intros k' p; cbn; [reflexivity|]. destruct (fst p0 =? k')%nat; [reflexivity|apply IH]. }
  unfold insert_pli. destruct (get_pli k sol) as [l0|] eqn:E.
  - split; [exact E|reflexivity].
  - unfold get_pli in *; cbn [s_pls]. split.
    + rewrite A. destruct (find _ (s_pls sol)) as [q|]; [discriminate|]. cbn [fst]. rewrite Nat.eqb_refl. reflexivity.
    + intros k' Hk'. rewrite A. destruct (find (fun q => (fst q =? k')%nat) (s_pls sol)) as [q|]; [reflexivity|]. cbn [fst].
      destruct (Nat.eqb_spec k k'); [congruence|reflexivity].
Qed.
End Pl.
