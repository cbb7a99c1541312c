(** The profile likelihood when the first point tried on each side has the level. *)
From Coq Require Import Reals Lra.
From Verif Require Import Base EoMatrix Pwq Scaling GenoPheno SpecBounds SpecGeno Errstats SpecErr
  EoMatrixProofs PwqProofs GenoPhenoProofs ScalingProofs GpParProofs ErrVec ErrVpk ErrPli ErrSafe ErrTerm.
Local Open Scope nat_scope.

Section Once.
Variable func : list R -> R.
Variable par : epar.
Variable cm : (list R -> R) -> ipar -> res iout.

(** The first iteration from [x] with step [d] gives a point [y] of value [f] at the level. *)
Definition hits (sol : esol) (lfuel k : nat) (minf fup delta d : R) (x : list R) (f : R) (y : list R) : Prop :=
  exists e x' v ns b, take_linear_step func par lfuel k minf fup delta 10 true (s_eigv sol) d x = Ok (e, x') /\
    get x' (Z.of_nat k) = Ok v /\ optimize_pk func par cm sol k v x' false false = Ok ns /\ (0 <= s_status ns)%Z /\
    best ns = Ok b /\ ec_f b = f /\ pheno (a_gp par) (ec_x b) = Ok y /\ (0.1 * minf <= f)%R /\ near_level minf fup f.

Lemma hit_loop sol lfuel k sign s minf fup delta maxiters d x f y fuel l : hits sol lfuel k minf fup delta d x f y ->
  exists e, pl_loop func par cm (S fuel) lfuel sol k sign s minf fup delta maxiters false 0 true d x l =
    pad 0 s (Z.of_nat s) sign f y e l.
Proof.
  intros (e & x' & v & ns & b & H1 & H2 & H3 & H4 & H5 & H6 & H7 & H8 & H9). exists (s_status ns).
  cbn [pl_loop]. rewrite H1; cbn [bind]. rewrite H2; cbn [bind]. rewrite H3; cbn [bind].
  destruct (Z.ltb_spec (s_status ns) 0); [lia|]. rewrite H5; cbn [bind]. rewrite H6.
  unfold rlt. destruct (Rlt_dec _ _); [lra|]. rewrite H7; cbn [bind negb andb].
  unfold rle. unfold near_level in H9. destruct (Rle_dec _ _) as [_|C]; [reflexivity|lra].
Qed.

(** A point with a value below a tenth of the minimum is taken for a failure. *)
Definition misses (sol : esol) (lfuel k : nat) (minf fup delta d : R) (x : list R) : Prop :=
  exists e x' v ns b, take_linear_step func par lfuel k minf fup delta 10 true (s_eigv sol) d x = Ok (e, x') /\
    get x' (Z.of_nat k) = Ok v /\ optimize_pk func par cm sol k v x' false false = Ok ns /\ (0 <= s_status ns)%Z /\
    best ns = Ok b /\ (ec_f b < 0.1 * minf)%R.
Lemma miss_loop sol lfuel k sign s minf fup delta maxiters d x f y fuel l : misses sol lfuel k minf fup delta d x ->
  0 < s -> row l s = (Some f, Some y) ->
  exists e, pl_loop func par cm (S fuel) lfuel sol k sign s minf fup delta maxiters false 0 true d x l =
    pad 0 s (Z.of_nat s) sign f y e l.
Proof.
  intros (e & x' & v & ns & b & H1 & H2 & H3 & H4 & H5 & H6) Hs Hr. exists (s_status ns).
  cbn [pl_loop]. rewrite H1; cbn [bind]. rewrite H2; cbn [bind]. rewrite H3; cbn [bind].
  destruct (Z.ltb_spec (s_status ns) 0); [lia|]. rewrite H5; cbn [bind].
  unfold rlt. destruct (Rlt_dec _ _); [|contradiction]. unfold pad_centre. unfold row in Hr. injection Hr as Hf Hx.
  destruct s; [lia|]. rewrite !get_nat, Hf; cbn [bind]. rewrite Hx. reflexivity.
Qed.

(** One iteration on each side. *)
Definition lands (sol : esol) (lfuel k s : nat) (sign : Z) (b : ecand) (y0 : list R) (fup delta : R) (maxiters : Z) (fuel : nat) (d f : R) (y : list R) : Prop :=
  forall l, row l s = (Some (ec_f b), Some y0) ->
  exists e, pl_loop func par cm (S fuel) lfuel sol k sign s (ec_f b) fup delta maxiters false 0 true d (ec_x b) l =
    pad 0 s (Z.of_nat s) sign f y e l.

Lemma pl_land sol lfuel k s fup delta maxiters fuel b y xk v fu yu u fd yd w :
  0 < s -> best sol = Ok b -> nth_error (ec_x b) k = Some xk -> pheno (a_gp par) (ec_x b) = Ok y -> length y = a_dim par ->
  nth_error y k = Some v ->
  lands sol lfuel k s 1 b y fup delta maxiters fuel (xk / 10) fu yu -> nth_error yu k = Some u ->
  lands sol lfuel k s (-1) b y fup delta maxiters fuel (- xk / 10) fd yd -> nth_error yd k = Some w ->
  exists l, profile_likelihood func par cm (S fuel) lfuel sol k false s fup delta maxiters = Ok (l, insert_pli k l sol) /\
    p_min l = Rmin w u /\ p_max l = Rmax w u /\ p_errmin l = (Rmin w u - v)%R /\ p_errmax l = (Rmax w u - v)%R.
Proof.
  intros Hs Hb Hx Hy Ly Hv Hu Eu Hd Ed.
  assert (P : exists l3, profile_likelihood func par cm (S fuel) lfuel sol k false s fup delta maxiters = Ok (l3, insert_pli k l3 sol) /\
    forall i, i <> s -> i < 2 * s + 1 -> row l3 i = if i <? s then (Some fd, Some yd) else (Some fu, Some yu)).
  { unfold profile_likelihood. rewrite Hb; cbn [bind]. rewrite Hy; cbn [bind].
    assert (N : exists l0, pli_new k s (a_dim par) y (ec_f b) fup delta = Ok l0).
    { unfold pli_new. rewrite Ly, Nat.eqb_refl. cbv zeta. rewrite !put_in by (rewrite repeat_length; lia). cbn [bind]. eauto. }
    destruct N as (l0 & Hl0). rewrite Hl0; cbn [bind].
    destruct (pli_new_ok _ _ _ _ _ _ _ _ Hl0) as (_ & K0 & S0 & F0 & A1 & A2 & A3 & A4 & A5).
    unfold profile_likelihood_search. rewrite Hb; cbn [bind]. rewrite get_nat, Hx; cbn [bind].
    replace (1 * xk * 0.1)%R with (xk / 10)%R by lra.
    destruct (Hu l0 A4) as (e1 & ->).
    destruct (pad_total s 0 s 1 fu yu e1 l0 ltac:(auto) ltac:(lia) A1 ltac:(lia) ltac:(lia)) as (l1 & Hl1). rewrite Hl1; cbn [bind].
    destruct (pad_ok _ _ _ _ _ _ _ _ _ (or_introl eq_refl) Hl1) as ((K1 & S1 & F1 & B1 & B2 & B3) & R1 & R2).
    replace (-1 * xk * 0.1)%R with (- xk / 10)%R by lra.
    assert (A6 : row l1 s = (Some (ec_f b), Some y)) by (rewrite R1 by (intros; lia); exact A4).
    destruct (Hd l1 A6) as (e2 & ->).
    destruct (pad_total s 0 s (-1) fd yd e2 l1 ltac:(auto) ltac:(lia) ltac:(lia) ltac:(lia) ltac:(lia)) as (l2 & Hl2). rewrite Hl2; cbn [bind].
    destruct (pad_ok _ _ _ _ _ _ _ _ _ (or_intror eq_refl) Hl2) as ((K2 & S2 & F2 & C1 & C2 & C3) & R3 & R4).
    assert (R5 : forall i, i <> s -> i < 2 * s + 1 -> row l2 i = if i <? s then (Some fd, Some yd) else (Some fu, Some yu)).
    { intros i Hi Hlt. destruct (Nat.ltb_spec i s).
      - apply (R4 (s - i - 1)); lia.
      - rewrite R3 by (intros; lia). apply (R2 (i - s - 1)); lia. }
    assert (R6 : row l2 s = (Some (ec_f b), Some y)) by (rewrite R3 by (intros; lia); rewrite R1 by (intros; lia); exact A4).
    assert (Sz : p_size l2 = s) by congruence. assert (Kz : p_k l2 = k) by congruence.
    assert (M : exists l3, setErrMinMax l2 = Ok l3 /\ p_fvaluem l3 = p_fvaluem l2 /\ p_xm l3 = p_xm l2).
    { unfold setErrMinMax. rewrite Sz, Kz, get_nat. unfold row in R6. destruct (nth_error (p_fvaluem l2) s) as [f0|] eqn:Ef; [|discriminate].
      cbn [bind]. unfold getMinMax. rewrite Sz, Kz.
      destruct (argmin_total (map (fun v => Rabs (v - (f0 + p_fup l2))) (firstn s (p_fvaluem l2)))) as (i & -> & Li).
      { intros E. apply (f_equal (@length R)) in E. rewrite map_length, firstn_length in E. cbn in E. lia. }
      rewrite map_length, firstn_length in Li. cbn [bind].
      destruct (argmin_total (map (fun v => Rabs (v - (f0 + p_fup l2))) (skipn (length (p_fvaluem l2) - s) (p_fvaluem l2)))) as (j & -> & Lj).
      { intros E. apply (f_equal (@length R)) in E. rewrite map_length, skipn_length in E. cbn [length] in E. lia. }
      rewrite map_length, skipn_length in Lj. cbn [bind].
      pose proof (R5 i ltac:(lia) ltac:(lia)) as Ri. destruct (Nat.ltb_spec i s) as [_|]; [|lia].
      pose proof (R5 (s + 1 + j) ltac:(lia) ltac:(lia)) as Rj. destruct (Nat.ltb_spec (s + 1 + j) s) as [|_]; [lia|].
      unfold row in Ri, Rj. injection Ri as _ Ri. injection Rj as _ Rj. injection R6 as _ R6.
      rewrite ?get_nat, Ri; cbn [bind]. rewrite ?get_nat, Ed; cbn [bind]. rewrite ?get_nat, Rj; cbn [bind]. rewrite ?get_nat, Eu; cbn [bind].
      destruct (rlt u w); cbn [bind]; rewrite ?get_nat, R6; cbn [bind]; rewrite ?get_nat, Hv; cbn [bind]; eexists; (split; [reflexivity|]); split; reflexivity. }
    destruct M as (l3 & Hl3 & Ef & Ex). exists l3. rewrite Hl3; cbn [bind]. split; [reflexivity|].
    intros i Hi Hlt. unfold row. rewrite Ef, Ex. exact (R5 i Hi Hlt). }
  destruct P as (l & HP & HR). exists l. split; [exact HP|].
  destruct (pl_result _ _ _ _ _ _ _ _ _ _ _ _ _ _ HP)
    as (b' & y' & v' & Hb' & Hy' & _ & Hv' & _ & _ & _ & _ & _ & _ & _ & Emi & Ema & (i & j & ri & rj & u' & w' & (Hi & _) & (Hj & _) & Q3 & Q4 & Q5 & Q6 & Q7 & Q8) & _).
  assert (b' = b) by congruence; subst b'. assert (y' = y) by congruence; subst y'. assert (v' = v) by congruence; subst v'.
  pose proof (HR i ltac:(lia) ltac:(lia)) as Ri. destruct (Nat.ltb_spec i s) as [_|]; [|lia].
  pose proof (HR j ltac:(lia) ltac:(lia)) as Rj. destruct (Nat.ltb_spec j s) as [|_]; [lia|].
  unfold row in Ri, Rj. rewrite Q3 in Ri. rewrite Q5 in Rj. injection Ri as _ ->. injection Rj as _ ->.
  assert (u' = w) by congruence. assert (w' = u) by congruence. subst u' w'.
  rewrite Emi, Ema, Q7, Q8. auto.
Qed.
Lemma pl_once sol lfuel k s fup delta maxiters fuel b y xk v fu yu u fd yd w :
  0 < s -> best sol = Ok b -> nth_error (ec_x b) k = Some xk -> pheno (a_gp par) (ec_x b) = Ok y -> length y = a_dim par ->
  nth_error y k = Some v ->
  hits sol lfuel k (ec_f b) fup delta (xk / 10) (ec_x b) fu yu -> nth_error yu k = Some u ->
  hits sol lfuel k (ec_f b) fup delta (- xk / 10) (ec_x b) fd yd -> nth_error yd k = Some w ->
  exists l, profile_likelihood func par cm (S fuel) lfuel sol k false s fup delta maxiters = Ok (l, insert_pli k l sol) /\
    p_min l = Rmin w u /\ p_max l = Rmax w u /\ p_errmin l = (Rmin w u - v)%R /\ p_errmax l = (Rmax w u - v)%R.
Proof.
  intros Hs Hb Hx Hy Ly Hv Hu Eu Hd Ed. apply (pl_land sol lfuel k s fup delta maxiters fuel b y xk v fu yu u fd yd w); try assumption; intros l _; apply hit_loop; assumption.
Qed.
Lemma pl_miss sol lfuel k s fup delta maxiters fuel b y xk v :
  0 < s -> best sol = Ok b -> nth_error (ec_x b) k = Some xk -> pheno (a_gp par) (ec_x b) = Ok y -> length y = a_dim par ->
  nth_error y k = Some v ->
  misses sol lfuel k (ec_f b) fup delta (xk / 10) (ec_x b) -> misses sol lfuel k (ec_f b) fup delta (- xk / 10) (ec_x b) ->
  exists l, profile_likelihood func par cm (S fuel) lfuel sol k false s fup delta maxiters = Ok (l, insert_pli k l sol) /\
    p_min l = v /\ p_max l = v.
Proof.
  intros Hs Hb Hx Hy Ly Hv Hu Hd.
  destruct (pl_land sol lfuel k s fup delta maxiters fuel b y xk v (ec_f b) y v (ec_f b) y v) as (l & A & B & C & _); try assumption.
  - intros l Hr. apply miss_loop; assumption.
  - intros l Hr. apply miss_loop; assumption.
  - exists l. split; [exact A|]. rewrite B, C. rewrite Rmin_left, Rmax_left by lra. auto.
Qed.
End Once.
