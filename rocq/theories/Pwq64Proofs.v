(** Feasibility in binary64 arithmetic. *)
From Coq Require Import Reals Lra Lia Psatz ZArith.
From Flocq Require Import Core Relative Plus_error BinarySingleNaN.
From Verif Require Import Base Pwq64 Pwq64Real.
Local Open Scope R_scope.

Notation fx := (SpecFloat.fexp 53 1024).
Notation rn := (round radix2 fx ZnearestE).
Notation FF := (generic_format radix2 fx).
Local Instance p53 : Prec_gt_0 53. Proof. reflexivity. Qed.
Local Instance fx_valid : Valid_exp fx. Proof. exact (FLT_exp_valid (-1074) 53). Qed.
Definition eta64 : R := bpow radix2 (-1075).

Lemma u64_bpow : / 2 * bpow radix2 (Z.opp 53 + 1) = u64.
Proof. unfold u64. cbn. lra. Qed.
Lemma rn_mono x y : x <= y -> rn x <= rn y.
Proof. apply round_le; auto with typeclass_instances. Qed.
Lemma rn_fix x : FF x -> rn x = x.
Proof. apply round_generic; auto with typeclass_instances. Qed.
Lemma rn_fmt x : FF (rn x).
Proof. apply generic_format_round; auto with typeclass_instances. Qed.
Lemma rn_err x : Rabs (rn x - x) <= u64 * Rabs x + eta64.
Proof.
  destruct (error_N_FLT radix2 (-1074) 53 eq_refl (fun x => negb (Z.even x)) x) as (e & t & He & Ht & _ & E).
  change (FLT_exp (-1074) 53) with fx in E. rewrite E. replace (x * (1 + e) + t - x) with (e * x + t) by ring.
  apply Rle_trans with (1 := Rabs_triang _ _). rewrite Rabs_mult. rewrite u64_bpow in He.
  assert (eta64 = / 2 * bpow radix2 (-1074)) by (unfold eta64; change (-1074)%Z with (-1075 + 1)%Z; rewrite bpow_plus; cbn [bpow]; change (IZR (Z.pow_pos radix2 1)) with 2; lra).
  pose proof (Rabs_pos x). assert (Rabs e * Rabs x <= u64 * Rabs x) by (apply Rmult_le_compat_r; auto). lra.
Qed.
Lemma rn_sum x y : FF x -> FF y -> Rabs (rn (x + y) - (x + y)) <= u64 * Rabs (x + y).
Proof.
  intros Fx Fy. destruct (Rle_or_lt (bpow radix2 (-1022)) (Rabs (x + y))) as [H|H].
  - rewrite <- u64_bpow. apply (relative_error_N_FLT radix2 (-1074) 53 eq_refl (fun x => negb (Z.even x)) (x + y)). exact H.
  - rewrite rn_fix; [|apply FLT_format_plus_small; auto with typeclass_instances].
    + rewrite Rminus_diag_eq, Rabs_R0 by reflexivity. apply Rmult_le_pos; [unfold u64; lra|apply Rabs_pos].
    + apply Rlt_le. eapply Rlt_le_trans; [exact H|]. apply bpow_le. cbn; lia.
Qed.
Lemma rn_opp x : FF x -> FF (- x).
Proof. apply generic_format_opp. Qed.
Lemma rn_two x : FF x -> FF (2 * x).
Proof.
  intros H. apply (FLT_format_generic radix2 (-1074) 53) in H. destruct H as [f E Hm He]. change FF with (generic_format radix2 (FLT_exp (-1074) 53)). apply generic_format_FLT. exists (Float radix2 (Fnum f) (Fexp f + 1)).
  - rewrite E. unfold F2R. cbn [Fnum Fexp]. rewrite bpow_plus. cbn [bpow]. change (IZR (Z.pow_pos radix2 1)) with 2. ring.
  - exact Hm.
  - cbn [Fexp]. lia.
Qed.
Lemma eta64_pos : 0 < eta64. Proof. apply bpow_gt_0. Qed.

(** [f] is finite and its value is [v]. *)
Definition rep (f : b64) (v : R) : Prop := is_finite f = true /\ B2R f = v.
Lemma rep_F f v : rep f v -> FF v.
Proof. intros [_ <-]. apply generic_format_B2R. Qed.
Definition big : R := bpow radix2 1010.
Lemma big_ok v : Rabs v <= big -> Rlt_bool (Rabs (rn v)) (bpow radix2 1024) = true.
Proof.
  intros H. apply Rlt_bool_true. apply Rle_lt_trans with big; [|apply bpow_lt; lia].
  apply abs_round_le_generic; auto with typeclass_instances. apply generic_format_bpow. cbv. discriminate.
Qed.
Lemma rep_add a b x y : rep a x -> rep b y -> Rabs (x + y) <= big -> rep (fadd a b) (rn (x + y)).
Proof. intros [Ha <-] [Hb <-] H. pose proof (Bplus_correct 53 1024 f_prec f_emax mode_NE a b Ha Hb) as C. change (round_mode mode_NE) with ZnearestE in C. rewrite (big_ok _ H) in C. destruct C as (C1 & C2 & _). split; auto. Qed.
Lemma rep_sub a b x y : rep a x -> rep b y -> Rabs (x - y) <= big -> rep (fsub a b) (rn (x - y)).
Proof. intros [Ha <-] [Hb <-] H. pose proof (Bminus_correct 53 1024 f_prec f_emax mode_NE a b Ha Hb) as C. change (round_mode mode_NE) with ZnearestE in C. rewrite (big_ok _ H) in C. destruct C as (C1 & C2 & _). split; auto. Qed.
Lemma rep_mul a b x y : rep a x -> rep b y -> Rabs (x * y) <= big -> rep (fmul a b) (rn (x * y)).
Proof. intros [Ha <-] [Hb <-] H. pose proof (Bmult_correct 53 1024 f_prec f_emax mode_NE a b) as C. change (round_mode mode_NE) with ZnearestE in C. rewrite (big_ok _ H) in C. destruct C as (C1 & C2 & _). split; auto. unfold fmul. rewrite C2, Ha, Hb. reflexivity. Qed.
Lemma rep_div a b x y : rep a x -> rep b y -> y <> 0 -> Rabs (x / y) <= big -> rep (fdiv a b) (rn (x / y)).
Proof. intros [Ha <-] [Hb <-] N H. pose proof (Bdiv_correct 53 1024 f_prec f_emax mode_NE a b N) as C. change (round_mode mode_NE) with ZnearestE in C. rewrite (big_ok _ H) in C. destruct C as (C1 & C2 & _). split; auto. unfold fdiv. rewrite C2, Ha. reflexivity. Qed.
Lemma rep_abs a x : rep a x -> rep (fabs a) (Rabs x).
Proof. intros [Ha <-]. split; [unfold fabs; now rewrite is_finite_Babs|apply B2R_Babs]. Qed.
Lemma rep_lt a b x y : rep a x -> rep b y -> flt a b = true <-> x < y.
Proof. intros [Ha <-] [Hb <-]. unfold flt. rewrite Bltb_correct by auto. destruct (Rlt_bool_spec (B2R a) (B2R b)); split; intros; auto; try discriminate; lra. Qed.
Lemma rep_min a b x y : rep a x -> rep b y -> rep (fmin a b) (Rmin x y).
Proof.
  intros Ha Hb. unfold fmin. pose proof (rep_lt b a y x Hb Ha) as C. unfold Rmin. destruct (flt b a), (Rle_dec x y); auto.
  - assert (y < x) by (apply C; reflexivity). lra.
  - exfalso. assert (y < x) as K by lra. apply C in K. discriminate.
Qed.
Lemma rep_num m e : (Z.abs m < 2 ^ 53)%Z -> (-1074 <= e)%Z -> Rabs (IZR m * bpow radix2 e) <= big -> rep (fnum m e) (IZR m * bpow radix2 e).
Proof.
  intros Hm He H. pose proof (binary_normalize_correct 53 1024 f_prec f_emax mode_NE m e false) as C. cbv zeta in C.
  change (F2R (Float radix2 m e)) with (IZR m * bpow radix2 e) in C. change (round_mode mode_NE) with ZnearestE in C.
  rewrite (big_ok _ H) in C. destruct C as (C1 & C2 & _). split; [exact C2|]. etransitivity; [exact C1|]. apply rn_fix.
  change FF with (generic_format radix2 (FLT_exp (-1074) 53)). apply generic_format_FLT. exists (Float radix2 m e); auto.
Qed.

Lemma b0 : bpow radix2 0 = 1. Proof. reflexivity. Qed.
Lemma F_int k : (Z.abs k < 2 ^ 53)%Z -> FF (IZR k).
Proof.
  intros H. change FF with (generic_format radix2 (FLT_exp (-1074) 53)). apply generic_format_FLT. exists (Float radix2 k 0); auto; [unfold F2R; cbn [Fnum Fexp]; rewrite b0; ring|cbn; lia].
Qed.
Lemma big_int k : (Z.abs k < 2 ^ 53)%Z -> Rabs (IZR k) <= big.
Proof.
  intros H. rewrite <- abs_IZR. apply Rle_trans with (bpow radix2 53); [|apply bpow_le; lia]. change (bpow radix2 53) with (IZR (2 ^ 53)). apply IZR_le. lia.
Qed.
Lemma rep_int k : (Z.abs k < 2 ^ 53)%Z -> rep (fnum k 0) (IZR k).
Proof. intros H. replace (IZR k) with (IZR k * bpow radix2 0) by (rewrite b0; ring). apply rep_num; auto; [lia|]. rewrite b0, Rmult_1_r. now apply big_int. Qed.
Lemma rep_f1 : rep f1 1. Proof. apply (rep_int 1). reflexivity. Qed.
Lemma rep_f2 : rep f2 2. Proof. apply (rep_int 2). reflexivity. Qed.
Lemma rep_f4 : rep f4 4. Proof. apply (rep_int 4). reflexivity. Qed.
Lemma rep_fhalf : rep fhalf (/ 2).
Proof. replace (/ 2) with (IZR 1 * bpow radix2 (-1)) by (cbn; lra). apply rep_num; [reflexivity|lia|]. rewrite Rmult_1_l, Rabs_pos_eq by apply bpow_ge_0. apply bpow_le. lia. Qed.
Definition c500 : R := bpow radix2 500.
Lemma c500_big : c500 * 1000000000000000000000000000000 <= big.
Proof.
  unfold c500, big. apply Rle_trans with (bpow radix2 500 * bpow radix2 110); [|rewrite <- bpow_plus; apply bpow_le; lia]. apply Rmult_le_compat_l; [apply bpow_ge_0|]. change (bpow radix2 110) with (IZR (2 ^ 110)). apply IZR_le. vm_compute. discriminate.
Qed.
Lemma c500_sq : 1000 * (c500 * c500) <= big.
Proof.
  unfold c500, big. rewrite <- bpow_plus. apply Rle_trans with (bpow radix2 10 * bpow radix2 (500 + 500)); [|rewrite <- bpow_plus; apply bpow_le; lia]. apply Rmult_le_compat_r; [apply bpow_ge_0|]. cbn. lra.
Qed.
Lemma c500_1 : 1 <= c500. Proof. change 1 with (bpow radix2 0). apply bpow_le. lia. Qed.
Lemma rep_f20 : rep f20th (r_20 rn).
Proof.
  unfold f20th, r_20. pose proof c500_big. pose proof c500_1. apply rep_div; [apply rep_f1|apply (rep_int 20); reflexivity|lra|]. rewrite Rabs_pos_eq; lra.
Qed.

(** The number of periods. *)
Lemma trunc_in v : 0 <= B2R v -> IZR (@Btrunc 53 1024 v) <= B2R v < IZR (@Btrunc 53 1024 v) + 1.
Proof.
  intros H. rewrite (Btrunc_correct 53 1024 f_emax v). unfold round, scaled_mantissa, cexp, FIX_exp, F2R. cbn [Fnum Fexp]. change (- (0))%Z with 0%Z. rewrite b0, !Rmult_1_r.
  rewrite Ztrunc_floor by assumption. split; [apply Zfloor_lb|apply Zfloor_ub].
Qed.
Lemma inf_not_finite (v : b64) s : B2SF v = SpecFloat.S754_infinity s -> is_finite v = false.
Proof. destruct v; cbn; intros; congruence. Qed.
Lemma overflow_inf s : binary_overflow 53 1024 mode_NE s = SpecFloat.S754_infinity s.
Proof. destruct s; reflexivity. Qed.
Lemma div_inf (a b : b64) y s : B2SF a = SpecFloat.S754_infinity s -> rep b y -> y <> 0 -> is_finite (fdiv a b) = false.
Proof. intros E [Hb <-] N. destruct a; cbn in E; try discriminate. destruct b; cbn in *; try discriminate; try (now elim N); reflexivity. Qed.
Lemma cast_ok v k : fcast v = Ok k -> is_finite v = true /\ k = Btrunc v /\ (-2147483648 <= k <= 2147483647)%Z.
Proof.
  unfold fcast. destruct (is_finite v); [|discriminate]. destruct ((_ <=? _)%Z && _) eqn:E; [|discriminate]. intros H. injection H as <-. apply andb_prop in E. destruct E as [E1 E2]. apply Z.leb_le in E1, E2. auto.
Qed.
Lemma cast_fault v : fcast v = Fault IntCast \/ exists k, fcast v = Ok k.
Proof. unfold fcast. destruct (is_finite v); auto. destruct ((_ <=? _)%Z && _); eauto. Qed.
Lemma periods a b r va vb vr k : rep a va -> rep b vb -> rep r vr -> 0 < vr -> vb <= va -> fcast (fdiv (fsub a b) r) = Ok k ->
  0 <= IZR k <= 2147483647 /\ IZR k <= rn (rn (va - vb) / vr) < IZR k + 1.
Proof.
  intros Ra Rb Rr Vr Hab H. apply cast_ok in H. destruct H as (Fv & Ek & Hk). destruct Ra as [Fa Ea], Rb as [Fb Eb].
  pose proof (Bminus_correct 53 1024 f_prec f_emax mode_NE a b Fa Fb) as C. change (round_mode mode_NE) with ZnearestE in C. rewrite Ea, Eb in C. change (Bminus mode_NE a b) with (fsub a b) in C.
  destruct (Rlt_bool (Rabs (rn (va - vb))) (bpow radix2 1024)).
  2:{ destruct C as [C _]. rewrite overflow_inf in C. rewrite (div_inf _ r vr _ C Rr) in Fv by lra. discriminate. }
  destruct C as (C1 & C2 & _). pose proof Rr as [Fr Er]. assert (Nr : B2R r <> 0) by lra.
  pose proof (Bdiv_correct 53 1024 f_prec f_emax mode_NE (fsub a b) r Nr) as E. change (round_mode mode_NE) with ZnearestE in E. rewrite C1, Er in E. change (Bdiv mode_NE (fsub a b) r) with (fdiv (fsub a b) r) in E.
  destruct (Rlt_bool (Rabs (rn (rn (va - vb) / vr))) (bpow radix2 1024)).
  2:{ rewrite overflow_inf in E. apply inf_not_finite in E. rewrite E in Fv. discriminate. }
  destruct E as (E1 & _).
  assert (P : 0 <= rn (rn (va - vb) / vr)).
  { assert (Z0 : FF 0) by apply generic_format_0. apply (rnd_ge rn FF rn_mono rn_fix); auto. apply Rmult_le_pos; [|left; now apply Rinv_0_lt_compat]. apply (rnd_ge rn FF rn_mono rn_fix); auto. lra. }
  rewrite <- E1 in P |- *. pose proof (trunc_in _ P) as T. rewrite <- Ek in T. split; [|exact T]. split; [|apply IZR_le; lia].
  apply IZR_le. assert (-1 < k)%Z; [|lia]. apply lt_IZR. lra.
Qed.

Section Coordinate.
Variables flb fub : b64.
Let lb := B2R flb.
Let ub := B2R fub.
Hypothesis finl : is_finite flb = true.
Hypothesis finu : is_finite fub = true.
Hypothesis lt : lb < ub.
Hypothesis bl : Rabs lb <= c500.
Hypothesis bu : Rabs ub <= c500.
Hypothesis wide : bpow radix2 (-400) <= ub - lb.
Hypothesis Ml : Rabs lb <= 1099511627776 * (ub - lb).
Hypothesis Mu : Rabs ub <= 1099511627776 * (ub - lb).

Lemma Rl : rep flb lb. Proof. split; auto. Qed.
Lemma Ru : rep fub ub. Proof. split; auto. Qed.
Lemma Fl : FF lb. Proof. apply (rep_F _ _ Rl). Qed.
Lemma Fu : FF ub. Proof. apply (rep_F _ _ Ru). Qed.
Lemma eta_1 : eta64 <= / 1000000000000.
Proof. unfold eta64. apply Rle_trans with (bpow radix2 (-40)); [apply bpow_le; lia|]. cbn. lra. Qed.
Lemma eta_le w : bpow radix2 (-800) <= w -> 1000000 * eta64 <= w.
Proof.
  intros H. apply Rle_trans with (bpow radix2 (20 + -1075)); [|apply Rle_trans with (2 := H); apply bpow_le; lia]. rewrite bpow_plus. apply Rmult_le_compat_r; [apply bpow_ge_0|]. cbn. lra.
Qed.
Lemma eta_W : 1000000 * eta64 <= ub - lb.
Proof. apply eta_le. apply Rle_trans with (2 := wide). apply bpow_le. lia. Qed.
Lemma eta_WW : 1000000 * eta64 <= (ub - lb) * (ub - lb).
Proof. apply eta_le. change (-800)%Z with (-400 + -400)%Z. rewrite bpow_plus. apply Rmult_le_compat; auto using bpow_ge_0. Qed.
Lemma W_pos : 0 < ub - lb. Proof. lra. Qed.

Ltac inst H := apply (H rn FF eta64); auto using rn_mono, rn_fix, rn_fmt, rn_err, rn_sum, rn_opp, rn_two, eta64_pos, Fl, Fu, W_pos, eta_1, eta_W, eta_WW.
Notation W := (ub - lb).
Notation al := (r_al rn lb ub).
Notation au := (r_au rn lb ub).
Notation A_ := (r_A rn lb ub).
Notation L_ := (r_L rn lb ub).
Notation B_ := (r_B rn lb ub).
Notation U_ := (r_U rn lb ub).
Notation xlow := (r_xlow rn lb ub).
Notation xup := (r_xup rn lb ub).
Notation per := (r_r rn lb ub).
Lemma i_d : W * (1 - / 1000000) <= r_d rn lb ub <= W * (1 + / 1000000). Proof. inst d_in. Qed.
Lemma i_d2 : W * (1/2 - / 100000) <= r_d2 rn lb ub <= W * (1/2 + / 100000). Proof. inst d2_in. Qed.
Lemma i_al : 0 < al /\ al <= W * (1/2 + / 100000) /\ u64 * Rabs lb <= al / 2000 /\ 10000 * eta64 <= al * al /\ 10000 * eta64 <= al. Proof. inst al_in. Qed.
Lemma i_au : 0 < au /\ au <= W * (1/2 + / 100000) /\ u64 * Rabs ub <= au / 2000 /\ 10000 * eta64 <= au * au /\ 10000 * eta64 <= au. Proof. inst au_in. Qed.
Lemma i_A : lb - al * (1 + / 1000) <= A_ <= lb - al * (1 - / 1000). Proof. inst A_in. Qed.
Lemma i_L : lb + al * (1 - / 1000) <= L_ <= lb + al * (1 + / 1000). Proof. inst L_in. Qed.
Lemma i_B : ub + au * (1 - / 1000) <= B_ <= ub + au * (1 + / 1000). Proof. inst B_in. Qed.
Lemma i_U : ub - au * (1 + / 1000) <= U_ <= ub - au * (1 - / 1000). Proof. inst U_in. Qed.
Lemma i_xlow : lb - 2 * al - W / 2 - W / 400 <= xlow <= lb - 2 * al - W / 2 + W / 400. Proof. inst xlow_in. Qed.
Lemma i_xup : ub + 2 * au + W / 2 - W / 400 <= xup <= ub + 2 * au + W / 2 + W / 400. Proof. inst xup_in. Qed.
Lemma i_per : 2 * (W + al + au) - W / 400 <= per <= 2 * (W + al + au) + W / 400. Proof. inst r_in. Qed.
Lemma i_up x k : FF x -> x < xlow -> 0 <= IZR k <= 2147483647 -> IZR k <= rn (rn (xlow - x) / per) -> rn (rn (xlow - x) / per) < IZR k + 1 ->
  xlow - W / 100 <= rn (x + rn (per * (1 + IZR k))) <= xlow + per + W / 100.
Proof. intros. inst shift_up_in. Qed.
Lemma i_down x k : FF x -> xup < x -> 0 <= IZR k <= 2147483647 -> IZR k <= rn (rn (x - xup) / per) -> rn (rn (x - xup) / per) < IZR k + 1 ->
  xlow - W / 50 <= rn (x - rn (per * (1 + IZR k))) <= xup + W / 100.
Proof. intros. inst shift_down_in. Qed.
Lemma i_refl x : FF x -> xlow - W / 50 <= x <= xup + W / 100 ->
  FF (r_up rn lb ub (r_low rn lb ub x)) /\ A_ - al * (4/10) <= r_up rn lb ub (r_low rn lb ub x) <= B_ + au * (4/10).
Proof. intros. inst reflect_in. Qed.
Lemma i_low x : FF x -> xlow - W / 50 <= x <= xup + W / 100 -> FF (r_low rn lb ub x) /\ A_ <= r_low rn lb ub x <= xup + W / 100.
Proof. intros. inst low_in. Qed.
Lemma i_quad y : FF y -> A_ - al * (4/10) <= y -> y <= B_ + au * (4/10) -> lb <= r_quad rn lb ub y <= ub.
Proof. intros. inst quad_inside. Qed.

Notation q := (pwqf_coord flb fub).
Lemma rd x : Rabs x <= 1000000000000000000000 * c500 -> - (2000000000000000000000 * c500) <= rn x <= 2000000000000000000000 * c500.
Proof.
  intros H. pose proof c500_1. pose proof eta_1. pose proof (err_in rn eta64 rn_err x _ H) as E. apply rabs_le in H. unfold u64 in E. lra.
Qed.
Ltac facts := pose proof c500_big; pose proof c500_1; pose proof (rabs_le _ _ bl); pose proof (rabs_le _ _ bu); pose proof i_d; pose proof i_d2; pose proof i_al; pose proof i_au; pose proof i_A; pose proof i_L; pose proof i_B; pose proof i_U;
  pose proof i_xlow; pose proof i_xup; pose proof i_per.
Ltac small := first [apply le_rabs; lra | lra].
Lemma v_d : rep (fsub fub flb) (r_d rn lb ub).
Proof. facts. apply rep_sub; [apply Ru|apply Rl|small]. Qed.
Lemma v_d2 : rep (fmul fhalf (fsub fub flb)) (r_d2 rn lb ub).
Proof. facts. apply rep_mul; [apply rep_fhalf|apply v_d|small]. Qed.
Lemma v_strip f x : rep f x -> Rabs x <= c500 -> rep (fmin (fmul fhalf (fsub fub flb)) (fmul f20th (fadd f1 (fabs f)))) (Rmin (r_d2 rn lb ub) (rn (r_20 rn * rn (1 + Rabs x)))).
Proof.
  intros Rf Hx. facts. pose proof (Rabs_pos x). apply rep_min; [apply v_d2|]. assert (H0' : 49 / 1000 <= r_20 rn <= 51 / 1000) by (apply (c20_in rn eta64); auto using rn_err, eta_1, eta64_pos).
  assert (E : 0 <= rn (1 + Rabs x) <= 3 * c500).
  { pose proof (err_in rn eta64 rn_err (1 + Rabs x) (1 + Rabs x)) as E. rewrite Rabs_pos_eq in E by lra. pose proof eta_1. unfold u64 in E. lra. }
  apply rep_mul; [apply rep_f20| |].
  - apply rep_add; [apply rep_f1|now apply rep_abs|]. rewrite Rabs_pos_eq; lra.
  - rewrite Rabs_pos_eq; nra.
Qed.
Lemma v_al : rep (p_al q) al. Proof. apply v_strip; [apply Rl|exact bl]. Qed.
Lemma v_au : rep (p_au q) au. Proof. apply v_strip; [apply Ru|exact bu]. Qed.
Lemma v_A : rep (fsub (p_lb q) (p_al q)) A_. Proof. facts. apply rep_sub; [apply Rl|apply v_al|small]. Qed.
Lemma v_L : rep (fadd (p_lb q) (p_al q)) L_. Proof. facts. apply rep_add; [apply Rl|apply v_al|small]. Qed.
Lemma v_B : rep (fadd (p_ub q) (p_au q)) B_. Proof. facts. apply rep_add; [apply Ru|apply v_au|small]. Qed.
Lemma v_U : rep (fsub (p_ub q) (p_au q)) U_. Proof. facts. apply rep_sub; [apply Ru|apply v_au|small]. Qed.
Lemma v_xlow : rep (p_xlow q) xlow.
Proof.
  facts. assert (E : rn (2 * al) = 2 * al) by (apply rn_fix, rn_two, (rep_F _ _ v_al)). pose proof (rd (lb - rn (2 * al))) as G.
  rewrite E in G. assert (K : Rabs (lb - 2 * al) <= 1000000000000000000000 * c500) by small. specialize (G K).
  apply rep_sub; [|apply v_d2|]; [|rewrite E; small]. apply rep_sub; [apply Rl| |rewrite E; small]. apply rep_mul; [apply rep_f2|apply v_al|small].
Qed.
Lemma v_xup : rep (p_xup q) xup.
Proof.
  facts. assert (E : rn (2 * au) = 2 * au) by (apply rn_fix, rn_two, (rep_F _ _ v_au)). pose proof (rd (ub + rn (2 * au))) as G.
  rewrite E in G. assert (K : Rabs (ub + 2 * au) <= 1000000000000000000000 * c500) by small. specialize (G K).
  apply rep_add; [|apply v_d2|]; [|rewrite E; small]. apply rep_add; [apply Ru| |rewrite E; small]. apply rep_mul; [apply rep_f2|apply v_au|small].
Qed.
Lemma v_per : rep (p_r q) per.
Proof.
  facts. pose proof (rd (r_d rn lb ub + al)) as G. assert (K : Rabs (r_d rn lb ub + al) <= 1000000000000000000000 * c500) by small. specialize (G K).
  pose proof (err_in rn eta64 rn_err (rn (r_d rn lb ub + al) + au) (2000000000000000000002 * c500)) as G2. assert (K2 : Rabs (rn (r_d rn lb ub + al) + au) <= 2000000000000000000002 * c500) by small. specialize (G2 K2). pose proof eta_1. unfold u64 in G2.
  apply rep_mul; [apply rep_f2| |small]. apply rep_add; [|apply v_au|small]. apply rep_add; [apply v_d|apply v_al|small].
Qed.

Lemma v_low f x : rep f x -> xlow - W / 50 <= x <= xup + W / 100 -> rep (freflect_low q f) (r_low rn lb ub x).
Proof.
  intros Rf Hx. facts. unfold freflect_low, r_low. pose proof (rep_lt _ _ _ _ Rf v_A) as C. destruct (flt f _), (Rlt_dec x A_) as [L|L]; auto.
  2:{ exfalso. apply L, C. reflexivity. }
  2:{ exfalso. apply C in L. discriminate. }
  pose proof (rd (A_ - x)) as G. assert (K : Rabs (A_ - x) <= 1000000000000000000000 * c500) by small. specialize (G K).
  assert (E : rn (2 * rn (A_ - x)) = 2 * rn (A_ - x)) by (apply rn_fix, rn_two, rn_fmt).
  apply rep_add; auto; [|rewrite E; small]. apply rep_mul; [apply rep_f2| |small]. apply rep_sub; [apply v_A|auto|small].
Qed.
Lemma v_up f x : rep f x -> A_ <= x <= xup + W / 100 -> rep (freflect_up q f) (r_up rn lb ub x).
Proof.
  intros Rf Hx. facts. unfold freflect_up, r_up. pose proof (rep_lt _ _ _ _ v_B Rf) as C. destruct (flt _ f), (Rlt_dec B_ x) as [L|L]; auto.
  2:{ exfalso. apply L, C. reflexivity. }
  2:{ exfalso. apply C in L. discriminate. }
  pose proof (rd (x - ub)) as G. assert (K : Rabs (x - ub) <= 1000000000000000000000 * c500) by small. specialize (G K).
  assert (Ge : - (1000 * c500) <= rn (x - ub) <= 1000 * c500).
  { pose proof (err_in rn eta64 rn_err (x - ub) (900 * c500)) as Ge. assert (K' : Rabs (x - ub) <= 900 * c500) by small. specialize (Ge K'). apply rabs_le in K'. pose proof eta_1. unfold u64 in Ge. lra. }
  pose proof (rd (rn (x - ub) - au)) as G2. assert (K2 : Rabs (rn (x - ub) - au) <= 1000000000000000000000 * c500) by small. specialize (G2 K2).
  assert (E : rn (2 * rn (rn (x - ub) - au)) = 2 * rn (rn (x - ub) - au)) by (apply rn_fix, rn_two, rn_fmt).
  apply rep_sub; auto; [|rewrite E; small]. apply rep_mul; [apply rep_f2| |small]. apply rep_sub; [|apply v_au|small]. apply rep_sub; [exact Rf|apply Ru|small].
Qed.
Lemma v_strip_value a t fa ft : rep fa a -> rep ft t -> 0 < a -> 10000 * eta64 <= a * a -> 10000 * eta64 <= a -> a <= 11 / 10 * c500 -> Rabs t <= 25 / 10 * a ->
  rep (fdiv (fdiv (fmul ft ft) f4) fa) (rn (rn (rn (t * t) / 4) / a)).
Proof.
  intros Ra Rt Ha E1 E2 Hc Ht. apply rabs_le in Ht. pose proof c500_sq. pose proof c500_1. pose proof c500_big. assert (T : 0 <= t * t <= 625 / 100 * (a * a)) by nra. assert (Ap : 0 < a * a) by nra.
  assert (Aq : a * a <= 121 / 100 * (c500 * c500)) by nra.
  assert (Fz : FF 0) by apply generic_format_0.
  set (qq := a * a) in *. assert (Eq : qq = a * a) by reflexivity. clearbody qq. set (cc := c500 * c500) in *. clearbody cc.
  assert (H2 : 0 <= rn (t * t) <= 626 / 100 * qq).
  { split; [apply (rnd_ge rn FF rn_mono rn_fix); auto; lra|]. pose proof (err_in rn eta64 rn_err (t * t) (625 / 100 * qq)) as H2. rewrite Rabs_pos_eq in H2 by lra. unfold u64 in H2. lra. }
  assert (R1 : rep (fmul ft ft) (rn (t * t))) by (apply rep_mul; auto; apply le_rabs; lra).
  set (p := rn (t * t)) in *. clearbody p.
  assert (H3 : 0 <= rn (p / 4) <= 157 / 100 * qq).
  { split; [apply (rnd_ge rn FF rn_mono rn_fix); auto; lra|]. pose proof (err_in rn eta64 rn_err (p / 4) (626 / 400 * qq)) as H3. rewrite Rabs_pos_eq in H3 by lra. unfold u64 in H3. lra. }
  assert (R2 : rep (fdiv (fmul ft ft) f4) (rn (p / 4))) by (apply rep_div; [exact R1|apply rep_f4|lra|apply le_rabs; lra]).
  set (w := rn (p / 4)) in *. clearbody w.
  apply rep_div; auto; [lra|]. apply le_rabs. assert (H4 : 0 <= w / a <= 158 / 100 * a).
  { split; [apply Rmult_le_pos; [lra|left; now apply Rinv_0_lt_compat]|]. apply Rmult_le_reg_r with a; [assumption|]. unfold Rdiv at 1. rewrite Rmult_assoc, Rinv_l by lra. rewrite (Rmult_assoc (158 / 100)), <- Eq. lra. }
  lra.
Qed.
Lemma v_quad f y : rep f y -> A_ - al * (4/10) <= y <= B_ + au * (4/10) -> rep (fquad q f) (r_quad rn lb ub y).
Proof.
  intros Rf Hy. facts. destruct i_al as (A1 & A2 & A3 & A4 & A5). destruct i_au as (U1 & U2 & U3 & U4 & U5). pose proof (rep_F _ _ Rf) as Fy. unfold fquad, r_quad.
  pose proof (rep_lt _ _ _ _ Rf v_L) as C. destruct (flt f _), (Rlt_dec y L_) as [L|L].
  2:{ exfalso. apply L, C. reflexivity. }
  2:{ exfalso. apply C in L. discriminate. }
  - assert (T : Rabs (rn (y - A_)) <= 25 / 10 * al).
    { pose proof (diff_in rn FF rn_sum rn_opp y A_ (3 * al) Fy (rn_fmt _)) as H15. assert (H16 : Rabs (y - A_) <= 3 * al) by (apply le_rabs; lra). specialize (H15 H16). apply le_rabs. unfold u64 in H15. lra. }
    pose proof (quad_in rn FF eta64 rn_mono rn_fix rn_fmt rn_err rn_sum rn_opp eta64_pos al _ A1 A4 A5 (rep_F _ _ v_al) T) as V. cbv zeta in V.
    apply rep_add; [apply Rl| |small]. apply v_strip_value; auto; [apply v_al| |lra]. apply rep_sub; [exact Rf|apply v_A|small].
  - clear C L. pose proof (rep_lt _ _ _ _ v_U Rf) as C. destruct (flt _ f), (Rlt_dec U_ y) as [L|L]; auto.
    2:{ exfalso. apply L, C. reflexivity. }
    2:{ exfalso. apply C in L. discriminate. }
    assert (T : Rabs (rn (y - B_)) <= 25 / 10 * au).
    { pose proof (diff_in rn FF rn_sum rn_opp y B_ (3 * au) Fy (rn_fmt _)) as H15. assert (H16 : Rabs (y - B_) <= 3 * au) by (apply le_rabs; lra). specialize (H15 H16). apply le_rabs. unfold u64 in H15. lra. }
    pose proof (quad_in rn FF eta64 rn_mono rn_fix rn_fmt rn_err rn_sum rn_opp eta64_pos au _ U1 U4 U5 (rep_F _ _ v_au) T) as V. cbv zeta in V.
    apply rep_sub; [apply Ru| |small]. apply v_strip_value; auto; [apply v_au| |lra]. apply rep_sub; [exact Rf|apply v_B|small].
Qed.
Lemma v_last f x : rep f x -> xlow - W / 50 <= x <= xup + W / 100 -> exists y, rep (fquad q (freflect_up q (freflect_low q f))) y /\ lb <= y <= ub.
Proof.
  intros Rf Hx. pose proof (rep_F _ _ Rf) as Fx. destruct (i_low x Fx Hx) as (F1 & H1). destruct (i_refl x Fx Hx) as (F2 & H2).
  eexists. split; [apply v_quad; [apply v_up; [apply v_low; eauto|exact H1]|exact H2]|]. apply i_quad; tauto.
Qed.
(** The factor 1 + k of the shifts. *)
Lemma v_count k : 0 <= IZR k <= 2147483647 -> rep (fadd f1 (fnum k 0)) (1 + IZR k).
Proof.
  intros Hk. assert (0 <= k <= 2147483647)%Z by (split; apply le_IZR; lra). pose proof c500_big. pose proof c500_1.
  rewrite <- (rn_fix (1 + IZR k)). { apply rep_add; [apply rep_f1|apply rep_int; lia|apply le_rabs; lra]. } rewrite <- plus_IZR. apply F_int. lia.
Qed.
Lemma count_bound D k : 0 <= D -> 0 <= IZR k <= 2147483647 -> rn (rn D / per) < IZR k + 1 -> D <= 2200000000 * per.
Proof.
  intros HD Hk H. facts. pose proof eta_W. pose proof (rn_err D) as E1. rewrite (Rabs_pos_eq D) in E1 by lra. apply rabs_le in E1. pose proof (rn_err (rn D / per)) as E2.
  assert (P : 0 <= rn D) by (apply (rnd_ge rn FF rn_mono rn_fix); [apply generic_format_0|lra]).
  assert (Pp : 0 < per) by lra.
  set (z := rn D / per) in *. assert (Ez : z * per = rn D) by (unfold z; field; lra). assert (P' : 0 <= z) by (unfold z; apply Rmult_le_pos; [lra|left; now apply Rinv_0_lt_compat]).
  rewrite (Rabs_pos_eq z) in E2 by lra. apply rabs_le in E2. pose proof eta_1. unfold u64 in *. assert (Z1 : z <= 2150000000) by lra.
  assert (z * per <= 2150000000 * per) by (apply Rmult_le_compat_r; lra). lra.
Qed.
Lemma v_shift_up f x k : rep f x -> x < xlow -> fcast (fdiv (fsub (p_xlow q) f) (p_r q)) = Ok k ->
  exists y, rep (fadd f (fmul (p_r q) (fadd f1 (fnum k 0)))) y /\ xlow - W / 100 <= y <= xlow + per + W / 100.
Proof.
  intros Rf Hx Hk. facts. assert (Pp : 0 < per) by lra. destruct (periods _ _ _ _ _ _ _ v_xlow Rf v_per Pp (Rlt_le _ _ Hx) Hk) as (K1 & K2 & K3).
  exists (rn (x + rn (per * (1 + IZR k)))). split; [|apply i_up; auto; apply (rep_F _ _ Rf)].
  assert (B1 : xlow - x <= 2200000000 * per) by (apply count_bound with k; auto; lra).
  assert (M : 0 <= per * (1 + IZR k) <= 2147483648 * per) by (split; [apply Rmult_le_pos; lra|rewrite Rmult_comm; apply Rmult_le_compat_r; lra]).
  pose proof (rd (per * (1 + IZR k))) as G. assert (K : Rabs (per * (1 + IZR k)) <= 1000000000000000000000 * c500) by small. specialize (G K).
  apply rep_add; [exact Rf| |small]. apply rep_mul; [apply v_per|now apply v_count|small].
Qed.
Lemma v_shift_down f x k : rep f x -> xup < x -> fcast (fdiv (fsub f (p_xup q)) (p_r q)) = Ok k ->
  exists y, rep (fsub f (fmul (p_r q) (fadd f1 (fnum k 0)))) y /\ xlow - W / 50 <= y <= xup + W / 100.
Proof.
  intros Rf Hx Hk. facts. assert (Pp : 0 < per) by lra. destruct (periods _ _ _ _ _ _ _ Rf v_xup v_per Pp (Rlt_le _ _ Hx) Hk) as (K1 & K2 & K3).
  exists (rn (x - rn (per * (1 + IZR k)))). split; [|apply i_down; auto; apply (rep_F _ _ Rf)].
  assert (B1 : x - xup <= 2200000000 * per) by (apply count_bound with k; auto; lra).
  assert (M : 0 <= per * (1 + IZR k) <= 2147483648 * per) by (split; [apply Rmult_le_pos; lra|rewrite Rmult_comm; apply Rmult_le_compat_r; lra]).
  pose proof (rd (per * (1 + IZR k))) as G. assert (K : Rabs (per * (1 + IZR k)) <= 1000000000000000000000 * c500) by small. specialize (G K).
  apply rep_sub; [exact Rf| |small]. apply rep_mul; [apply v_per|now apply v_count|small].
Qed.

Lemma cast_small v z : rep v z -> 0 <= z <= 2147483647 -> exists k, fcast v = Ok k.
Proof.
  intros [Fv Ev] Hz. unfold fcast. rewrite Fv. pose proof (trunc_in v) as T. rewrite Ev in T. specialize (T (proj1 Hz)).
  assert (T1 : (-1 < Btrunc v)%Z) by (apply lt_IZR; lra). assert (T2 : (Btrunc v <= 2147483647)%Z) by (apply le_IZR; lra).
  assert (E : ((-2147483648 <=? Btrunc v)%Z && (Btrunc v <=? 2147483647)%Z) = true) by (apply andb_true_intro; split; apply Z.leb_le; lia).
  rewrite E. eauto.
Qed.
Lemma few_periods fa fb a b : rep fa a -> rep fb b -> 0 <= a - b <= 1200000000 * W -> Rabs a <= 1000000000000 * c500 -> exists k, fcast (fdiv (fsub fa fb) (p_r q)) = Ok k.
Proof.
  intros Ra Rb H Ha. facts. pose proof eta_1. pose proof eta_W. apply rabs_le in Ha.
  assert (Pp : 0 < per) by lra. assert (Fz : FF 0) by apply generic_format_0.
  assert (D : 0 <= rn (a - b) <= 1300000000 * W).
  { split; [apply (rnd_ge rn FF rn_mono rn_fix); auto; lra|]. pose proof (diff_in rn FF rn_sum rn_opp a b (1200000000 * W) (rep_F _ _ Ra) (rep_F _ _ Rb)) as E. rewrite Rabs_pos_eq in E by lra. specialize (E (proj2 H)). unfold u64 in E. lra. }
  assert (V : 0 <= rn (a - b) / per <= 1300000000).
  { split; [apply Rmult_le_pos; [lra|left; now apply Rinv_0_lt_compat]|]. apply Rmult_le_reg_r with per; [assumption|]. unfold Rdiv. rewrite Rmult_assoc, Rinv_l by lra. lra. }
  assert (N : per <> 0) by lra.
  assert (R1 : rep (fsub fa fb) (rn (a - b))) by (apply rep_sub; auto; small).
  assert (R2 : rep (fdiv (fsub fa fb) (p_r q)) (rn (rn (a - b) / per))) by (apply rep_div; auto; [apply v_per|small]).
  apply (cast_small _ _ R2). split; [apply (rnd_ge rn FF rn_mono rn_fix); auto; lra|].
  pose proof (err_in rn eta64 rn_err (rn (a - b) / per) 1300000000) as E. rewrite Rabs_pos_eq in E by lra. unfold u64 in E. lra.
Qed.

Lemma lt_low s : flt (B754_infinity s) (p_xlow q) = s.
Proof. destruct v_xlow as [Fx _]. unfold flt, Bltb. destruct (p_xlow q); try discriminate; destruct s; reflexivity. Qed.
Lemma lt_up : flt (p_xup q) (B754_infinity false) = true.
Proof. destruct v_xup as [Fx _]. unfold flt, Bltb. destruct (p_xup q) as [| | |s]; try discriminate; try destruct s; reflexivity. Qed.
Lemma cast_inf f : is_finite f = false -> fcast f = Fault IntCast.
Proof. intros H. unfold fcast. now rewrite H. Qed.
Lemma sub_inf_l (f : b64) s : is_finite f = true -> B2SF (fsub f (B754_infinity s)) = SpecFloat.S754_infinity (negb s).
Proof. destruct f; try discriminate; reflexivity. Qed.
Lemma sub_inf_r (f : b64) s : is_finite f = true -> B2SF (fsub (B754_infinity s) f) = SpecFloat.S754_infinity s.
Proof. destruct f; try discriminate; reflexivity. Qed.

Lemma coord_feasible f : is_nan f = false ->
  (exists g, fto_f q f = Ok g /\ is_finite g = true /\ lb <= B2R g <= ub) \/ fto_f q f = Fault IntCast.
Proof.
  intros Nf. facts. assert (Pp : per <> 0) by lra. unfold fto_f. destruct (is_finite f) eqn:Ff.
  - set (x := B2R f). assert (Rf : rep f x) by (split; auto).
    assert (S1 : fshift_up q f = Fault IntCast \/ exists g y, fshift_up q f = Ok g /\ rep g y /\ xlow - W / 100 <= y).
    { unfold fshift_up. pose proof (rep_lt _ _ _ _ Rf v_xlow) as C. destruct (flt f (p_xlow q)).
      - assert (L : x < xlow) by (apply C; reflexivity). destruct (cast_fault (fdiv (fsub (p_xlow q) f) (p_r q))) as [E|[k E]]; rewrite E; [left; reflexivity|].
        right. destruct (v_shift_up f x k Rf L E) as (y & R & B). eexists _, y. split; [reflexivity|]. split; auto. lra.
      - right. exists f, x. split; [reflexivity|]. split; auto. destruct (Rlt_or_le x xlow) as [L|L]; [apply C in L; discriminate|]. lra. }
    destruct S1 as [->|(g & y & -> & Rg & B)]; [right; reflexivity|]. cbn [bind].
    assert (S2 : fshift_down q g = Fault IntCast \/ exists h z, fshift_down q g = Ok h /\ rep h z /\ xlow - W / 50 <= z <= xup + W / 100).
    { unfold fshift_down. pose proof (rep_lt _ _ _ _ v_xup Rg) as C. destruct (flt (p_xup q) g).
      - assert (L : xup < y) by (apply C; reflexivity). destruct (cast_fault (fdiv (fsub g (p_xup q)) (p_r q))) as [E|[k E]]; rewrite E; [left; reflexivity|].
        right. destruct (v_shift_down g y k Rg L E) as (z & R & Bz). eexists _, z. split; [reflexivity|]. auto.
      - right. exists g, y. split; [reflexivity|]. split; auto. destruct (Rlt_or_le xup y) as [L|L]; [apply C in L; discriminate|]. lra. }
    destruct S2 as [->|(h & z & -> & Rh & Bh)]; [right; reflexivity|]. cbn [bind]. left. destruct (v_last h z Rh Bh) as (w & [W1 W2] & Bw). eexists. split; [reflexivity|]. rewrite W2. auto.
  - destruct f as [|s| |]; try discriminate. right. unfold fshift_up. rewrite lt_low. destruct s.
    + rewrite (cast_inf (fdiv _ _)); [reflexivity|]. eapply div_inf; [apply sub_inf_l, (proj1 v_xlow)|apply v_per|exact Pp].
    + cbn [bind]. unfold fshift_down. rewrite lt_up, (cast_inf (fdiv _ _)); [reflexivity|]. eapply div_inf; [apply sub_inf_r, (proj1 v_xup)|apply v_per|exact Pp].
Qed.
Lemma coord_total f : is_finite f = true -> lb - 1073741824 * W <= B2R f <= ub + 1073741824 * W ->
  exists g, fto_f q f = Ok g /\ is_finite g = true /\ lb <= B2R g <= ub.
Proof.
  intros Ff Hf. facts. unfold fto_f. set (x := B2R f) in *. assert (Rf : rep f x) by (split; auto).
  assert (S1 : exists g y, fshift_up q f = Ok g /\ rep g y /\ xlow - W / 100 <= y <= ub + 1073741824 * W).
  { unfold fshift_up. pose proof (rep_lt _ _ _ _ Rf v_xlow) as C. destruct (flt f (p_xlow q)).
    - assert (L : x < xlow) by (apply C; reflexivity). destruct (few_periods _ _ _ _ v_xlow Rf) as [k E]; [lra|small|]. rewrite E.
      destruct (v_shift_up f x k Rf L E) as (y & R & B). eexists _, y. split; [reflexivity|]. split; auto. lra.
    - exists f, x. split; [reflexivity|]. split; auto. destruct (Rlt_or_le x xlow) as [L|L]; [apply C in L; discriminate|]. lra. }
  destruct S1 as (g & y & -> & Rg & B). cbn [bind].
  assert (S2 : exists h z, fshift_down q g = Ok h /\ rep h z /\ xlow - W / 50 <= z <= xup + W / 100).
  { unfold fshift_down. pose proof (rep_lt _ _ _ _ v_xup Rg) as C. destruct (flt (p_xup q) g).
    - assert (L : xup < y) by (apply C; reflexivity). destruct (few_periods _ _ _ _ Rg v_xup) as [k E]; [lra|small|]. rewrite E.
      destruct (v_shift_down g y k Rg L E) as (z & R & Bz). eexists _, z. split; [reflexivity|]. auto.
    - exists g, y. split; [reflexivity|]. split; auto. destruct (Rlt_or_le xup y) as [L|L]; [apply C in L; discriminate|]. lra. }
  destruct S2 as (h & z & -> & Rh & Bh). cbn [bind]. destruct (v_last h z Rh Bh) as (w & [W1 W2] & Bw). eexists. split; [reflexivity|]. rewrite W2. auto.
Qed.

(** Linear scaling of the interval [0,10]. *)
Lemma p_denom : rep (fmin (fsub fub flb) fmax_float) (r_d rn lb ub).
Proof.
  facts. unfold fmin. assert (Rm : rep fmax_float (B2R fmax_float)) by (split; reflexivity). pose proof (rep_lt _ _ _ _ Rm v_d) as C. destruct (flt _ _); [|apply v_d]. exfalso.
  assert (L : B2R fmax_float < r_d rn lb ub) by (apply C; reflexivity). assert (B2R fmax_float = bpow radix2 971 * 9007199254740991) by (unfold fmax_float, Bmax_float; cbn -[bpow]; unfold F2R; cbn -[bpow]; ring).
  assert (bpow radix2 971 * 9007199254740991 >= big); [|lra]. apply Rle_ge. unfold big. change 1010%Z with (971 + 39)%Z. rewrite bpow_plus. apply Rmult_le_compat_l; [apply bpow_ge_0|]. change (bpow radix2 39) with (IZR (2 ^ 39)). apply IZR_le. vm_compute. discriminate.
Qed.

Notation d := (r_d rn lb ub).
Notation sc := (rn (10 / d)).
Lemma sc_in : 10 - 10 * u64 * 4 <= sc * W <= 10 + 10 * u64 * 4 /\ 0 < sc /\ eta64 * (1 + sc) <= u64 /\ eta64 * W <= u64.
Proof.
  facts. assert (EW : eta64 * W <= u64 / 1000).
  { apply Rle_trans with (eta64 * bpow radix2 501). apply Rmult_le_compat_l; [left; apply eta64_pos|]. change 501%Z with (500 + 1)%Z. rewrite bpow_plus. change (bpow radix2 1) with 2. fold c500. lra.
    unfold eta64. rewrite <- bpow_plus. apply Rle_trans with (bpow radix2 (-70)). apply bpow_le. lia. unfold u64. change (bpow radix2 (-70)) with (/ IZR (Z.pow_pos 2 70)). change (Z.pow_pos 2 70) with 1180591620717411303424%Z. lra. }
  assert (Dd : W * (1 - u64) <= d <= W * (1 + u64)).
  { pose proof (diff_in rn FF rn_sum rn_opp ub lb W Fu Fl) as E. rewrite Rabs_pos_eq in E by lra. specialize (E (Rle_refl _)). unfold r_d. lra. }
  set (z := 10 / d). assert (zd : z * d = 10) by (unfold z; field; unfold u64 in *; lra).
  assert (zp : 0 < z) by (unfold z; apply Rdiv_lt_0_compat; unfold u64 in *; lra).
  assert (zW : 10 * (1 - 2 * u64) <= z * W <= 10 * (1 + 2 * u64)).
  { pose proof (Rmult_le_compat_l z _ _ (Rlt_le _ _ zp) (proj1 Dd)). pose proof (Rmult_le_compat_l z _ _ (Rlt_le _ _ zp) (proj2 Dd)). unfold u64 in *. lra. }
  pose proof (err_in rn eta64 rn_err z z) as E. rewrite Rabs_pos_eq in E by lra. specialize (E (Rle_refl _)).
  assert (P : 0 < W) by lra.
  pose proof (Rmult_le_compat_r W _ _ (Rlt_le _ _ P) (proj1 E)) as E1. pose proof (Rmult_le_compat_r W _ _ (Rlt_le _ _ P) (proj2 E)) as E2.
  assert (G : 10 - 10 * u64 * 4 <= rn z * W <= 10 + 10 * u64 * 4) by (unfold u64 in *; lra).
  assert (sp : 0 < rn z) by (apply Rmult_lt_reg_r with W; [lra|]; unfold u64 in *; lra).
  split; [exact G|]. split; [exact sp|]. split; [|unfold u64 in *; lra].
  assert (rn z <= 11 * bpow radix2 400).
  { apply Rmult_le_reg_r with W; [lra|]. apply Rle_trans with 11; [unfold u64 in *; lra|]. rewrite Rmult_assoc. assert (1 <= bpow radix2 400 * W); [|lra].
    apply Rle_trans with (bpow radix2 400 * bpow radix2 (-400)). rewrite <- bpow_plus. change 1 with (bpow radix2 0). apply bpow_le. lia. apply Rmult_le_compat_l; [apply bpow_ge_0|exact wide]. }
  apply Rle_trans with (eta64 * bpow radix2 404).
  - apply Rmult_le_compat_l; [left; apply eta64_pos|]. change 404%Z with (400 + 4)%Z. rewrite bpow_plus. change (bpow radix2 4) with 16. assert (1 <= bpow radix2 400) by (change 1 with (bpow radix2 0); apply bpow_le; lia). lra.
  - unfold eta64. rewrite <- bpow_plus. apply Rle_trans with (bpow radix2 (-60)). apply bpow_le. lia. unfold u64. change (bpow radix2 (-60)) with (/ IZR (Z.pow_pos 2 60)). change (Z.pow_pos 2 60) with 1152921504606846976%Z. lra.
Qed.
Lemma F_10 : FF 10. Proof. apply (F_int 10). reflexivity. Qed.
Lemma rep_f10 : rep f10 10. Proof. apply (rep_int 10). reflexivity. Qed.
Lemma rep_f0 : rep f0 0. Proof. apply (rep_int 0). reflexivity. Qed.
Lemma v_sc : rep (fst (flin flb fub)) sc.
Proof.
  facts. assert (N : d <> 0) by lra. cbn [flin fst].
  assert (E : fsub f10 f0 = f10) by (apply B2SF_inj; vm_compute; reflexivity). rewrite E. apply rep_div; [apply rep_f10|apply p_denom|exact N|].
  rewrite Rabs_pos_eq by (left; apply Rdiv_lt_0_compat; lra). apply Rmult_le_reg_r with d; [lra|]. unfold Rdiv. rewrite Rmult_assoc, Rinv_l by lra.
  apply Rle_trans with (big * (bpow radix2 (-400) / 2)); [|apply Rmult_le_compat_l; [unfold big; apply bpow_ge_0|lra]].
  unfold big, Rdiv. rewrite <- Rmult_assoc, <- bpow_plus. change (/ 2) with (bpow radix2 (-1)). rewrite <- bpow_plus. apply Rle_trans with (bpow radix2 4); [change (bpow radix2 4) with 16; lra|apply bpow_le; lia].
Qed.
Lemma scaled_in f y : rep f y -> 0 <= y <= 10 ->
  is_finite (fscale_to_f (flin flb fub) f) = true /\ let e := bpow radix2 (-48) * (W + Rabs ub) in lb - e <= B2R (fscale_to_f (flin flb fub) f) <= ub + e.
Proof.
  intros Rf Hy. destruct sc_in as (sW & sp & se & eW). pose proof v_sc as Rs. facts. pose proof eta64_pos as ep.
  set (s := rn (10 / d)) in *. set (S := s * Rabs ub). assert (S0 : 0 <= S) by (apply Rmult_le_pos; [lra|apply Rabs_pos]).
  assert (Sb : S <= 12 * 1099511627776).
  { apply Rle_trans with (1099511627776 * (s * W)); [|unfold u64 in *; lra]. unfold S. pose proof (Rmult_le_compat_l s _ _ (Rlt_le _ _ sp) Mu). lra. }
  assert (su : - S <= s * ub <= S). { apply rabs_le. unfold S. rewrite Rabs_mult, (Rabs_pos_eq s) by lra. lra. }
  assert (Eb : 1000000000000000000000000000000 <= big) by lra.
  (* product *)
  assert (R1 : rep (fmul (fst (flin flb fub)) fub) (rn (s * ub))) by (apply rep_mul; [exact Rs|apply Ru|small]).
  pose proof (err_in rn eta64 rn_err (s * ub) S (le_rabs _ _ su)) as E1. set (p := rn (s * ub)) in *.
  pose proof eta_1 as e1.
  assert (Eu : eta64 <= u64). { pose proof (Rmult_le_pos _ _ (Rlt_le _ _ ep) (Rlt_le _ _ sp)). lra. }
  assert (pb : - (S + u64 * S + u64) <= p <= S + u64 * S + u64) by lra.
  (* shift *)
  assert (R2 : rep (snd (flin flb fub)) (rn (10 - p))) by (cbn [flin snd]; apply rep_sub; [apply rep_f10|exact R1|apply le_rabs; unfold u64 in *; lra]).
  assert (c1 : Rabs (10 - p) <= 11 + 2 * S) by (apply le_rabs; unfold u64 in *; lra).
  pose proof (diff_in rn FF rn_sum rn_opp 10 p (11 + 2 * S) F_10 (rep_F _ _ R1) c1) as E2. set (sh := rn (10 - p)) in *.
  (* difference *)
  assert (c2 : Rabs (y - sh) <= 22 + 3 * S) by (apply rabs_le in c1; apply le_rabs; unfold u64 in *; lra).
  pose proof (diff_in rn FF rn_sum rn_opp y sh (22 + 3 * S) (rep_F _ _ Rf) (rep_F _ _ R2) c2) as E3.
  assert (R3 : rep (fsub f (snd (flin flb fub))) (rn (y - sh))) by (apply rep_sub; [exact Rf|exact R2|apply rabs_le in c2; small]).
  set (t := rn (y - sh)) in *. assert (c3 : - (23 + 4 * S) <= t <= 23 + 4 * S) by (apply rabs_le in c2; unfold u64 in *; lra).
  (* quotient *)
  assert (ns : s <> 0) by lra. assert (Ts : t / s * s = t) by (field; exact ns).
  assert (At : Rabs (t / s) * s <= 23 + 4 * S) by (rewrite <- (Rabs_pos_eq s) at 2 by lra; rewrite <- Rabs_mult, Ts; now apply le_rabs).
  assert (Q : Rabs (t / s) <= big).
  { apply Rmult_le_reg_r with s; [exact sp|]. apply Rle_trans with (23 + 4 * S); [exact At|]. apply Rle_trans with (1000 * 1000000000000); [lra|].
    apply Rmult_le_reg_r with W; [lra|]. rewrite (Rmult_assoc big). apply Rle_trans with (big * 9); [lra|]. apply Rmult_le_compat_l; [lra|]. unfold u64 in *; lra. }
  assert (R4 : rep (fscale_to_f (flin flb fub) f) (rn (t / s))) by (unfold fscale_to_f; apply rep_div; [exact R3|exact Rs|exact ns|exact Q]).
  destruct R4 as [R4 R5]. split; [exact R4|]. rewrite R5. pose proof (err_in rn eta64 rn_err (t / s) _ (Rle_refl _)) as E4. set (g := rn (t / s)) in *.
  assert (G : t - (u64 * (23 + 4 * S) + u64) <= g * s <= t + (u64 * (23 + 4 * S) + u64)).
  { pose proof (Rmult_le_compat_r s _ _ (Rlt_le _ _ sp) (proj1 E4)) as G1. pose proof (Rmult_le_compat_r s _ _ (Rlt_le _ _ sp) (proj2 E4)) as G2.
    pose proof (Rmult_le_compat_l u64 _ _ (ltac:(unfold u64; lra)) At) as G3. split; lra. }
  assert (e48 : bpow radix2 (-48) = 32 * u64) by (unfold u64; change (bpow radix2 (-48)) with (/ 281474976710656); lra).
  rewrite e48. cbv zeta. assert (Se : s * (32 * u64 * (W + Rabs ub)) = 32 * u64 * (s * W) + 32 * u64 * S) by (unfold S; ring).
  assert (uS : 0 <= u64 * S) by (apply Rmult_le_pos; [unfold u64; lra|exact S0]).
  split; apply Rmult_le_reg_r with s; try exact sp.
  - replace ((lb - 32 * u64 * (W + Rabs ub)) * s) with (s * ub - s * W - s * (32 * u64 * (W + Rabs ub))) by ring. rewrite Se. unfold u64 in *. lra.
  - replace ((ub + 32 * u64 * (W + Rabs ub)) * s) with (s * ub + s * (32 * u64 * (W + Rabs ub))) by ring. rewrite Se. unfold u64 in *. lra.
Qed.
End Coordinate.
