(** Error estimation: the statements of the properties, and cases that break them. *)
From Coq Require Import Reals Lra.
From Verif Require Import Base EoMatrix Pwq Scaling GenoPheno SpecBounds SpecGeno Errstats SpecErr
  EoMatrixProofs PwqProofs GenoPhenoProofs ScalingProofs GpParProofs ErrVec ErrVpk ErrPli ErrSafe ErrTerm ErrOnce ErrDemo ErrDemoProofs ErrContour.
Open Scope R_scope.

(** ** Fixed coordinates *)
Definition third (x : list R) : R := nth 2 x 0.
Definition box_lb : list R := [0; 0; 0].
Definition box_ub : list R := [1; 2; 30].
Lemma box_ordered : ordered box_lb box_ub.
Proof. repeat constructor; lra. Qed.
Definition box_gp : genopheno := mkGP (PwqBound [pwq_coord 0 1 0 1; pwq_coord 0 2 0 2; pwq_coord 0 30 0 30]) None NoScaling.
Lemma box_made : gp_bounds None box_lb box_ub = Ok box_gp.
Proof. reflexivity. Qed.
Definition box_par : epar := mkEP 3 box_gp 4 1 0 [1/2; 1/2; 10] 0.1.
Lemma strip_val l u b : (0 <= b <= 100 -> l < u -> 0 < strip l u b <= (1 + b) / 20)%R.
Proof.
  intros Hb Hl. unfold strip. rewrite (Rabs_pos_eq b) by lra. split.
  - apply Rmin_glb_lt; lra.
  - apply Rmin_r.
Qed.
Lemma box_core a b c : 0.05 <= a <= 0.8 -> 0.05 <= b <= 1.8 -> 0.05 <= c <= 28 -> pheno box_gp [a; b; c] = Ok [a; b; c].
Proof.
  intros Ha Hb Hc. apply (core_identity box_lb box_ub); [exact box_ordered|exact box_made|reflexivity|].
  pose proof (strip_val 0 1 0 ltac:(lra) ltac:(lra)). pose proof (strip_val 0 1 1 ltac:(lra) ltac:(lra)).
  pose proof (strip_val 0 2 0 ltac:(lra) ltac:(lra)). pose proof (strip_val 0 2 2 ltac:(lra) ltac:(lra)).
  pose proof (strip_val 0 30 0 ltac:(lra) ltac:(lra)). pose proof (strip_val 0 30 30 ltac:(lra) ltac:(lra)).
  intros [|[|[|i]]] l u v; cbn; intros E1 E2 E3; try (destruct i; discriminate);
    injection E1 as <-; injection E2 as <-; injection E3 as <-; lra.
Qed.
Lemma box_feasible x : length x = 3%nat -> within_widths 4294967296 box_lb box_ub x -> exists y, pheno box_gp x = Ok y /\ inside box_lb box_ub y.
Proof. intros L W. apply (feasible_total _ _ _ _ box_ordered box_made); [exact L|exact W]. Qed.

Lemma order_bounds : exists s c y,
  low_to_high 3 [0; 1]%nat /\ built 3 (a_gp box_par) /\ keeps_dim (point_search 10) /\ true_value (point_search 10) /\
  optimize_vpk third box_par (point_search 10) (mkES [mkEC [1/2; 1/2; 10] 10] [mkEC [1/2; 1/2; 10] 10] [] 1 0 [])
    [0; 1]%nat [1/2; 1/2] [1/2; 1/2; 10] false false = Ok s /\
  best s = Ok c /\ pheno (a_gp box_par) (ec_x c) = Ok y /\ third y = 10 /\ ec_f c <= 2.
Proof.
  set (g1 := mkGP (PwqBound [pwq_coord 0 2 0 2]) None NoScaling).
  assert (G1 : gp_bounds None [0] [2] = Ok g1) by reflexivity.
  assert (O1 : ordered [0] [2]) by (repeat constructor; lra).
  destruct (feasible_total [0] [2] g1 [10] O1 G1 eq_refl) as (y1 & Hy1 & Ly1 & _ & By1).
  { intros [|[|i]] l u v; cbn; intros E1 E2 E3; try discriminate. injection E1 as <-; injection E2 as <-; injection E3 as <-. lra. }
  destruct y1 as [|b [|? ?]]; cbn in Ly1; try lia. specialize (By1 0%nat 0 2 b eq_refl eq_refl eq_refl).
  destruct (box_feasible [1/2; 1/2; 0]) as (p & Hp & Lp & _ & _); [reflexivity| |].
  { intros [|[|[|i]]] l u v; cbn; intros E1 E2 E3; try (destruct i; discriminate);
    injection E1 as <-; injection E2 as <-; injection E3 as <-; lra. }
  assert (Hs : pheno box_gp [1/2; 1/2; 10] = Ok [1/2; 1/2; 10]) by (apply box_core; lra).
  destruct p as [|p0 [|p1 [|p2 [|? ?]]]]; cbn in Lp; try lia.
  eexists. exists (mkEC [1/2; 1/2; 10] b), [1/2; 1/2; 10].
  split.
  { split; [intros [|[|i]] k k'; cbn; intros E1 E2; try discriminate; try (destruct i; discriminate); injection E1 as <-; injection E2 as <-; lia|].
    intros k [<-|[<-|[]]]; lia. }
  split; [apply (B_bounds 3 box_lb box_ub); [reflexivity|exact box_made]|].
  split; [apply point_dim|]. split; [apply point_value|].
  split.
  { unfold optimize_vpk. cbn [a_gp box_par]. rewrite Hs. cbn [bind].
    change (get [mkEC [1/2; 1/2; 10] 10] 0) with (Ok (mkEC [1/2; 1/2; 10] 10)). cbn [s_cands].
    change (get [mkEC [1/2; 1/2; 10] 10] 0) with (Ok (mkEC [1/2; 1/2; 10] 10)). cbn [bind ec_x].
    match goal with |- context [vpk_sigma ?a ?b ?c] => destruct (sigma_total 3 a b c) as (sg & ->); [reflexivity|intros i [<-|[<-|[]]]; lia|reflexivity|] end.
    cbn [bind length].
    change (put_all (combine [0%nat; 1%nat] [1 / 2; 1 / 2]) (repeat 0 3)) with (Ok [1/2; 1/2; 0]). cbn [bind]. rewrite Hp. cbn [bind].
    change (fold_left (fun v i => removeElement v (Z.of_nat i)) (rev [0%nat; 1%nat]) [1 / 2; 1 / 2; 10]) with [10]. cbv beta iota.
    unfold point_search at 1. cbn [i_x0 length repeat i_gp].
    change (gp_remove box_gp (map Z.of_nat [0%nat; 1%nat])) with g1. rewrite Hy1. cbn [bind]. reflexivity. }
  cbn [best s_hist rev app]. split.
  { reflexivity. }
  split; [cbn [a_gp box_par ec_x]; exact Hs|]. split; [reflexivity|]. cbn [ec_f]. lra.
Qed.

(** Indices from high to low: one coordinate too many. *)
Lemma order_size : exists s c,
  optimize_vpk valley valley_par (point_search 10) valley_sol [1; 0]%nat [12; 13] [10; 10] false false = Ok s /\
  best s = Ok c /\ length (ec_x c) = 3%nat.
Proof. do 2 eexists. split; [unfold optimize_vpk; ev; reflexivity|]. split; reflexivity. Qed.
(** All coordinates fixed: the candidate of the given solution is returned. *)
Lemma all_fixed : exists s c,
  low_to_high 2 [0; 1]%nat /\
  optimize_vpk valley valley_par (point_search 10) valley_sol [0; 1]%nat [12; 13] [10; 10] false false = Ok s /\
  best s = Ok c /\ ec_x c = [10; 10] /\ ec_f c = 0.
Proof.
  do 2 eexists. split.
  { split; [intros [|[|i]] k k'; cbn; intros E1 E2; try discriminate; try (destruct i; discriminate); injection E1 as <-; injection E2 as <-; lia|].
    intros k [<-|[<-|[]]]; lia. }
  split; [unfold optimize_vpk; ev; reflexivity|]. repeat split.
Qed.
(** Two coordinates of three. *)
Lemma two_of_three : exists s c,
  optimize_vpk valley (mkEP 3 gp_default_nb 4 1 0 [10; 10; 10] 0.1) (point_search 10)
    (mkES [mkEC [10; 10; 10] 0] [mkEC [10; 10; 10] 0] [] 1 0 []) [0; 2]%nat [12; 13] [10; 10; 10] false false = Ok s /\
  best s = Ok c /\ ec_x c = [12; 10; 13].
Proof.
  do 2 eexists. split; [unfold optimize_vpk; ev1; change (Pos.to_nat 2) with 2%nat; ev1; reflexivity|]. split; reflexivity.
Qed.

(** ** An interval that does not contain the optimum *)
Lemma stops d g l : (d = 1 \/ d = -1) ->
  pl_loop valley valley_par (point_search 10) 1 (S (S (S g))) valley_sol 0 (if Rlt_dec d 0 then (-1)%Z else 1%Z) 1 0 3 0.1 1 false 0 true d [10; 10] l = Ok l.
Proof.
  intros Hd. assert (S : exists x e, take_linear_step valley valley_par (S (S (S g))) 0 0 3 0.1 10 true (s_eigv valley_sol) d [10; 10] = Ok (e, moved 0 x) /\ x = 10 + 4 * d).
  { destruct Hd as [-> | ->]; do 2 eexists; (split; [unfold take_linear_step; ev; dec; cbn [step_loop]; unfold far; repeat (dec; ev); reflexivity|lra]). }
  destruct S as (x & e & Hs & Ex). cbn [pl_loop]. rewrite Hs; cbn [bind].
  change (get (moved 0 x) (Z.of_nat 0)) with (Ok x). cbn [bind]. rewrite valley_pk by (auto; reflexivity).
  cbn [bind s_status best s_hist rev app Z.ltb Z.compare ec_f ec_x]. subst x.
  pose proof (valley_value 0 4 d (or_introl eq_refl) Hd ltac:(lra)) as V. rewrite V.
  rewrite rlt_f by lra. cbn [pheno a_gp valley_par gp_default_nb gp_bound gp_scale custom_pheno gp_custom bind].
  rewrite rle_f by (rewrite Rabs_pos_eq; lra). reflexivity.
Qed.
Lemma not_reached : exists l s',
  profile_likelihood valley valley_par (point_search 10) 1 5 valley_sol 0 false 1 3 0.1 1 = Ok (l, s') /\ p_min l = 0 /\ p_max l = 0.
Proof.
  assert (P : exists l, profile_likelihood valley valley_par (point_search 10) 1 5 valley_sol 0 false 1 3 0.1 1 = Ok (l, insert_pli 0 l valley_sol) /\ p_min l = 0 /\ p_max l = 0).
  { unfold profile_likelihood, profile_likelihood_search. cbn [best valley_sol s_hist rev app bind].
    cbn [pheno a_gp valley_par gp_default_nb gp_bound gp_scale custom_pheno gp_custom bind ec_x ec_f optimum].
    assert (N : exists l0, pli_new 0 1 (a_dim valley_par) [10; 10] 0 3 0.1 = Ok l0).
    { unfold pli_new. cbn [length a_dim valley_par Nat.eqb]. cbv zeta. rewrite !put_in by (rewrite repeat_length; lia). cbn [bind]. eauto. }
    destruct N as (l0 & Hl0). cbn [a_dim valley_par] in *. rewrite Hl0; cbn [bind].
    change (get [10; 10] (Z.of_nat 0)) with (Ok 10). cbn [bind].
    replace (1 * 10 * 0.1) with 1 by lra.
    pose proof (stops 1 2 l0 (or_introl eq_refl)) as S1. destruct (Rlt_dec 1 0); [lra|]. fold valley_par valley_sol. unfold valley_sol, valley_par, optimum in S1 |- *. rewrite S1; cbn [bind].
    replace (-1 * 10 * 0.1) with (-1) by lra.
    pose proof (stops (-1) 2 l0 (or_intror eq_refl)) as S2. destruct (Rlt_dec (-1) 0); [|lra]. unfold valley_sol, valley_par, optimum in S2. rewrite S2; cbn [bind].
    unfold pli_new in Hl0. cbn in Hl0. apply Ok_inj in Hl0. subst l0. cbn.
    change (Pos.to_nat 1) with 1%nat. ev. change (Pos.to_nat 1) with 1%nat. ev1.
    unfold setErrMinMax, getMinMax. ev. change (Pos.to_nat 2) with 2%nat. ev1.
    rewrite rlt_f by lra. ev1. eexists. split; [reflexivity|]. split; reflexivity. }
  destruct P as (l & HP & A & B). exists l, (insert_pli 0 l valley_sol). auto.
Qed.

(** ** Line searches that do not end *)
Lemma vadd_zero x : forall r, length r = length x -> vadd x (map (fun e => e * 0) r) = Ok x.
Proof.
  unfold vadd. induction x as [|a x IH]; intros [|e r] L; cbn in *; try lia; [reflexivity|].
  rewrite IH by lia. cbn. replace (a + e * 0) with a by ring. reflexivity.
Qed.
Lemma direction_total par sol k d : full_solution (a_dim par) sol -> (k < a_dim par)%nat ->
  exists r, direction par (s_eigv sol) k d = Ok (map (fun e => e * d) r) /\ length r = a_dim par.
Proof.
  intros (_ & _ & L & F) Hk. unfold direction. rewrite L, Nat.eqb_refl, get_nat.
  destruct (nth_error (s_eigv sol) k) as [r|] eqn:E.
  - exists r. split; [reflexivity|]. rewrite Forall_forall in F. apply F. eapply nth_error_In; eauto.
  - apply nth_error_None in E. lia.
Qed.
(** A coordinate of the best point is zero in the search space. *)
Lemma zero_forever func par cm fuel lfuel sol k curve s fup delta maxiters b y :
  full_solution (a_dim par) sol -> best sol = Ok b -> nth_error (ec_x b) k = Some 0 ->
  pheno (a_gp par) (ec_x b) = Ok y -> length y = a_dim par -> length (ec_x b) = a_dim par -> func y = ec_f b ->
  0 < fup -> 0 <= delta < 1 -> in_bounds par y k = Ok true ->
  profile_likelihood func par cm fuel lfuel sol k curve s fup delta maxiters = Fault Diverges.
Proof.
  intros Hs Hb Hk Hy Ly Lb Hf Hfup Hd Hbd.
  assert (K : (k < a_dim par)%nat) by (rewrite <- Lb; apply nth_error_Some; congruence).
  apply (pl_forever func par cm fuel lfuel sol k curve s fup delta maxiters b y 0); auto.
  intros j. exists y. unfold doubled. destruct (direction_total par sol k (0 / 10 * 2 ^ j) Hs K) as (r & -> & Lr).
  replace (0 / 10 * 2 ^ j) with 0 by (unfold Rdiv; ring). cbn [bind]. rewrite vadd_zero by lia. cbn [bind].
  split; [exact Hy|]. split; [|exact Hbd]. rewrite Hf, Rminus_diag_eq by reflexivity. rewrite Rabs_R0. nra.
Qed.
(** The square norm and its optimum. *)
Definition bowl (x : list R) : R := fold_right (fun a s => a * a + s) 0 x.
Definition bowl_best : ecand := mkEC [0; 0] 0.
Definition bowl_sol : esol := mkES [bowl_best] [bowl_best] [[1; 0]; [0; 1]] 20 0 [].
Lemma bowl_full : full_solution 2 bowl_sol.
Proof.
  split; [exists bowl_best, []; split; reflexivity|]. split; [exists [], bowl_best; split; reflexivity|].
  split; [reflexivity|]. repeat constructor.
Qed.
Lemma bowl_forever cm fuel lfuel curve s maxiters :
  profile_likelihood bowl valley_par cm fuel lfuel bowl_sol 0 curve s 1 0.1 maxiters = Fault Diverges.
Proof.
  apply (zero_forever bowl valley_par cm fuel lfuel bowl_sol 0 curve s 1 0.1 maxiters bowl_best [0; 0]); try reflexivity.
  - exact bowl_full.
  - cbn. lra.
  - lra.
  - lra.
Qed.

(** ** Faults of the profile likelihood *)
(** No sample. *)
Lemma no_sample : exists f, profile_likelihood valley valley_par (point_search 10) 5 5 valley_sol 0 false 0 2 0.1 100 = Fault f.
Proof.
  destruct (profile_likelihood _ _ _ _ _ _ _ _ _ _ _ _) as [[l s']|f] eqn:E; [|eauto].
  exfalso. exact (pl_zero _ _ _ _ _ _ _ _ _ _ _ _ _ E).
Qed.
(** A separable run stores a single column: the product of the first step has
    operands of different sizes. *)
Lemma sep_mismatch func par cm fuel lfuel sol k curve s fup delta maxiters b y xk :
  best sol = Ok b -> nth_error (ec_x b) k = Some xk -> pheno (a_gp par) (ec_x b) = Ok y -> length y = a_dim par ->
  length (ec_x b) = a_dim par -> (1 < a_dim par)%nat -> func y = ec_f b ->
  0 < fup -> 0 <= delta < 1 -> in_bounds par y k = Ok true -> 
  length (s_eigv sol) = a_dim par -> Forall (fun r => length r = 1%nat) (s_eigv sol) ->
  profile_likelihood func par cm (S fuel) (S lfuel) sol k curve s fup delta maxiters = Fault SizeMismatch.
Proof.
  intros Hb Hx Hy Ly Lb H1 Hf Hfup Hd Hbd L F. unfold profile_likelihood. rewrite Hb; cbn [bind]. rewrite Hy; cbn [bind].
  unfold pli_new. rewrite Ly, Nat.eqb_refl. cbv zeta. rewrite !put_in by (rewrite repeat_length; lia). cbn [bind].
  unfold profile_likelihood_search. rewrite Hb; cbn [bind]. rewrite get_nat, Hx; cbn [bind]. cbn [pl_loop].
  assert (E : take_linear_step func par (S lfuel) k (ec_f b) fup delta 10 true (s_eigv sol) (1 * xk * 0.1) (ec_x b) = Fault SizeMismatch).
  { unfold take_linear_step. cbv zeta. rewrite Hy; cbn [bind]. rewrite Hf, Rminus_diag_eq by reflexivity. rewrite Rabs_R0.
    rewrite rlt_f by nra. cbn [step_loop]. unfold far. rewrite rlt_t by nra. cbn [andb Nat.ltb Nat.leb]. rewrite Hbd. cbn [bind].
    unfold direction. rewrite L, Nat.eqb_refl, get_nat.
    assert (K : (k < a_dim par)%nat) by (rewrite <- Lb; apply nth_error_Some; congruence).
    destruct (nth_error (s_eigv sol) k) as [r|] eqn:Er; [|apply nth_error_None in Er; lia]. cbn [bind].
    assert (Lr : length r = 1%nat) by (rewrite Forall_forall in F; apply F; eapply nth_error_In; eauto).
    destruct r as [|e [|? ?]]; cbn in Lr; try lia. destruct (ec_x b) as [|x0 [|x1 x]]; cbn in Lb; try lia. reflexivity. }
  rewrite E. reflexivity.
Qed.

(** ** Statements *)
Lemma vpk_values func par cm n sol k vk x0 px s : built n (a_gp par) -> (Z.of_nat n < 2147483648)%Z -> keeps_dim cm ->
  low_to_high n k -> (length k < n)%nat -> length vk = length k -> length x0 = n ->
  optimize_vpk func par cm sol k vk x0 px false = Ok s ->
  exists c, best s = Ok c /\ length (ec_x c) = n /\ values_at k vk (ec_x c).
Proof.
  intros Hg Hn Hc Hk Hl Hv Hx H. destruct (vpk_geno func par cm n Hg Hn Hc _ _ _ _ _ _ Hk Hl Hv Hx H) as (c & A & B & C & _). eauto.
Qed.
Lemma vpk_pheno_values func par cm n sol k vk x0 px s : built n (a_gp par) -> (Z.of_nat n < 2147483648)%Z -> keeps_dim cm ->
  low_to_high n k -> (length k < n)%nat -> length vk = length k -> length x0 = n ->
  optimize_vpk func par cm sol k vk x0 px true = Ok s ->
  forall y x, values_at k vk y -> geno (a_gp par) y = Ok x -> pheno (a_gp par) x = Ok y ->
  exists c, best s = Ok c /\ length (ec_x c) = n /\ forall z, pheno (a_gp par) (ec_x c) = Ok z -> values_at k vk z.
Proof.
  intros Hg Hn Hc Hk Hl Hv Hx H y x H1 H2 H3. destruct (vpk_pheno func par cm n Hg Hn Hc _ _ _ _ _ _ Hk Hl Hv Hx H y x H1 H2 H3) as (c & A & B & C & _). eauto.
Qed.
Lemma pk_value func par cm n sol k v x0 px s : built n (a_gp par) -> (Z.of_nat n < 2147483648)%Z -> keeps_dim cm ->
  true_value cm -> (k < n)%nat -> (1 < n)%nat -> length x0 = n -> optimize_pk func par cm sol k v x0 px false = Ok s ->
  exists c y, best s = Ok c /\ pheno (a_gp par) (ec_x c) = Ok y /\ ec_f c = func y.
Proof. intros Hg Hn Hc Ht Hk H1 Hx H. apply (vpk_value_gen func par cm n Hg Hn Hc sol k v x0 px false s); auto. discriminate. Qed.
Lemma interval_ok func par cm fuel lfuel sol k curve s fup delta maxiters l sol' :
  profile_likelihood func par cm fuel lfuel sol k curve s fup delta maxiters = Ok (l, sol') ->
  p_min l <= p_max l /\ exists b y v, best sol = Ok b /\ pheno (a_gp par) (ec_x b) = Ok y /\ nth_error y k = Some v /\
    p_errmin l = p_min l - v /\ p_errmax l = p_max l - v.
Proof.
  intros H. destruct (pl_result _ _ _ _ _ _ _ _ _ _ _ _ _ _ H)
    as (b & y & v & Hb & Hy & _ & Hv & _ & _ & _ & _ & _ & _ & _ & E1 & E2 & (i & j & ri & rj & u & w & _ & _ & _ & _ & _ & _ & M1 & M2) & _).
  split; [rewrite M1, M2; apply Rle_trans with u; [apply Rmin_l|apply Rmax_l]|]. exists b, y, v. auto 10.
Qed.
Lemma curve_ok func par cm fuel lfuel sol k curve s fup delta maxiters l sol' :
  profile_likelihood func par cm fuel lfuel sol k curve s fup delta maxiters = Ok (l, sol') ->
  length (p_fvaluem l) = (2 * s + 1)%nat /\ length (p_xm l) = (2 * s + 1)%nat /\
  (exists b y, best sol = Ok b /\ pheno (a_gp par) (ec_x b) = Ok y /\ nth_error (p_fvaluem l) s = Some (ec_f b) /\ nth_error (p_xm l) s = Some y /\
   exists i j ri rj u w fi fj, (i < s < j)%nat /\ nth_error (p_xm l) i = Some ri /\ nth_error ri k = Some u /\
     nth_error (p_xm l) j = Some rj /\ nth_error rj k = Some w /\ p_min l = Rmin u w /\ p_max l = Rmax u w /\
     nth_error (p_fvaluem l) i = Some fi /\ nth_error (p_fvaluem l) j = Some fj /\
     (forall m f, (m < s)%nat -> nth_error (p_fvaluem l) m = Some f -> Rabs (fi - (ec_f b + fup)) <= Rabs (f - (ec_f b + fup))) /\
     (forall m f, (s < m)%nat -> nth_error (p_fvaluem l) m = Some f -> Rabs (fj - (ec_f b + fup)) <= Rabs (f - (ec_f b + fup)))).
Proof.
  intros H. destruct (pl_result _ _ _ _ _ _ _ _ _ _ _ _ _ _ H)
    as (b & y & v & Hb & Hy & _ & Hv & _ & _ & _ & _ & L1 & L2 & Cs & _ & _ & (i & j & ri & rj & u & w & (Hi & fi & Fi & Mi) & (Hj & fj & Fj & Mj) & A1 & A2 & A3 & A4 & M1 & M2) & _).
  split; [exact L1|]. split; [exact L2|]. unfold row in Cs. injection Cs as C1 C2.
  exists b, y. do 4 (split; [assumption|]). exists i, j, ri, rj, u, w, fi, fj. split; [lia|]. do 8 (split; [assumption|]). split.
  - intros m f Hm Hf. apply (Mi m); [lia|exact Hf].
  - intros m f Hm Hf. assert (m < length (p_fvaluem l))%nat by (apply nth_error_Some; congruence). apply (Mj m); [lia|exact Hf].
Qed.
Lemma safe_ok func par cm n fuel lfuel sol k curve s fup delta maxiters :
  built n (a_gp par) -> (Z.of_nat n < 2147483648)%Z -> a_dim par = n -> keeps_dim cm -> (forall rf ip, in_range (cm rf ip)) ->
  full_solution n sol -> (k < n)%nat -> (0 < s)%nat ->
  in_range (profile_likelihood func par cm fuel lfuel sol k curve s fup delta maxiters).
Proof.
  intros Hg Hn Hd Hc Hr ((c & cs & Hcs & Lc) & (h & b & Hh & Lb) & Le & Fe) Hk Hs.
  exact (pl_in_range func par cm n Hg Hn Hd (s_eigv sol) Le Fe k Hk Hc Hr sol eq_refl c cs Hcs Lc h b Hh Lb fuel lfuel curve s fup delta maxiters Hs).
Qed.
Lemma level_ok func par cm fuel lfuel px py np fup sol delta m ps sol' :
  (forall l, get_pli px sol = Some l \/ get_pli py sol = Some l -> p_fup l = fup) ->
  contour_points func par cm fuel lfuel px py np fup sol delta m = Ok (ps, sol') ->
  exists lx ly, get_pli px sol' = Some lx /\ get_pli py sol' = Some ly /\ p_fup lx = fup /\ p_fup ly = fup /\
    exists b y vx vy, best sol' = Ok b /\ pheno (a_gp par) (ec_x b) = Ok y /\ nth_error y px = Some vx /\ nth_error y py = Some vy /\
    (exists w, In (vx + p_errmin lx, w) ps) /\ (exists w, In (vx + p_errmax lx, w) ps) /\
    (exists w, In (w, vy + p_errmin ly) ps) /\ (exists w, In (w, vy + p_errmax ly) ps).
Proof.
  intros Hl H. destruct (contour_ok _ _ _ _ _ _ _ _ _ _ _ _ _ _ H) as (_ & _ & lx & ly & b & y & vx & vy & Gx & Gy & Cx & Cy & R).
  exists lx, ly. split; [exact Gx|]. split; [exact Gy|].
  split; [destruct Cx as [E|[_ E]]; [apply Hl; auto|exact E]|]. split; [destruct Cy as [E|[_ E]]; [apply Hl; auto|exact E]|].
  exists b, y, vx, vy. exact R.
Qed.
Lemma count_ok func par cm fuel lfuel px py np fup sol delta m ps sol' :
  contour_points func par cm fuel lfuel px py np fup sol delta m = Ok (ps, sol') ->
  (4 <= Z.of_nat (length ps) <= Z.max 4 np)%Z.
Proof. intros H. destruct (contour_ok _ _ _ _ _ _ _ _ _ _ _ _ _ _ H) as (A & B & _). lia. Qed.
