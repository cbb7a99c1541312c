(** Contours, and the cases where the expected properties fail. *)
From Coq Require Import Reals Lra.
From Verif Require Import Base EoMatrix Pwq Scaling GenoPheno SpecBounds SpecGeno Errstats SpecErr
  EoMatrixProofs PwqProofs GenoPhenoProofs ScalingProofs GpParProofs ErrVec ErrVpk ErrPli ErrSafe ErrTerm ErrOnce ErrDemo ErrDemoProofs.
Local Open Scope nat_scope.

Lemma add_point_length i p ps : length (add_point i p ps) = S (length ps).
Proof.
  unfold add_point. destruct i; [rewrite app_length; cbn; lia|].
  unfold insert_at. rewrite app_length. cbn [length]. rewrite firstn_length, skipn_length. lia.
Qed.
Lemma add_point_in i p ps q : In q ps -> In q (add_point i p ps).
Proof.
  intros H. unfold add_point. destruct i; [apply in_or_app; left; exact H|].
  unfold insert_at. rewrite <- (firstn_skipn (S i) ps) in H. apply in_app_or in H. apply in_or_app.
  destruct H as [H|H]; [left; exact H|right; right; exact H].
Qed.

Section Contour.
Variable func : list R -> R.
Variable par : epar.
Variable cm : (list R -> R) -> ipar -> res iout.

Lemma more_points_ok todo : forall fuel lfuel sol px py fup sx sy ps r,
  more_points func par cm todo fuel lfuel sol px py fup sx sy ps = Ok r ->
  length ps <= length r <= length ps + todo /\ forall p, In p ps -> In p r.
Proof.
  induction todo as [|todo IH]; intros fuel lfuel sol px py fup sx sy ps r H; cbn [more_points] in H.
  - apply Ok_inj in H; subst r. split; [lia|auto].
  - cbv zeta in H. apply bind_ok in H; destruct H as (pl & _ & H). apply bind_ok in H; destruct H as (pf & _ & H).
    destruct (widest _ _ _ _ _ _) as [i1 i2]. apply bind_ok in H; destruct H as (q1 & _ & H). apply bind_ok in H; destruct H as (q2 & _ & H).
    apply bind_ok in H; destruct H as (xd & _ & H). apply bind_ok in H; destruct H as (yd & _ & H). apply bind_ok in H; destruct H as (fc & _ & H).
    destruct (f_nevals fc =? 0)%Z.
    + destruct (IH _ _ _ _ _ _ _ _ _ _ H) as [A B]. split; [lia|exact B].
    + apply bind_ok in H; destruct H as (a & _ & H). apply bind_ok in H; destruct H as (b & _ & H).
      destruct (IH _ _ _ _ _ _ _ _ _ _ H) as [A B]. rewrite add_point_length in A. split; [lia|].
      intros p Hp. apply B. apply add_point_in. exact Hp.
Qed.

Lemma pli_for_ok fuel lfuel sol k fup delta m q : pli_for func par cm fuel lfuel sol k fup delta m = Ok q ->
  get_pli k (snd q) = Some (fst q) /\
  (forall k' l, get_pli k' sol = Some l -> get_pli k' (snd q) = Some l) /\
  (forall k', k' <> k -> get_pli k' (snd q) = get_pli k' sol) /\
  (get_pli k sol = Some (fst q) \/ (get_pli k sol = None /\ p_fup (fst q) = fup)).
Proof.
  unfold pli_for. destruct (get_pli k sol) as [l|] eqn:E; intros H.
  - apply Ok_inj in H; subst q. auto.
  - apply bind_ok in H; destruct H as ([l s'] & H & Hq). cbn [snd] in Hq.
    destruct (pl_cached _ _ _ _ _ _ _ _ _ _ _ _ _ _ H) as [C1 C2]. rewrite E in C1. rewrite C1 in Hq. apply Ok_inj in Hq; subst q.
    cbn [fst snd]. split; [exact C1|]. split; [|split; [exact C2|right; split; [reflexivity|]]].
    + intros k' l' Hl. destruct (Nat.eq_dec k' k) as [->|Hne]; [congruence|]. rewrite C2 by exact Hne. exact Hl.
    + destruct (pl_result _ _ _ _ _ _ _ _ _ _ _ _ _ _ H) as (b & y & v & _ & _ & _ & _ & _ & _ & _ & Hf & _). exact Hf.
Qed.

(** What a contour is built from. *)
Lemma contour_ok fuel lfuel px py np fup sol delta m ps sol' :
  contour_points func par cm fuel lfuel px py np fup sol delta m = Ok (ps, sol') ->
  4 <= length ps /\ (Z.of_nat (length ps) <= Z.max 4 np)%Z /\
  exists lx ly b y vx vy, get_pli px sol' = Some lx /\ get_pli py sol' = Some ly /\
    (get_pli px sol = Some lx \/ (get_pli px sol = None /\ p_fup lx = fup)) /\
    (get_pli py sol = Some ly \/ (get_pli py sol = None /\ p_fup ly = fup)) /\
    best sol' = Ok b /\ pheno (a_gp par) (ec_x b) = Ok y /\ nth_error y px = Some vx /\ nth_error y py = Some vy /\
    (exists w, In ((vx + p_errmin lx)%R, w) ps) /\ (exists w, In ((vx + p_errmax lx)%R, w) ps) /\
    (exists w, In (w, (vy + p_errmin ly)%R) ps) /\ (exists w, In (w, (vy + p_errmax ly)%R) ps).
Proof.
  unfold contour_points. intros H. apply bind_ok in H; destruct H as ([plx s1] & Hx & H).
  apply bind_ok in H; destruct H as ([ply s2] & Hy & H). cbn [fst snd] in *. cbv zeta in H.
  apply bind_ok in H; destruct H as (phx & Hp & H). apply bind_ok in H; destruct H as (vx & Hvx & H). apply bind_ok in H; destruct H as (vy & Hvy & H).
  apply bind_ok in H; destruct H as (e1 & _ & H). apply bind_ok in H; destruct H as (e2 & _ & H).
  apply bind_ok in H; destruct H as (e3 & _ & H). apply bind_ok in H; destruct H as (e4 & _ & H).
  apply bind_ok in H; destruct H as (y1 & _ & H). apply bind_ok in H; destruct H as (x2 & _ & H).
  apply bind_ok in H; destruct H as (y3 & _ & H). apply bind_ok in H; destruct H as (x4 & _ & H).
  apply bind_ok in H; destruct H as (r & Hr & H). apply Ok_inj in H; injection H as -> ->.
  match type of Hr with context [Ok ?l] => set (p4 := l) in Hr end.
  assert (L : 4 <= length ps /\ (Z.of_nat (length ps) <= Z.max 4 np)%Z /\ forall p, In p p4 -> In p ps).
  { destruct (Z.leb_spec np 4).
    - apply Ok_inj in Hr; subst ps. cbn [p4 length]. split; [lia|]. split; [lia|auto].
    - apply bind_ok in Hr; destruct Hr as (sx & _ & Hr). apply bind_ok in Hr; destruct Hr as (sy & _ & Hr).
      destruct (more_points_ok _ _ _ _ _ _ _ _ _ _ _ Hr) as [A B]. cbn [p4 length] in A. split; [lia|]. split; [lia|exact B]. }
  destruct L as (L1 & L2 & L3). split; [exact L1|]. split; [exact L2|].
  destruct (pli_for_ok _ _ _ _ _ _ _ _ Hx) as (X1 & X2 & X3 & X4). destruct (pli_for_ok _ _ _ _ _ _ _ _ Hy) as (Y1 & Y2 & Y3 & Y4).
  cbn [fst snd] in *. unfold pheno_best in Hp. apply bind_ok in Hp; destruct Hp as (b & Hb & Hp).
  apply get_ok in Hvx, Hvy.
  exists plx, ply, b, phx, vx, vy. split; [apply Y2; exact X1|]. split; [exact Y1|]. split; [exact X4|]. split.
  { destruct (Nat.eq_dec py px) as [->|Hne].
    - assert (ply = plx) by (destruct Y4 as [Y4|[Y4 _]]; congruence). subst ply. exact X4.
    - rewrite (X3 _ Hne) in Y4. exact Y4. }
  do 4 (split; [assumption|]).
  repeat split; eexists; apply L3; unfold p4.
  - left; reflexivity.
  - right; right; left; reflexivity.
  - right; left; reflexivity.
  - right; right; right; left; reflexivity.
Qed.

(** Cached intervals are used whatever the level asked for. *)
Lemma contour_cached fuel lfuel px py np sol delta m lx ly fup fup' : (np <= 4)%Z ->
  get_pli px sol = Some lx -> get_pli py sol = Some ly ->
  contour_points func par cm fuel lfuel px py np fup sol delta m = contour_points func par cm fuel lfuel px py np fup' sol delta m.
Proof.
  intros Hn Hx Hy. unfold contour_points, pli_for. rewrite Hx; cbn [bind fst snd]. rewrite Hy; cbn [bind fst snd].
  destruct (Z.leb_spec np 4); [reflexivity|lia].
Qed.

(** ** The bounds of the profile likelihood *)
(** A negative minimum. *)
Lemma pl_negative fuel lfuel sol k s fup delta maxiters l sol' b :
  profile_likelihood func par cm fuel lfuel sol k false s fup delta maxiters = Ok (l, sol') ->
  best sol = Ok b -> (11 * fup < -9 * ec_f b)%R ->
  exists y v, pheno (a_gp par) (ec_x b) = Ok y /\ nth_error y k = Some v /\
    forall u, u = p_min l \/ u = p_max l -> u = 0%R \/ u = v.
Proof.
  intros H Hb Hneg. destruct (pl_bounds _ _ _ _ _ _ _ _ _ _ _ _ _ H) as (b' & y & v & Hb' & Hy & Hv & A).
  assert (b' = b) by congruence. subst b'. exists y, v. split; [exact Hy|]. split; [exact Hv|].
  intros u Hu. destruct (A u Hu) as [E|[E|(f & z & (v0 & x & s0 & c & _ & _ & _ & _ & Hl & Hlow) & _)]]; auto.
  exfalso. unfold near_level in Hl. pose proof (Rle_abs (f - ec_f b - fup)). lra.
Qed.

End Contour.

(** ** Concrete cases *)
Open Scope R_scope.
(** Two levels one after the other: the second interval is not kept. *)
Lemma second_not_kept : exists l2 s2 l4 s4,
  profile_likelihood valley valley_par (point_search 10) 5 5 valley_sol 0 false 10 2 0.1 100 = Ok (l2, s2) /\
  profile_likelihood valley valley_par (point_search 10) 5 5 s2 0 false 10 4 0.1 100 = Ok (l4, s4) /\
  p_min l2 = 8 /\ p_max l2 = 12 /\ p_min l4 = 6 /\ p_max l4 = 14 /\ get_pli 0 s4 = Some l2.
Proof.
  assert (H0 : at_optimum valley_sol) by (repeat split).
  destruct (valley_interval valley_sol 0 10 2 4 2 100 H0) as (l2 & A2 & B2 & C2 & _); [auto|lia|auto|].
  assert (H1 : at_optimum (insert_pli 0 l2 valley_sol)) by (repeat split).
  destruct (valley_interval (insert_pli 0 l2 valley_sol) 0 10 4 4 2 100 H1) as (l4 & A4 & B4 & C4 & _); [auto|lia|auto|].
  exists l2, (insert_pli 0 l2 valley_sol), l4, (insert_pli 0 l4 (insert_pli 0 l2 valley_sol)).
  split; [exact A2|]. split; [exact A4|]. do 4 (split; [lra|]). reflexivity.
Qed.

Lemma get_insert k l s : get_pli k s = None -> get_pli k (insert_pli k l s) = Some l /\ forall k', k' <> k -> get_pli k' (insert_pli k l s) = get_pli k' s.
Proof.
  intros E. assert (A : forall (q : list (nat * pli)) k' p, find (fun q => (fst q =? k')%nat) (q ++ [p]) =
    match find (fun q => (fst q =? k')%nat) q with Some r => Some r | None => if (fst p =? k')%nat then Some p else None end).
  { induction q as [|p0 q IH]; intros k' p; cbn; [reflexivity|]. destruct (fst p0 =? k')%nat; [reflexivity|apply IH]. }
  unfold insert_pli. rewrite E. unfold get_pli in *; cbn [s_pls]. split.
  - rewrite A. destruct (find _ (s_pls s)) as [q|]; [discriminate|]. cbn [fst]. rewrite Nat.eqb_refl. reflexivity.
  - intros k' Hk'. rewrite A. destruct (find (fun q => (fst q =? k')%nat) (s_pls s)) as [q|]; [reflexivity|]. cbn [fst].
    destruct (Nat.eqb_spec k k'); [congruence|reflexivity].
Qed.

(** The restricted searches of a contour of the small problem. *)
Lemma valley_pk_pheno k v sol : (k = 0 \/ k = 1)%nat -> s_cands sol = [optimum] ->
  optimize_pk valley valley_par (point_search 10) sol k v [10; 10] true true =
  Ok (mkES [mkEC (moved k v) (valley (moved k v))] [mkEC (moved k v) (valley (moved k v))] [] 1 0 []).
Proof. intros [-> | ->] H; unfold optimize_pk, optimize_vpk; rewrite H; ev; reflexivity. Qed.

Lemma valley_contour_gen f g m sol np fup lx ly : at_optimum sol -> (np <= 4)%Z ->
  pli_for valley valley_par (point_search 10) f g sol 0 fup 0.1 m = Ok (lx, insert_pli 0 lx sol) ->
  pli_for valley valley_par (point_search 10) f g (insert_pli 0 lx sol) 1 fup 0.1 m = Ok (ly, insert_pli 1 ly (insert_pli 0 lx sol)) ->
  contour_points valley valley_par (point_search 10) f g 0 1 np fup sol 0.1 m =
  Ok ([(10 + p_errmin lx, 10); (10, 10 + p_errmin ly); (10 + p_errmax lx, 10); (10, 10 + p_errmax ly)], insert_pli 1 ly (insert_pli 0 lx sol)).
Proof.
  intros (H1 & H2 & H3) Hn Hx Hy. unfold contour_points. rewrite Hx; cbn [bind fst snd]. rewrite Hy; cbn [bind fst snd].
  set (s2 := insert_pli 1 ly (insert_pli 0 lx sol)).
  assert (E : forall k l s, s_hist (insert_pli k l s) = s_hist s /\ s_cands (insert_pli k l s) = s_cands s).
  { intros k l s. unfold insert_pli. destruct (get_pli k s); split; reflexivity. }
  assert (Eh : s_hist s2 = [optimum]) by (unfold s2; rewrite !(proj1 (E _ _ _)); exact H2).
  assert (Ec : s_cands s2 = [optimum]) by (unfold s2; rewrite !(proj2 (E _ _ _)); exact H1).
  unfold pheno_best at 1, best at 1. rewrite Eh.
  cbn [rev app bind pheno a_gp valley_par gp_default_nb gp_bound gp_scale custom_pheno gp_custom ec_x optimum].
  change (get [10; 10] (Z.of_nat 0)) with (Ok 10). change (get [10; 10] (Z.of_nat 1)) with (Ok 10). cbn [bind a_x0min].
  rewrite !valley_pk_pheno by (auto; exact Ec).
  unfold pheno_best, best. cbn [bind rev app s_hist pheno a_gp valley_par gp_default_nb gp_bound gp_scale custom_pheno gp_custom ec_x moved].
  repeat match goal with |- context [get [?a; ?b] (Z.of_nat 0)] => change (get [a; b] (Z.of_nat 0)) with (Ok a) | |- context [get [?a; ?b] (Z.of_nat 1)] => change (get [a; b] (Z.of_nat 1)) with (Ok b) end.
  cbn [bind]. destruct (Z.leb_spec np 4); [|lia]. reflexivity.
Qed.

Lemma valley_for sol k fup f g m : at_optimum sol -> (k = 0 \/ k = 1)%nat -> (fup = 2 \/ fup = 4) -> get_pli k sol = None ->
  exists l, pli_for valley valley_par (point_search 10) (S f) (S (S (S g))) sol k fup 0.1 m = Ok (l, insert_pli k l sol) /\
    p_errmin l = - fup /\ p_errmax l = fup.
Proof.
  intros Hs Hk Hf Hn. destruct (valley_interval sol k 10 fup f g m Hs Hk ltac:(lia) Hf) as (l & A & _ & _ & B & C).
  exists l. unfold pli_for. rewrite Hn, A. cbn [bind snd]. rewrite (proj1 (get_insert k l sol Hn)). auto.
Qed.
Lemma at_optimum_insert k l sol : at_optimum sol -> at_optimum (insert_pli k l sol).
Proof. intros (A & B & C). unfold insert_pli. destruct (get_pli k sol); repeat split; assumption. Qed.

Lemma valley_contour f g m np fup : (np <= 4)%Z -> (fup = 2 \/ fup = 4) ->
  exists ps sol', contour_points valley valley_par (point_search 10) (S f) (S (S (S g))) 0 1 np fup valley_sol 0.1 m = Ok (ps, sol') /\
    ps = [(10 - fup, 10); (10, 10 - fup); (10 + fup, 10); (10, 10 + fup)] /\
    at_optimum sol' /\ exists lx ly, get_pli 0 sol' = Some lx /\ get_pli 1 sol' = Some ly /\
      p_errmin lx = - fup /\ p_errmax lx = fup /\ p_errmin ly = - fup /\ p_errmax ly = fup.
Proof.
  intros Hn Hf. assert (H0 : at_optimum valley_sol) by (repeat split).
  destruct (valley_for valley_sol 0 fup f g m H0) as (lx & A & B & C); auto.
  destruct (get_insert 0 lx valley_sol eq_refl) as [G1 G2].
  destruct (valley_for (insert_pli 0 lx valley_sol) 1 fup f g m (at_optimum_insert _ _ _ H0)) as (ly & A' & B' & C'); auto.
  assert (N1 : get_pli 1 (insert_pli 0 lx valley_sol) = None) by (rewrite G2 by lia; reflexivity).
  destruct (get_insert 1 ly (insert_pli 0 lx valley_sol) N1) as [G3 G4].
  rewrite (valley_contour_gen _ _ _ _ _ _ _ _ H0 Hn A A'). rewrite B, C, B', C'. do 2 eexists. split; [reflexivity|].
  split; [unfold Rminus; reflexivity|]. split; [do 2 apply at_optimum_insert; exact H0|].
  exists lx, ly. split; [rewrite G4 by lia; exact G1|]. auto.
Qed.
(** The contour of level 4 asked for after that of level 2. *)
Lemma contour_stale : exists ps sol', 
  contour_points valley valley_par (point_search 10) 5 5 0 1 4 2 valley_sol 0.1 100 = Ok (ps, sol') /\
  ps = [(8, 10); (10, 8); (12, 10); (10, 12)] /\
  contour_points valley valley_par (point_search 10) 5 5 0 1 4 4 sol' 0.1 100 = Ok (ps, sol').
Proof.
  destruct (valley_contour 4 2 100 4 2 ltac:(lia) (or_introl eq_refl)) as (ps & sol' & H & E & Ho & lx & ly & Hx & Hy & Q1 & Q2 & Q3 & Q4).
  exists ps, sol'. split; [exact H|]. split; [rewrite E; repeat f_equal; lra|].
  assert (I0 : insert_pli 0 lx sol' = sol') by (unfold insert_pli; rewrite Hx; reflexivity).
  assert (I1 : insert_pli 1 ly sol' = sol') by (unfold insert_pli; rewrite Hy; reflexivity).
  rewrite (valley_contour_gen 5 5 100 sol' 4 4 lx ly Ho ltac:(lia)).
  - rewrite I0, I1, Q1, Q2, Q3, Q4, E. unfold Rminus. reflexivity.
  - unfold pli_for. rewrite Hx, I0. reflexivity.
  - unfold pli_for. rewrite I0, Hy, I1. reflexivity.
Qed.

(** A negative minimum: no interval at all. *)
Definition deep (x : list R) : R := valley x - 100.
Definition deep_best : ecand := mkEC [10; 10] (-100).
Definition deep_sol : esol := mkES [deep_best] [deep_best] [[1; 0]; [0; 1]] 20 0 [].
Lemma deep_2 a b : deep [a; b] = Rabs (a - 10) + (Rabs (b - 10) + 0) - 100.
Proof. reflexivity. Qed.
Lemma deep_misses d g : (d = 1 \/ d = -1) ->
  misses deep valley_par (point_search 10) deep_sol (S (S (S g))) 0 (-100) 2 0.1 d [10; 10].
Proof.
  intros Hd. assert (S : exists x e, take_linear_step deep valley_par (S (S (S g))) 0 (-100) 2 0.1 10 true (s_eigv deep_sol) d [10; 10] = Ok (e, [x; 10]) /\ x = 10 + 2 * d).
  { destruct Hd as [-> | ->]; do 2 eexists;
      (split; [unfold take_linear_step; cbn -[Rplus Rminus Rmult Rdiv Ropp Rinv Rabs IZR rlt rle deep step_loop]; rewrite !deep_2; dec; cbn [step_loop]; unfold far;
        repeat (dec; cbn -[Rplus Rminus Rmult Rdiv Ropp Rinv Rabs IZR rlt rle deep]; rewrite ?deep_2); reflexivity|lra]). }
  destruct S as (x & e & Hs & Ex).
  exists e, [x; 10], x. do 2 eexists. split; [exact Hs|]. split; [reflexivity|].
  split; [unfold optimize_pk, optimize_vpk; ev; reflexivity|]. cbn [s_status]. split; [lia|].
  split; [reflexivity|]. cbn [ec_f]. change (deep [x; 10] < 0.1 * -100). rewrite deep_2. subst x.
  destruct Hd as [-> | ->]; repeat match goal with |- context [Rabs ?a] => first [rewrite (Rabs_pos_eq a) by lra | rewrite (Rabs_left1 a) by lra] end; lra.
Qed.
Lemma deep_interval : exists l,
  profile_likelihood deep valley_par (point_search 10) 5 5 deep_sol 0 false 10 2 0.1 100 = Ok (l, insert_pli 0 l deep_sol) /\
  p_min l = 10 /\ p_max l = 10.
Proof.
  apply (pl_miss deep valley_par (point_search 10) deep_sol 5 0 10 2 0.1 100 4 deep_best [10; 10] 10 10); try reflexivity; [lia| |].
  - replace (10 / 10) with 1 by lra. apply deep_misses. auto.
  - replace (- (10) / 10) with (-1) by lra. apply deep_misses. auto.
Qed.
