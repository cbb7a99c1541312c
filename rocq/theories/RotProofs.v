(** The search is unchanged by rotations and reflections. *)
From Coq Require Import Reals List Lia Lra Permutation.
From Verif Require Import Base Dbl Vec VecProofs Params Config Search SpecSearch SpecInvar SpecMorph SpecSafe SpecUh SortProofs SearchInv RankProofs MorphProofs Update SpecUpdate UpdateProofs DemoNumProofs SpecAffine AffineProofs ActiveProofs SpecRot.
Import ListNotations.
Local Open Scope R_scope.
Notation mtr := Vec.mt.

Section Orth.
Variables (d : nat) (q : mat).
Hypothesis HQ : orthogonal d q.
Lemma orth_mt : orthogonal d (mtr q).
Proof. destruct HQ as [A B]. split; intros i j Hi Hj; unfold mtr; auto. Qed.
Lemma delta_sum (f : vec) i : (i < d)%nat -> rsum d (fun j => (if Nat.eqb i j then 1 else 0) * f j) = f i.
Proof.
  clear HQ. intros Hi. rewrite (rsum_single d _ i Hi).
  - rewrite Nat.eqb_refl. ring.
  - intros j _ N. destruct (Nat.eqb_spec i j); [congruence|ring].
Qed.
(** q^T (q x) = x *)
Lemma qtq (x : vec) i : (i < d)%nat -> rsum d (fun j => q j i * mv d q x j) = x i.
Proof.
  intros Hi. unfold mv. rewrite (rsum_ext _ _ (fun j => rsum d (fun l => q j i * q j l * x l))).
  2:{ intros j Hj. rewrite <- rsum_scal. apply rsum_ext. intros; ring. }
  rewrite rsum_swap. rewrite <- (delta_sum x i Hi). apply rsum_ext. intros l Hl.
  rewrite <- (proj2 HQ i l Hi Hl). rewrite (rsum_scal_r d (x l)). reflexivity.
Qed.
Lemma qqt (x : vec) i : (i < d)%nat -> mv d q (mv d (mtr q) x) i = x i.
Proof.
  intros Hi. unfold mv, mtr. rewrite (rsum_ext _ _ (fun j => rsum d (fun l => q i j * q l j * x l))).
  2:{ intros j Hj. rewrite <- rsum_scal. apply rsum_ext. intros; ring. }
  rewrite rsum_swap. rewrite <- (delta_sum x i Hi). apply rsum_ext. intros l Hl.
  rewrite <- (proj1 HQ i l Hi Hl). rewrite (rsum_scal_r d (x l)). reflexivity.
Qed.
Lemma rot_dot (x y : vec) : dot d (mv d q x) (mv d q y) = dot d x y.
Proof.
  unfold dot. rewrite (rsum_ext d (fun i => mv d q x i * mv d q y i) (fun i => rsum d (fun l => x l * (q i l * mv d q y i)))).
  2:{ intros i Hi. unfold mv at 1. rewrite <- (rsum_scal_r d (mv d q y i)). apply rsum_ext. intros; ring. }
  rewrite rsum_swap. apply rsum_ext. intros l Hl. rewrite rsum_scal. f_equal. apply qtq, Hl.
Qed.
Lemma rot_norm (x : vec) : norm d (mv d q x) = norm d x.
Proof. unfold norm. now rewrite rot_dot. Qed.

(** Rotated matrices. *)
Lemma conj_ext a b i j : (forall s t, (s < d)%nat -> (t < d)%nat -> a s t = b s t) -> conj d q a i j = conj d q b i j.
Proof using Type. clear HQ. intros H. unfold conj. apply rsum_ext. intros s Hs. f_equal. apply rsum_ext. intros t Ht. now rewrite H. Qed.
Lemma conj_plus a b i j : conj d q (fun s t => a s t + b s t) i j = conj d q a i j + conj d q b i j.
Proof using Type.
  clear HQ. unfold conj. rewrite <- rsum_plus. apply rsum_ext. intros s _. rewrite <- Rmult_plus_distr_l, <- rsum_plus. f_equal. apply rsum_ext. intros; ring.
Qed.
Lemma conj_scal c a i j : conj d q (fun s t => c * a s t) i j = c * conj d q a i j.
Proof using Type.
  clear HQ. unfold conj. rewrite <- rsum_scal. apply rsum_ext. intros s _. rewrite (rsum_ext _ (fun t => c * a s t * q j t) (fun t => c * (a s t * q j t))) by (intros; ring).
  rewrite rsum_scal. ring.
Qed.
Lemma conj_minus a b i j : conj d q (fun s t => a s t - b s t) i j = conj d q a i j - conj d q b i j.
Proof using Type.
  clear HQ. rewrite (conj_ext _ (fun s t => a s t + (-1) * b s t)) by (intros; ring). rewrite conj_plus, conj_scal. ring.
Qed.
Lemma conj_outer (u w : vec) i j : conj d q (fun s t => u s * w t) i j = mv d q u i * mv d q w j.
Proof using Type.
  clear HQ. unfold conj. rewrite (rsum_ext _ _ (fun s => q i s * u s * mv d q w j)).
  - rewrite (rsum_scal_r d (mv d q w j)). reflexivity.
  - intros s _. rewrite (rsum_ext _ (fun t => u s * w t * q j t) (fun t => u s * (q j t * w t))) by (intros; ring). rewrite rsum_scal. unfold mv. ring.
Qed.
Lemma conj_rsum m (f : nat -> mat) i j : conj d q (fun s t => rsum m (fun l => f l s t)) i j = rsum m (fun l => conj d q (f l) i j).
Proof using Type.
  clear HQ. induction m as [|m IH]; cbn [rsum].
  - rewrite (conj_ext _ (fun s t => 0 * 0)) by (intros; ring). rewrite (conj_scal 0 (fun _ _ => 0)). ring.
  - rewrite conj_plus, IH. reflexivity.
Qed.
Lemma conj_mv a (x : vec) i : mv d (conj d q a) (mv d q x) i = mv d q (mv d a x) i.
Proof.
  unfold mv at 1. rewrite (rsum_ext _ _ (fun j => rsum d (fun s => rsum d (fun t => q i s * a s t * (q j t * mv d q x j))))).
  2:{ intros j _. unfold conj. rewrite <- (rsum_scal_r d (mv d q x j)). apply rsum_ext. intros s _.
      rewrite Rmult_assoc, (Rmult_comm (rsum d _) (mv d q x j)), <- rsum_scal, <- rsum_scal. apply rsum_ext. intros; ring. }
  rewrite rsum_swap. unfold mv at 2. apply rsum_ext. intros s Hs. rewrite rsum_swap. unfold mv at 2. rewrite <- rsum_scal. apply rsum_ext. intros t Ht.
  rewrite rsum_scal. rewrite qtq by auto. ring.
Qed.
Lemma conj_col a i j : conj d q a i j = mv d q (fun s => mv d a (q j) s) i.
Proof using Type. reflexivity. Qed.
Lemma conj_mm a b i j : mm d (conj d q a) (conj d q b) i j = conj d q (mm d a b) i j.
Proof.
  rewrite conj_col. change (mm d (conj d q a) (conj d q b) i j) with (mv d (conj d q a) (mv d q (fun s => mv d b (q j) s)) i).
  rewrite conj_mv. apply rsum_ext. intros s _. f_equal. symmetry. apply mv_mm.
Qed.
End Orth.
Lemma basis_mv d a j i : (j < d)%nat -> mv d a (fun t => if Nat.eqb t j then 1 else 0) i = a i j.
Proof.
  intros Hj. unfold mv. rewrite (rsum_single d _ j Hj); [rewrite Nat.eqb_refl; ring|]. intros t _ N. destruct (Nat.eqb_spec t j); [congruence|ring].
Qed.
Lemma conj_conj d q a i j : orthogonal d q -> (i < d)%nat -> (j < d)%nat -> conj d (mtr q) (conj d q a) i j = a i j.
Proof.
  intros HQ Hi Hj. set (b := fun t => if Nat.eqb t j then 1 else 0).
  rewrite conj_col. rewrite (mv_ext d (mtr q) (mtr q) _ (mv d q (mv d a b))); auto.
  - transitivity (rsum d (fun s => q s i * mv d q (mv d a b) s)); [reflexivity|]. rewrite qtq by auto. apply basis_mv, Hj.
  - intros s Hs. rewrite <- (conj_mv d q HQ). apply mv_ext; auto. intros t Ht. change (mtr q j t) with (q t j). symmetry. apply basis_mv, Hj.
Qed.
Lemma conj_conj' d q a i j : orthogonal d q -> (i < d)%nat -> (j < d)%nat -> conj d q (conj d (mtr q) a) i j = a i j.
Proof. intros HQ. exact (conj_conj d (mtr q) a i j (orth_mt d q HQ)). Qed.
Lemma mtab_at d a i j : (i < d)%nat -> (j < d)%nat -> nth j (nth i (mtab d a) []) 0 = a i j.
Proof.
  intros Hi Hj. unfold mtab. rewrite (nth_indep _ [] (tab d (a 0%nat))) by (rewrite map_length, seq_length; auto).
  rewrite (map_nth (fun i => tab d (a i))). rewrite seq_nth by auto. exact (at0_tab d (a i) j Hj).
Qed.
(** The rotated eigensolver on a rotated matrix. *)
Lemma rot_eig_at d q eig a b : orthogonal d q -> (forall i j, (i < d)%nat -> (j < d)%nat -> b i j = conj d q a i j) ->
  rot_eig d q eig (mtab d b) = rot_dec d q (eig (mtab d a)).
Proof.
  intros HQ H. unfold rot_eig. f_equal. f_equal. apply mtab_ext. intros i j Hi Hj.
  rewrite <- (conj_conj d q a i j) by auto. apply conj_ext. intros s t Hs Ht. rewrite mtab_at by auto. auto.
Qed.
Lemma rot_dec_sum d q (dec : vec * mat) (f : nat -> R) i j : 
  rsum d (fun l => snd (rot_dec d q dec) i l * f l * snd (rot_dec d q dec) j l) = conj d q (fun s t => rsum d (fun l => snd dec s l * f l * snd dec t l)) i j.
Proof.
  rewrite (conj_rsum d q d (fun l s t => snd dec s l * f l * snd dec t l)). apply rsum_ext. intros l _.
  rewrite (conj_outer d q (fun s => snd dec s l * f l) (fun t => snd dec t l)).
  unfold rot_dec, mm, mv. cbn [snd]. f_equal. rewrite <- (rsum_scal_r d (f l)). apply rsum_ext. intros; ring.
Qed.
Lemma rot_diagonalises d q a dec : orthogonal d q -> diagonalises d a dec -> diagonalises d (conj d q a) (rot_dec d q dec).
Proof.
  intros HQ (A & B & C). split; [|split]; intros i j Hi Hj.
  - transitivity (dot d (mv d q (fun s => snd dec s i)) (mv d q (fun s => snd dec s j))); [reflexivity|]. rewrite rot_dot by auto. apply A; auto.
  - pose proof (rot_dec_sum d q dec (fun _ => 1) i j) as E.
    rewrite (rsum_ext _ _ (fun l => snd (rot_dec d q dec) i l * 1 * snd (rot_dec d q dec) j l)) by (intros; ring). rewrite E.
    rewrite (conj_ext d q _ (fun s t => if Nat.eqb s t then 1 else 0)).
    + rewrite <- (proj1 HQ i j Hi Hj). unfold conj. apply rsum_ext. intros s Hs. rewrite delta_sum by auto. ring.
    + intros s t Hs Ht. rewrite <- (B s t Hs Ht). apply rsum_ext. intros; ring.
  - change (fst (rot_dec d q dec)) with (fst dec). rewrite rot_dec_sum. apply conj_ext. intros s t Hs Ht. apply C; auto.
Qed.
Lemma conj_sym d q a : symmetric d a -> symmetric d (conj d q a).
Proof.
  intros HS i j Hi Hj. unfold conj.
  rewrite (rsum_ext d (fun s => q i s * rsum d (fun t => a s t * q j t)) (fun s => rsum d (fun t => q i s * a s t * q j t))) by (intros; rewrite <- rsum_scal; apply rsum_ext; intros; ring).
  rewrite rsum_swap. apply rsum_ext. intros t Ht. rewrite <- rsum_scal. apply rsum_ext. intros s Hs. rewrite (HS s t) by auto. ring.
Qed.
Lemma rot_solver_ok p q : orthogonal (k_dim (p_k p)) q -> eigensolver_ok p -> eigensolver_ok (rot_par q p).
Proof.
  intros HQ HE a HS. cbn [rot_par with_source p_k p_eig] in *. set (d := k_dim (p_k p)) in *.
  assert (S1 : symmetric d (conj d (mtr q) a)) by (apply conj_sym, HS).
  rewrite (rot_eig_at d q (p_eig p) (conj d (mtr q) a)); [|auto|intros; symmetry; apply conj_conj'; auto].
  pose proof (rot_diagonalises d q _ _ HQ (HE _ S1)) as (A & B & C). split; [exact A|]. split; [exact B|]. intros i j Hi Hj. rewrite <- C by auto. symmetry. apply conj_conj'; auto.
Qed.

Section Turn.
Variable q : mat.
Let h := rot q.
Variable p : npar.
Let k := p_k p.
Let d := k_dim k.
Variable E' : list (list R) -> vec * mat.
Variable dr : nat -> R.
Let p' := with_source E' dr p.
Variable D : vec * mat -> vec * mat -> Prop.
Hypothesis D_fun : forall dec dec' f i j, D dec dec' -> (i < d)%nat -> (j < d)%nat ->
  rsum d (fun l => snd dec' i l * f (fst dec' l) * snd dec' j l) = conj d q (fun s t => rsum d (fun l => snd dec s l * f (fst dec l) * snd dec t l)) i j.
Hypothesis D_ext : forall dec dec', D dec dec' -> vmax d (fst dec') = vmax d (fst dec) /\ vmin d (fst dec') = vmin d (fst dec).
Hypothesis HQ : orthogonal d q.
Hypothesis HW : good_weights k.
Hypothesis HF : full_matrix p.
Hypothesis HScale : forall x, p_scale p x = x.
Let RR := turned_num D d q.
Lemma rot_len x : length (h x) = length x.
Proof. apply tab_length. Qed.
Lemma rot_at x i : length x = d -> (i < d)%nat -> at0 (h x) i = mv d q (at0 x) i.
Proof. intros L Hi. unfold h, rot. rewrite L. now rewrite at0_tab. Qed.
Lemma rot_tab v : h (tab d v) = tab d (mv d q v).
Proof. unfold h, rot. rewrite tab_length. apply tab_ext. intros i Hi. apply mv_ext; auto. intros j Hj. now apply at0_tab. Qed.
Lemma unrot_rot x : length x = d -> rot (mtr q) (h x) = x.
Proof using HQ.
  intros L. unfold rot at 1. rewrite rot_len, L. rewrite <- (tab_at0 d x L) at 2. apply tab_ext. intros i Hi.
  transitivity (rsum d (fun j => q j i * mv d q (at0 x) j)); [|apply qtq; auto].
  apply rsum_ext. intros j Hj. f_equal. apply rot_at; auto.
Qed.
Lemma rot_nil : h [] = []. Proof. reflexivity. Qed.
Lemma rot_cons x l : h (x :: l) <> []. Proof. discriminate. Qed.
Ltac redp := cbn [p' with_source p_k p_upd p_sigma0 p_lazy p_xtol p_tpac p_epsuh p_eig p_normal p_unif p_scale p_pheno].
Ltac projs := cbn [x_mean x_sigma x_cov x_sep x_v x_psigma x_pc x_tpas x_prev x_smean x_leig x_csqinv x_lvec x_dec x_maxev x_minev x_fresh x_eigiter x_pos x_upos].
Lemma mv_zero i : mv d q (fun _ => 0) i = 0.
Proof. unfold mv. rewrite (rsum_ext _ _ (fun _ => 0)) by (intros; ring). apply rsum_0. Qed.
Lemma conj_zero i j : conj d q (fun _ _ => 0) i j = 0.
Proof. change (fun _ _ : nat => 0) with (fun _ _ : nat => (fun _ : nat => 0) 0%nat). rewrite (conj_ext d q _ (fun s t => 0 * 0)) by (intros; ring). rewrite (conj_scal d q 0 (fun _ _ => 0)). ring. Qed.
Lemma conj_ident i j : (i < d)%nat -> (j < d)%nat -> conj d q ident i j = ident i j.
Proof using HQ.
  intros Hi Hj. unfold ident at 2. unfold diag. rewrite <- (proj1 HQ i j Hi Hj). unfold conj. apply rsum_ext. intros s Hs. f_equal.
  rewrite <- (delta_sum d (q j) s Hs). apply rsum_ext. intros t _. reflexivity.
Qed.
Definition start_stream (n n' : num) : Prop :=
  x_pos n' = x_pos n /\ x_upos n' = x_upos n /\ (forall i, (i < d)%nat -> x_smean n' i = mv d q (x_smean n) i) /\ D (x_dec n) (x_dec n').
Lemma new_rot x0 n n' : length x0 = d -> start_stream n n' -> RR (new_num p x0 n) (new_num p' (h x0) n').
Proof using HQ HF HScale.
  intros L (S1 & S2 & S3 & S4). destruct HF as (F1 & F2 & F3 & F4). unfold RR, turned_num, new_num. projs. redp. rewrite F3.
  assert (M : forall i, (i < d)%nat -> init_mean p' (h x0) i = mv d q (init_mean p x0) i).
  { intros i Hi. unfold init_mean. redp. rewrite !HScale, F4. cbn [put_fixed]. rewrite at0_tab by exact Hi. rewrite rot_at by auto. apply mv_ext; auto. intros j Hj. symmetry. now apply at0_tab. }
  repeat (split; [solve [auto | intros; symmetry; apply mv_zero | intros; symmetry; apply conj_zero | intros; symmetry; apply conj_ident; auto]|]).
  auto.
Qed.
Lemma mu_le' : (k_mu k <= k_lambda k)%nat /\ (1 <= k_lambda k)%nat.
Proof using HW. destruct HW as (_ & H1 & H2 & _). split; lia. Qed.
Lemma mv_plus (u w : vec) i : mv d q (fun j => u j + w j) i = mv d q u i + mv d q w i.
Proof. unfold mv. rewrite <- rsum_plus. apply rsum_ext. intros; ring. Qed.
Lemma mv_scal c (u : vec) i : mv d q (fun j => c * u j) i = c * mv d q u i.
Proof. unfold mv. rewrite <- rsum_scal. apply rsum_ext. intros; ring. Qed.
Lemma mv_minus (u w : vec) i : mv d q (fun j => u j - w j) i = mv d q u i - mv d q w i.
Proof. unfold mv. rewrite <- rsum_minus. apply rsum_ext. intros; ring. Qed.
Lemma mv_sum m (f : nat -> vec) i : mv d q (fun j => rsum m (fun l => f l j)) i = rsum m (fun l => mv d q (f l) i).
Proof. unfold mv. rewrite <- rsum_swap. apply rsum_ext. intros j _. rewrite <- rsum_scal. reflexivity. Qed.

Section Step.
Variables n n' : num.
Hypothesis HR : RR n n'.
Let Rm : forall i, (i < d)%nat -> x_mean n' i = mv d q (x_mean n) i := proj1 HR.
Let Rs : x_sigma n' = x_sigma n := proj1 (proj2 HR).
Let Rcov : forall i j, (i < d)%nat -> (j < d)%nat -> x_cov n' i j = conj d q (x_cov n) i j := proj1 (proj2 (proj2 HR)).
Lemma rest' : (forall i, (i < d)%nat -> x_psigma n' i = mv d q (x_psigma n) i) /\
  (forall i, (i < d)%nat -> x_pc n' i = mv d q (x_pc n) i) /\
  x_tpas n' = x_tpas n /\
  (forall i, (i < d)%nat -> x_prev n' i = mv d q (x_prev n) i) /\
  (forall i, (i < d)%nat -> x_smean n' i = mv d q (x_smean n) i) /\
  (forall i j, (i < d)%nat -> (j < d)%nat -> x_csqinv n' i j = conj d q (x_csqinv n) i j) /\
  D (x_dec n) (x_dec n') /\
  x_maxev n' = x_maxev n /\ x_minev n' = x_minev n /\
  x_fresh n' = x_fresh n /\ x_eigiter n' = x_eigiter n /\ x_pos n' = x_pos n /\ x_upos n' = x_upos n.
Proof. exact (proj2 (proj2 (proj2 HR))). Qed.
Ltac parts := destruct rest' as (Rps & Rpc & Rtp & Rpr & Rsm & Rcs & Rdec & Rmx & Rmn & Rfr & Rei & Rpos & Rup).
Ltac full := destruct HF as (F1 & F2 & F3 & F4); fold k in F2, F3, F4.

Lemma xmean_rot : tab d (x_mean n') = h (tab d (x_mean n)).
Proof. rewrite rot_tab. apply tab_ext. exact Rm. Qed.
Lemma solver_rot f i m m' dc dc' : D dc dc' -> (forall j, (j < d)%nat -> m' j = mv d q m j) -> RR (with_solver n f i m dc) (with_solver n' f i m' dc').
Proof. intros HD H. parts. unfold RR, turned_num, with_solver. projs. repeat split; auto. Qed.
Lemma eigen_rot it : D (p_eig p (mtab d (x_cov n))) (E' (mtab d (x_cov n'))) -> RR (eigen_num p it n) (eigen_num p' it n').
Proof using HR HF.
  intros HE. unfold eigen_num. redp. parts. full. fold k. rewrite F2, F3, Rfr, Rei. cbn [orb].
  destruct (_ || _).
  - apply solver_rot; [exact HE|exact Rm].
  - apply solver_rot; [exact Rdec|exact Rsm].
Qed.
Lemma pos_rot a b : RR (with_pos n a b) (with_pos n' a b).
Proof. parts. unfold RR, turned_num, with_pos. projs. repeat split; auto. Qed.
Lemma sample_col_rot z i : x_dec n' = rot_dec d q (x_dec n) -> (i < d)%nat -> sample_col p' n' z i = mv d q (sample_col p n z) i.
Proof using HR HF.
  intros HD Hi. unfold sample_col. redp. parts. full. fold k d. rewrite HD, Rs, F2, F3. rewrite Rsm by auto.
  rewrite (mv_plus (fun j => mv d (transform (x_dec n)) z j * x_sigma n) (x_smean n)). f_equal.
  rewrite (mv_ext d q q _ (fun j => x_sigma n * mv d (transform (x_dec n)) z j)) by (intros; auto; ring). rewrite mv_scal, Rmult_comm. f_equal.
  rewrite <- mv_mm. apply mv_ext; auto. intros j Hj. unfold transform, rot_dec, mm. cbn [fst snd]. rewrite <- rsum_scal_r. apply rsum_ext. intros; ring.
Qed.
Lemma sample_ext pp m z z' i : p_k pp = k -> (i < d)%nat -> (forall j, (j < d)%nat -> z j = z' j) -> sample_col pp m z i = sample_col pp m z' i.
Proof using HF.
  full. intros E Hi H. unfold sample_col. rewrite E, F2, F3. fold d. f_equal. f_equal. apply mv_ext; auto.
Qed.
Lemma sample_rot m : x_dec n' = rot_dec d q (x_dec n) -> (forall i, dr i = p_normal p i) -> fst (sample_num p' m n') = map h (fst (sample_num p m n)) /\ RR (snd (sample_num p m n)) (snd (sample_num p' m n')).
Proof using HR HF.
  intros HD HN. unfold sample_num. cbn [fst snd]. redp. parts. rewrite Rpos, Rup. split; [|apply pos_rot].
  rewrite map_map. apply map_ext. intros j. rewrite rot_tab. apply tab_ext. intros i Hi. rewrite <- sample_col_rot by auto. apply sample_ext; auto.
Qed.
Lemma diff_rot i : (i < d)%nat -> x_mean n' i - x_prev n' i = mv d q (fun j => x_mean n j - x_prev n j) i.
Proof. intros Hi. parts. rewrite mv_minus, Rm, Rpr by auto. reflexivity. Qed.
Lemma shift_norm_rot : x_dec n' = rot_dec d q (x_dec n) -> shift_norm p' n' = shift_norm p n.
Proof using HR HQ HF.
  intros HD. unfold shift_norm. redp. parts. full. fold k d. rewrite F2, F3, Rs, HD. cbn [orb]. f_equal. apply norm_ext. intros i Hi. change (fst (rot_dec d q (x_dec n))) with (fst (x_dec n)). f_equal.
  unfold mv at 1, mtr at 1. rewrite (rsum_ext _ _ (fun j => snd (rot_dec d q (x_dec n)) j i * mv d q (fun j => x_mean n j - x_prev n j) j)) by (intros j Hj; rewrite diff_rot by auto; reflexivity).
  change (rsum d (fun j => mv d q (fun s => snd (x_dec n) s i) j * mv d q (fun j => x_mean n j - x_prev n j) j) = mv d (mtr (snd (x_dec n))) (fun i0 => x_mean n i0 - x_prev n i0) i).
  exact (rot_dot d q HQ (fun s => snd (x_dec n) s i) (fun j => x_mean n j - x_prev n j)).
Qed.
Lemma tpa_points_rot : x_dec n' = rot_dec d q (x_dec n) -> (forall i, dr i = p_normal p i) ->
  fst (tpa_points p' n') = (h (fst (fst (tpa_points p n))), h (snd (fst (tpa_points p n)))) /\ RR (snd (tpa_points p n)) (snd (tpa_points p' n')).
Proof using HR HQ HF.
  intros HD HN. unfold tpa_points. cbn [fst snd]. rewrite shift_norm_rot by auto. redp. fold k d. parts. rewrite Rpos, Rup. split; [|apply pos_rot].
  rewrite (norm_ext d (fun j => dr (x_pos n + j)%nat) (fun j => p_normal p (x_pos n + j)%nat)) by (intros; apply HN).
  rewrite !rot_tab. set (c := norm d (fun j => p_normal p (x_pos n + j)%nat)). set (s := shift_norm p n).
  f_equal; apply tab_ext; intros i Hi; rewrite diff_rot, Rm by exact Hi.
  - rewrite (mv_plus (x_mean n)). f_equal. rewrite (mv_ext d q q (fun j => c * ((x_mean n j - x_prev n j) / s)) (fun j => c / s * (x_mean n j - x_prev n j))) by (intros; auto; unfold Rdiv; ring). rewrite mv_scal. unfold Rdiv; ring.
  - rewrite (mv_minus (x_mean n) (fun j => c * ((x_mean n j - x_prev n j) / s))). f_equal. rewrite (mv_ext d q q (fun j => c * ((x_mean n j - x_prev n j) / s)) (fun j => c / s * (x_mean n j - x_prev n j))) by (intros; auto; unfold Rdiv; ring). rewrite mv_scal. unfold Rdiv; ring.
Qed.
Lemma coin_rot : fst (coin_num p' n') = fst (coin_num p n) /\ RR (snd (coin_num p n)) (snd (coin_num p' n')).
Proof. unfold coin_num. cbn [fst snd]. redp. parts. rewrite Rpos, Rup. split; [reflexivity|apply pos_rot]. Qed.
Lemma tpa_rot z : RR (tpa_num p z n) (tpa_num p' z n').
Proof. unfold tpa_num. redp. parts. rewrite Rtp. unfold RR, turned_num, with_tpas. projs. repeat split; auto. Qed.
Lemma scale_rot : RR (uh_scale_num p n) (uh_scale_num p' n').
Proof. parts. unfold RR, turned_num, uh_scale_num. redp. projs. repeat split; auto. rewrite Rs. ring. Qed.
Lemma crit_rot c : (c <> 2 /\ c <> 3 /\ c <> 4)%Z -> crit_num p' c n' = crit_num p c n.
Proof.
  intros (C1 & C2 & C3). parts. unfold crit_num.
  destruct (Z.eqb_spec c 2); [tauto|]. destruct (Z.eqb_spec c 3); [tauto|]. destruct (Z.eqb_spec c 4); [tauto|].
  unfold tol_up_sigma, condition_cov. rewrite Rmx, Rmn, Rs. reflexivity.
Qed.

(** Updates. *)
Section Upd.
Variable xs : list (list R).
Hypothesis Hx : Forall (fun x => length x = d) xs.
Hypothesis Hl : length xs = k_lambda k.
Let ys := map h xs.
Lemma pt_rot l i : (l < k_lambda k)%nat -> (i < d)%nat -> pt ys l i = mv d q (pt xs l) i.
Proof using Hx Hl.
  intros H Hi. unfold pt, ys. change (nth l (map h xs) []) with (nth l (map h xs) (h [])). rewrite map_nth. apply rot_at; auto.
  apply (proj1 (Forall_forall _ _) Hx), nth_In. lia.
Qed.
Lemma mean_rot i : (i < d)%nat -> new_mean p' ys n' i = mv d q (new_mean p xs n) i.
Proof using HR Hx Hl HW.
  intros Hi. unfold new_mean. redp. fold k.
  assert (A : rsum (k_mu k) (fun l => wgt p l * pt ys l i) = mv d q (fun c => rsum (k_mu k) (fun l => wgt p l * pt xs l c)) i).
  { rewrite (mv_sum (k_mu k) (fun l c => wgt p l * pt xs l c)). apply rsum_ext. intros l H. rewrite mv_scal. rewrite pt_rot; auto. pose proof mu_le'. lia. }
  destruct (p_upd p); auto.
  rewrite (mv_plus (fun c => rsum (k_mu k) (fun l => wgt p l * (pt xs l c - x_mean n c)) * cm) (x_mean n)). rewrite Rm by auto. f_equal.
  rewrite (mv_ext d q q (fun c => rsum (k_mu k) (fun l => wgt p l * (pt xs l c - x_mean n c)) * cm) (fun c => cm * rsum (k_mu k) (fun l => wgt p l * (pt xs l c - x_mean n c)))) by (intros; auto; ring). rewrite mv_scal, Rmult_comm. f_equal.
  rewrite (mv_sum (k_mu k) (fun l c => wgt p l * (pt xs l c - x_mean n c))). apply rsum_ext. intros l H.
  rewrite (mv_scal (wgt p l) (fun c => pt xs l c - x_mean n c)), (mv_minus (pt xs l) (x_mean n)).
  change (wgt p' l) with (wgt p l). rewrite pt_rot; auto. pose proof mu_le'. lia.
Qed.
Lemma step_rot i : (i < d)%nat -> mean_step p' ys n' i = mv d q (mean_step p xs n) i.
Proof using HR Hx Hl HW.
  intros Hi. unfold mean_step. redp. rewrite Rs, mean_rot, Rm by auto.
  destruct (p_upd p); rewrite (mv_scal _ (fun c => new_mean p xs n c - x_mean n c)), (mv_minus (new_mean p xs n) (x_mean n)); reflexivity.
Qed.
Lemma csq_rot i j : (i < d)%nat -> (j < d)%nat -> new_csqinv p' n' i j = conj d q (new_csqinv p n) i j.
Proof using HR HF D_fun. intros Hi Hj. unfold new_csqinv. redp. parts. full. fold k. rewrite Rfr, F2. destruct (x_fresh n && negb false); auto.
  unfold op_inv_sqrt. redp. fold k d. apply (D_fun _ _ (fun x => sqrt (1 / x))); auto. Qed.
Lemma psigma_rot i : (i < d)%nat -> new_psigma p' ys n' i = mv d q (new_psigma p xs n) i.
Proof using HR Hx Hl HW HQ HF D_fun.
  intros Hi. unfold new_psigma. redp. parts. full. fold k d. rewrite Rps by auto.
  assert (E : mv d (new_csqinv p' n') (mean_step p' ys n') i = mv d q (mv d (new_csqinv p n) (mean_step p xs n)) i).
  { rewrite <- (conj_mv d q HQ). apply mv_ext; [intros; apply csq_rot|intros; apply step_rot]; auto. }
  destruct (p_upd p); [| |congruence]; rewrite F2, E;
  rewrite (mv_plus (fun c => (1 - k_csigma k) * x_psigma n c) (fun c => k_fact_ps k * mv d (new_csqinv p n) (mean_step p xs n) c)); rewrite !mv_scal; reflexivity.
Qed.
Lemma psnorm_rot : norm d (new_psigma p' ys n') = norm d (new_psigma p xs n).
Proof using HR Hx Hl HW HQ HF D_fun. rewrite (norm_ext d _ (mv d q (new_psigma p xs n))) by (intros; apply psigma_rot; auto). apply rot_norm, HQ. Qed.
Lemma hsig_rot it : hsig p' it ys n' = hsig p it xs n.
Proof using HR Hx Hl HW HQ HF D_fun. unfold hsig. redp. fold k d. rewrite psnorm_rot. reflexivity. Qed.
Lemma pc_rot it i : (i < d)%nat -> new_pc p' it ys n' i = mv d q (new_pc p it xs n) i.
Proof using HR Hx Hl HW HQ HF D_fun.
  intros Hi. unfold new_pc. redp. parts. rewrite hsig_rot, Rpc, step_rot by auto. fold k.
  rewrite (mv_plus (fun c => (1 - k_cc k) * x_pc n c) (fun c => hsig p it xs n * k_fact_pc k * mean_step p xs n c)), !mv_scal. reflexivity.
Qed.
Lemma spread_rot qq qq' i j : (i < d)%nat -> (j < d)%nat -> (forall l u, (l < k_mu k)%nat -> (u < d)%nat -> qq' l u = mv d q (qq l) u) ->
  spread p' qq' n' i j = conj d q (spread p qq n) i j.
Proof using HR.
  intros Hi Hj H. unfold spread. redp. fold k. rewrite Rs.
  rewrite (conj_scal d q (1 / (x_sigma n * x_sigma n)) (fun s t => rsum (k_mu k) (fun l => wgt p l * ((qq l s - x_mean n s) * (qq l t - x_mean n t))))). f_equal.
  rewrite (conj_rsum d q (k_mu k) (fun l s t => wgt p l * ((qq l s - x_mean n s) * (qq l t - x_mean n t)))). apply rsum_ext. intros l Hll.
  rewrite (conj_scal d q (wgt p l) (fun s t => (qq l s - x_mean n s) * (qq l t - x_mean n t))). change (wgt p' l) with (wgt p l). f_equal.
  rewrite (conj_outer d q (fun s => qq l s - x_mean n s) (fun t => qq l t - x_mean n t)), !(mv_minus (qq l) (x_mean n)), !H, !Rm by auto. reflexivity.
Qed.
Lemma best_rot l u : (l < k_mu k)%nat -> (u < d)%nat -> best_of ys l u = mv d q (best_of xs l) u.
Proof using HR Hx Hl HW. intros. apply pt_rot; auto. pose proof mu_le'. lia. Qed.
Lemma worst_rot l u : (l < k_mu k)%nat -> (u < d)%nat -> worst_of p' ys l u = mv d q (worst_of p xs l) u.
Proof using HR Hx Hl HW. intros. unfold worst_of. redp. apply pt_rot; auto. fold k. pose proof mu_le'. lia. Qed.
Lemma pcpc_rot it i j : (i < d)%nat -> (j < d)%nat -> new_pc p' it ys n' i * new_pc p' it ys n' j = conj d q (fun s t => new_pc p it xs n s * new_pc p it xs n t) i j.
Proof using HR Hx Hl HW HQ HF D_fun. intros. rewrite conj_outer, !pc_rot by auto. reflexivity. Qed.
Lemma cov_rot it i j : (i < d)%nat -> (j < d)%nat -> rank_mu_cov p' it ys n' i j = conj d q (rank_mu_cov p it xs n) i j.
Proof using HR Hx Hl HW HQ HF D_fun.
  intros Hi Hj. unfold rank_mu_cov, keep_rate. redp. rewrite hsig_rot, Rcov, pcpc_rot by auto. rewrite (spread_rot (best_of xs) (best_of ys)) by auto using best_rot. fold k.
  set (kr := 1 - k_c1 k - k_cmu k + (1 - hsig p it xs n) * k_c1 k * k_cc k * (2 - k_cc k)).
  rewrite (conj_plus d q (fun s t => kr * x_cov n s t + k_c1 k * (new_pc p it xs n s * new_pc p it xs n t)) (fun s t => k_cmu k * spread p (best_of xs) n s t)).
  rewrite (conj_plus d q (fun s t => kr * x_cov n s t) (fun s t => k_c1 k * (new_pc p it xs n s * new_pc p it xs n t))).
  rewrite (conj_scal d q kr (x_cov n)), (conj_scal d q (k_c1 k) (fun s t => new_pc p it xs n s * new_pc p it xs n t)), (conj_scal d q (k_cmu k) (spread p (best_of xs) n)). reflexivity.
Qed.
Lemma worst_spread_rot i j : (i < d)%nat -> (j < d)%nat -> spread p' (worst_of p' ys) n' i j = conj d q (spread p (worst_of p xs) n) i j.
Proof using HR Hx Hl HW. intros. apply spread_rot; auto. apply worst_rot. Qed.
Definition whitened : mat := mm d (mm d (new_csqinv p n) (spread p (worst_of p xs) n)) (new_csqinv p n).
Definition same_max : Prop := forall b, (forall i j, (i < d)%nat -> (j < d)%nat -> b i j = conj d q whitened i j) ->
  vmax d (fst (E' (mtab d b))) = vmax d (fst (p_eig p (mtab d whitened))).
Lemma cminus_rot : same_max -> cminus p' ys n' = cminus p xs n.
Proof using HR Hx Hl HW HQ HF D_fun.
  intros HM. unfold cminus. cbv zeta.
  assert (E : cminus_denom p' ys n' = cminus_denom p xs n).
  { unfold cminus_denom. redp. full. fold k d. rewrite F2. apply HM.
    intros i j Hi Hj. unfold whitened. rewrite <- (conj_mm d q HQ). apply rsum_ext. intros l Hll. rewrite csq_rot by auto. f_equal.
    rewrite <- (conj_mm d q HQ). apply rsum_ext. intros m Hm. rewrite csq_rot, worst_spread_rot by auto. reflexivity. }
  rewrite E. reflexivity.
Qed.
Lemma acov_rot it i j : same_max -> (i < d)%nat -> (j < d)%nat -> active_cov p' it ys n' i j = conj d q (active_cov p it xs n) i j.
Proof using HR Hx Hl HW HQ HF D_fun.
  intros HM Hi Hj. unfold active_cov. rewrite cminus_rot by auto. redp. rewrite Rcov, pcpc_rot, worst_spread_rot by auto. rewrite (spread_rot (best_of xs) (best_of ys)) by auto using best_rot. fold k.
  set (c0 := 1 - k_c1 k - k_cmu k + cminus p xs n * 0.5). set (c2 := k_cmu k + cminus p xs n * (1 - 0.5)). set (c3 := cminus p xs n).
  rewrite (conj_minus d q (fun s t => c0 * x_cov n s t + k_c1 k * (new_pc p it xs n s * new_pc p it xs n t) + c2 * spread p (best_of xs) n s t) (fun s t => c3 * spread p (worst_of p xs) n s t)).
  rewrite (conj_plus d q (fun s t => c0 * x_cov n s t + k_c1 k * (new_pc p it xs n s * new_pc p it xs n t)) (fun s t => c2 * spread p (best_of xs) n s t)).
  rewrite (conj_plus d q (fun s t => c0 * x_cov n s t) (fun s t => k_c1 k * (new_pc p it xs n s * new_pc p it xs n t))).
  rewrite (conj_scal d q c0 (x_cov n)), (conj_scal d q (k_c1 k) (fun s t => new_pc p it xs n s * new_pc p it xs n t)), (conj_scal d q c2 (spread p (best_of xs) n)), (conj_scal d q c3 (spread p (worst_of p xs) n)). reflexivity.
Qed.
Lemma sigma_rot it : new_sigma p' it ys n' = new_sigma p it xs n.
Proof using HR Hx Hl HW HQ HF D_fun. unfold new_sigma. redp. parts. fold k d. rewrite psnorm_rot, Rs, Rtp. reflexivity. Qed.
Lemma update_rot it : (p_upd p = Active -> same_max) -> RR (update_num p it xs n) (update_num p' it ys n').
Proof using HR Hx Hl HW HQ HF D_fun D_ext.
  intros HM. parts. full. unfold RR, turned_num, update_num. projs. redp. fold k d. rewrite F2, F3. cbn [orb].
  destruct (D_ext _ _ Rdec) as [V1 V2].
  split; [apply mean_rot|]. split; [apply sigma_rot|]. split; [intros i j Hi Hj; destruct (p_upd p); auto using cov_rot, acov_rot; congruence|].
  split; [apply psigma_rot|]. split; [intros; apply pc_rot; auto|].
  split; [auto|]. split; [intros i Hi; destruct (p_upd p); try destruct (k_tpa k =? 0)%Z; auto|]. split; [auto|].
  split; [intros i j Hi Hj; destruct (p_upd p); auto using csq_rot|]. repeat split; auto.
Qed.
End Upd.
End Step.

End Turn.
