(** The surrogate's ranking model. *)
From Coq Require Import Reals List ZArith Lia Lra Permutation FunctionalExtensionality.
From Verif Require Import Base Dbl Vec VecProofs Search SearchInv StopProofs Rsvm SpecRsvm RsvmProofs RsvmDual SpecAffine AffineProofs SpecRot RotProofs Demo DemoProofs Kernel SpecKernel.
Import ListNotations.
Local Open Scope R_scope.

(** Kernel. *)
Lemma sqdist_nonneg n x y : 0 <= sqdist n x y.
Proof. apply dot_self_nonneg. Qed.
Lemma sqdist_sym n x y : sqdist n x y = sqdist n y x.
Proof. unfold sqdist, dot. apply rsum_ext. intros; ring. Qed.
Lemma sqdist_zero n x y : sqdist n x y = 0 <-> same n x y.
Proof.
  split.
  - intros H i Hi. pose proof (dot_self_zero n (fun i => x i - y i) H i Hi). cbn beta in H0. lra.
  - intros H. unfold sqdist, dot. rewrite (rsum_ext n _ (fun _ => 0)), rsum_0; auto. intros i Hi. rewrite (H i Hi). ring.
Qed.
Lemma rbf_sym n g x y : rbf_K n g x y = rbf_K n g y x.
Proof. unfold rbf_K. now rewrite sqdist_sym. Qed.
Lemma rbf_range n g x y : 0 < g -> 0 < rbf_K n g x y <= 1.
Proof.
  intros Hg. unfold rbf_K. split; [apply exp_pos|]. pose proof (sqdist_nonneg n x y). rewrite <- exp_0.
  assert (- g * sqdist n x y <= 0) by nra. destruct H0 as [L|E]; [left; now apply exp_increasing|rewrite E; lra].
Qed.
Lemma rbf_one n g x y : 0 < g -> rbf_K n g x y = 1 <-> same n x y.
Proof.
  intros Hg. rewrite <- sqdist_zero. unfold rbf_K. rewrite <- exp_0 at 1. split.
  - intros E. apply exp_inv in E. nra.
  - intros ->. f_equal. ring.
Qed.
Lemma rbf_self n g x : rbf_K n g x x = 1.
Proof. unfold rbf_K. rewrite (proj2 (sqdist_zero n x x)) by (intros i _; reflexivity). rewrite Rmult_0_r. apply exp_0. Qed.
Lemma kernel_facts n g x y : 0 < g -> rbf_K n g x y = rbf_K n g y x /\ 0 < rbf_K n g x y <= 1 /\ (rbf_K n g x y = 1 <-> same n x y).
Proof. intros H. split; [apply rbf_sym|]. split; [now apply rbf_range|now apply rbf_one]. Qed.
Lemma kernel_order n g x y z : 0 < g -> sqdist n x y < sqdist n x z <-> rbf_K n g x z < rbf_K n g x y.
Proof.
  intros H. unfold rbf_K. split.
  - intros L. apply exp_increasing. nra.
  - intros L. apply exp_lt_inv in L. nra.
Qed.

(** The width. *)
Lemma dist_sqdist n x y : norm n (fun c => x c - y c) = sqrt (sqdist n x y).
Proof. reflexivity. Qed.
Lemma sumdist_nonneg n x : 0 <= sumdist n x.
Proof. apply rsum_nonneg. intros i _. apply rsum_nonneg. intros k _. apply sqrt_pos. Qed.
Lemma sumdist_pos n x i : (S i < length x)%nat -> ~ same n (nth i x (fun _ => 0)) (nth (S i) x (fun _ => 0)) -> 0 < sumdist n x.
Proof.
  intros Hi D. unfold sumdist. apply (rsum_pos (length x) _ i); [lia| |intros; apply rsum_nonneg; intros; apply sqrt_pos].
  apply (rsum_pos (length x - S i) _ 0%nat); [lia| |intros; apply sqrt_pos]. rewrite Nat.add_0_r. rewrite dist_sqdist. apply sqrt_lt_R0.
  pose proof (sqdist_nonneg n (nth i x (fun _ => 0)) (nth (S i) x (fun _ => 0))). destruct H as [|E]; auto. exfalso. apply D, sqdist_zero. auto.
Qed.
Lemma den_zero m : / 2 * (INR m * (INR m - 1)) = 0 <-> (m < 2)%nat.
Proof.
  split.
  - intros H. assert (INR m = 0 \/ INR m = 1) as [E|E].
    { apply Rmult_integral in H. destruct H; [lra|]. apply Rmult_integral in H. destruct H; [left; auto|right; lra]. }
    + apply (INR_eq m 0) in E. lia.
    + apply (INR_eq m 1) in E. lia.
  - intros H. destruct m as [|[|m]]; [cbn; ring|cbn; ring|lia].
Qed.
Lemma den_pos m : (2 <= m)%nat -> 0 < / 2 * (INR m * (INR m - 1)).
Proof. intros H. apply le_INR in H. cbn in H. apply Rmult_lt_0_compat; [lra|]. apply Rmult_lt_0_compat; lra. Qed.
Lemma init_ok n x : (2 <= length x)%nat -> 0 < sumdist n x -> exists g, rbf_init n x = Ok g /\ 0 < g.
Proof.
  intros L S. unfold rbf_init. destruct Req_EM_T as [E|E]; [apply den_zero in E; lia|]. pose proof (den_pos _ L) as D.
  set (s := sumdist n x / _). assert (0 < s) by (now apply Rdiv_lt_0_compat). assert (0 < 2 * (1 * s) * (1 * s)) by nra.
  destruct Req_EM_T as [E'|E']; [lra|]. eexists. split; [reflexivity|]. apply Rdiv_lt_0_compat; lra.
Qed.
Lemma init_pos n x g : rbf_init n x = Ok g -> (2 <= length x)%nat /\ 0 < g.
Proof.
  unfold rbf_init. destruct Req_EM_T as [E|E]; [discriminate|]. assert (L : (2 <= length x)%nat) by (destruct (le_lt_dec 2 (length x)); auto; exfalso; apply E, den_zero; lia).
  set (s := sumdist n x / _). destruct Req_EM_T as [E'|E']; [discriminate|]. intros Q. apply Ok_inj in Q. subst g. split; auto.
  apply Rdiv_lt_0_compat; [lra|]. assert (2 * (1 * s) * (1 * s) = 2 * Rsqr s) by (unfold Rsqr; ring). rewrite H in *. assert (0 <= Rsqr s) by apply Rle_0_sqr. lra.
Qed.

Section Model.
Variable n : nat.
Variables cval eps : R.
Variable draw : nat -> R.
Variable srt : forall A : Type, (A -> A -> bool) -> list A -> list A.
Notation rtrain := (rbf_train n cval eps draw).
Notation strain := (surr_train n cval eps draw srt).
Notation spredict := (surr_predict n srt).

Lemma dii_eq g xs i : (S i < length xs)%nat -> rbf_dii n g xs i = 2 * (1 - rbf_K n g (nth i xs (fun _ => 0)) (nth (S i) xs (fun _ => 0))).
Proof.
  intros _. unfold rbf_dii, dK. cbn [a_add a_sub exact]. rewrite !rbf_self. rewrite (rbf_sym n g (nth (S i) _ _)). ring.
Qed.
Definition divisors_ok (g : R) (xs : list vec) : bool := forallb (fun i => if Req_EM_T (rbf_dii n g xs i) 0 then false else true) (seq 0 (length xs - 1)).
Lemma nth_error_nth2 {A} (l : list A) i d x : nth_error l i = Some x -> nth i l d = x.
Proof. intros H. now apply nth_error_nth. Qed.
Lemma divisors_spec g xs : 0 < g -> divisors_ok g xs = true <-> steps_differ n xs.
Proof.
  intros Hg. unfold divisors_ok. rewrite forallb_forall. split.
  - intros H i x y Hx Hy Sm. assert (B : (S i < length xs)%nat) by (apply nth_error_Some; congruence).
    specialize (H i). destruct Req_EM_T as [E|E]; [rewrite in_seq in H; assert (F : false = true) by (apply H; lia); discriminate|].
    apply E. rewrite dii_eq by auto. rewrite (nth_error_nth2 _ _ _ _ Hx), (nth_error_nth2 _ _ _ _ Hy). apply (rbf_one n g) in Sm; auto. rewrite Sm. ring.
  - intros H i Hi. apply in_seq in Hi. destruct Req_EM_T as [E|E]; auto. exfalso. rewrite dii_eq in E by lia.
    apply (H i (nth i xs (fun _ => 0)) (nth (S i) xs (fun _ => 0))); [apply nth_error_nth'; lia|apply nth_error_nth'; lia|]. apply (rbf_one n g); auto. lra.
Qed.
Lemma steps_sumdist xs : (2 <= length xs)%nat -> steps_differ n xs -> 0 < sumdist n xs.
Proof.
  intros L H. apply (sumdist_pos n xs 0%nat); [exact L|]. apply (H 0%nat); apply nth_error_nth'; unfold vec in *; lia.
Qed.
Lemma rtrain_unfold ci xm x niter : rtrain ci xm x niter =
  match x with [] => Fault OutOfRange | _ => do g <- rbf_init n (map (encode n ci xm) x);
    do _ <- (if divisors_ok g (map (encode n ci xm) x) then Ok tt else Fault DivByZero);
    do alpha <- train exact cval eps draw (rbf_K n g) (encode n ci xm) x niter; Ok (g, alpha) end.
Proof. unfold rbf_train. fold (divisors_ok). destruct x; reflexivity. Qed.
Lemma rtrain_defined ci xm x niter : (exists m, rtrain ci xm x niter = Ok m) <-> (2 <= length x)%nat /\ steps_differ n (map (encode n ci xm) x).
Proof.
  rewrite rtrain_unfold. split.
  - intros [m H]. destruct x as [|x0 x]; [discriminate|]. inv_do H. apply init_pos in H0. rewrite map_length in H0. destruct H0 as [L P]. split; auto.
    destruct (divisors_ok a _) eqn:E; [|discriminate]. apply divisors_spec in E; auto.
  - intros [L H]. destruct x as [|x0 x]; [cbn in L; lia|]. destruct (init_ok n (map (encode n ci xm) (x0 :: x))) as (g & E & P).
    { now rewrite map_length. } { apply steps_sumdist; auto. now rewrite map_length. }
    rewrite E. cbn [bind]. rewrite (proj2 (divisors_spec g _ P) H). cbn [bind].
    destruct (train_ok vec R exact cval eps draw (rbf_K n g) (encode n ci xm) (x0 :: x) niter L) as [al T]. rewrite T. cbn [bind]. eauto.
Qed.
(** What training returns. *)
Lemma diff_dii g x0 ys i : (S i < length ys)%nat -> differences (rbf_K n g) x0 ys i i = rbf_dii n g ys i.
Proof.
  intros B. unfold differences, rbf_dii, dK. cbn [a_add a_sub exact]. rewrite !(nth_indep ys x0 (fun _ => 0)) by lia. reflexivity.
Qed.
Lemma diff_pos g x0 ys i : 0 < g -> steps_differ n ys -> (S i < length ys)%nat -> 0 < differences (rbf_K n g) x0 ys i i.
Proof.
  intros P H B. rewrite diff_dii, dii_eq by auto. pose proof (rbf_range n g (nth i ys (fun _ => 0)) (nth (S i) ys (fun _ => 0)) P).
  assert (rbf_K n g (nth i ys (fun _ => 0)) (nth (S i) ys (fun _ => 0)) <> 1); [|lra].
  intros E. apply rbf_one in E; auto. apply (H i) in E; auto; apply nth_error_nth'; lia.
Qed.
Lemma diff_sym g x0 ys i j : differences (rbf_K n g) x0 ys i j = differences (rbf_K n g) x0 ys j i.
Proof. unfold differences. rewrite (rbf_sym n g (nth (S i) _ _) (nth j _ _)), (rbf_sym n g (nth i _ _) (nth (S j) _ _)), (rbf_sym n g (nth i _ _) (nth j _ _)), (rbf_sym n g (nth (S i) _ _) (nth (S j) _ _)). ring. Qed.
Lemma rtrain_facts ci xm x niter g al : 0 <= cval -> (forall i, 0 <= draw i <= 1) -> rtrain ci xm x niter = Ok (g, al) ->
  0 < g /\ length al = (length x - 1)%nat /\ forall i, (i < length al)%nat -> 0 <= nth i al 0 <= cval * (INR (S i) * INR (S i)).
Proof.
  intros Hc Hu H. assert (D : steps_differ n (map (encode n ci xm) x)) by (apply (rtrain_defined ci xm x niter); eauto).
  rewrite rtrain_unfold in H. destruct x as [|x0 x]; [discriminate|]. inv_do H. apply init_pos in H0. destruct H0 as [L P].
  inv_do H. clear H0. inv_do H. apply Ok_inj in H. inversion H; subst g a1; clear H. split; auto.
  rewrite train_unfold in H0. cbv zeta in H0. inv_do H0. apply Ok_inj in H0. subst al.
  set (ys := map (encode n ci xm) (x0 :: x)) in *. assert (Ly : length ys = S (length x)) by (unfold ys; rewrite map_length; reflexivity).
  destruct (steps_dual eps (differences (rbf_K n a) (encode n ci xm x0) ys) (length x) (weights_C exact cval (length x))) with (5 := H) as ((A1 & _ & _) & (_ & A2) & _).
  - apply diff_sym.
  - intros i Hi. apply diff_pos; auto. lia.
  - cbn [fst snd]. assert (Ls : length (start_alpha exact draw (weights_C exact cval (length x))) = length x) by (rewrite start_length; apply weights_length).
    pose proof (start_sums_ok eps (differences (rbf_K n a) (encode n ci xm x0) ys) (start_alpha exact draw (weights_C exact cval (length x)))) as Q. rewrite Ls in Q. exact Q.
  - cbn [fst]. apply start_box_R; auto.
  - split; [rewrite A1; cbn [length]; lia|]. intros i Hi. rewrite A1 in Hi. specialize (A2 i Hi). rewrite (nth_of (weights_C _ _ _)), weights_nth in A2 by auto. exact A2.
Qed.
Lemma rtrain_dual ci xm x0 x k l g al g' al' : 0 <= cval -> (forall i, 0 <= draw i <= 1) -> (k <= l)%Z ->
  rtrain ci xm (x0 :: x) k = Ok (g, al) -> rtrain ci xm (x0 :: x) l = Ok (g', al') ->
  g' = g /\ let d := differences (rbf_K n g) (encode n ci xm x0) (map (encode n ci xm) (x0 :: x)) in dual eps d al <= dual eps d al'.
Proof.
  intros Hc Hu Kl H H'. assert (D : steps_differ n (map (encode n ci xm) (x0 :: x))) by (apply (rtrain_defined ci xm (x0 :: x) k); eauto).
  rewrite rtrain_unfold in H, H'. inv_do H. pose proof (init_pos _ _ _ H0) as [L P]. rewrite H0 in H'. cbn [bind] in H'.
  inv_do H. clear H1. inv_do H. apply Ok_inj in H. inversion H; subst a a1; clear H.
  inv_do H'. clear H. inv_do H'. apply Ok_inj in H'. inversion H'; subst g' a1; clear H'. split; auto. cbv zeta.
  eapply dual_improves with (k := k) (l := l); eauto.
  - intros; apply rbf_sym.
  - intros i Hi. apply diff_pos; auto. rewrite map_length. cbn [length]. lia.
Qed.

(** Prediction. *)
Lemma fold_bound : forall (al : list R) (kv : list (R * R)) s, (forall i, (i < length al)%nat -> 0 <= nth i al 0) ->
  (forall p, In p kv -> 0 < fst p <= 1 /\ 0 < snd p <= 1) ->
  Rabs (fold_left (fun s p => s + fst p * (fst (snd p) - snd (snd p))) (combine al kv) s - s) <= rsum (length al) (fun i => nth i al 0).
Proof.
  induction al as [|a al IH]; intros kv s Ha Hk; cbn [combine fold_left].
  - rewrite Rminus_diag_eq, Rabs_R0 by reflexivity. cbn. lra.
  - assert (Ha' : forall i, (i < length al)%nat -> 0 <= nth i al 0) by (intros i Hi; apply (Ha (S i)); cbn; lia).
    cbn [length]. rewrite rsum_S_l. cbn [nth]. pose proof (Ha 0%nat ltac:(cbn; lia)) as A0. cbn [nth] in A0.
    destruct kv as [|p kv]; cbn [fold_left].
    + rewrite Rminus_diag_eq, Rabs_R0 by reflexivity. pose proof (rsum_nonneg (length al) (fun i => nth i al 0) Ha'). lra.
    + cbn [fst snd]. specialize (IH kv (s + a * (fst p - snd p)) Ha'). destruct (Hk p) as [K1 K2]; [now left|].
      assert (B : Rabs (a * (fst p - snd p)) <= a).
      { rewrite Rabs_mult, (Rabs_pos_eq a) by auto. assert (Rabs (fst p - snd p) <= 1) by (apply Rabs_le; lra). pose proof (Rabs_pos (fst p - snd p)). nra. }
      set (r := fold_left _ _ _) in *. replace (r - s) with ((r - (s + a * (fst p - snd p))) + a * (fst p - snd p)) by ring.
      eapply Rle_trans; [apply Rabs_triang|]. assert (Rabs (r - (s + a * (fst p - snd p))) <= rsum (length al) (fun i => nth i al 0)) by (apply IH; intros q Hq; apply Hk; now right). lra.
Qed.

Lemma combine_tl_in {A} (l : list A) p : In p (combine l (tl l)) -> In (fst p) l /\ In (snd p) l.
Proof.
  intros H. destruct p as [a b]. pose proof (in_combine_l _ _ _ _ H). pose proof (in_combine_r _ _ _ _ H) as R1. split; auto. destruct l; [destruct H|right; exact R1].
Qed.
Lemma predict_one_bound g al tr x v : 0 < g -> (forall i, (i < length al)%nat -> 0 <= nth i al 0) -> predict_one exact (rbf_K n g) al tr x = Ok v ->
  Rabs v <= rsum (length al) (fun i => nth i al 0).
Proof.
  intros Hg Ha H. unfold predict_one in H. destruct (Nat.ltb _ _); [discriminate|]. apply Ok_inj in H. subst v. cbn [a_add a_mul a_sub a_0 exact].
  set (kv := combine (map _ tr) _). pose proof (fold_bound al kv 0 Ha) as B. rewrite Rminus_0_r in B. apply B.
  intros p Hp. unfold kv in Hp. apply combine_tl_in in Hp. destruct Hp as [P1 P2]. apply in_map_iff in P1, P2. destruct P1 as (y & <- & _), P2 as (z & <- & _).
  split; apply rbf_range; auto.
Qed.
Lemma to_mat_ok c x : to_mat srt c = Ok x -> x = map fst (srt tcand (fun c1 c2 => dlt (snd c2) (snd c1)) c).
Proof. unfold to_mat. destruct (srt _ _ _); [discriminate|]. intros H. apply Ok_inj in H. auto. Qed.
Lemma spredict_facts ci xm g al test c r : 0 < g -> (forall i, (i < length al)%nat -> 0 <= nth i al 0) ->
  spredict ci xm (g, al) test c = Ok r ->
  match r with
  | None => al = []
  | Some fit => length fit = length test /\ forall v, In v fit -> Rabs v <= rsum (length al) (fun i => nth i al 0)
  end.
Proof.
  intros Hg Ha H. unfold surr_predict in H. destruct test as [|t0 test]; [discriminate|]. inv_do H. clear H0. inv_do H. unfold rbf_predict in H0. cbn [fst snd] in H0. unfold predict in H0.
  destruct al as [|a0' al'].
  - apply Ok_inj in H0. subst a0. apply Ok_inj in H. subst r. reflexivity.
  - pose proof (mapM_length _ _ _ H0) as L. rewrite map_length in L. destruct a0 as [|v0 fit]; [discriminate|]. apply Ok_inj in H. subst r. split; [exact L|].
    intros v Hv. destruct (mapM_in _ _ _ _ H0 Hv) as (y & _ & Q). eapply predict_one_bound; eauto.
Qed.

(** Training of the surrogate. *)
Hypothesis HS : comparison_sort srt.
Lemma sorted_len c : length (srt tcand (fun c1 c2 => dlt (snd c2) (snd c1)) c) = length c.
Proof. apply Permutation_length, HS. Qed.
Lemma strain_unfold niter ci xm m p c : strain niter ci xm m (p :: c) = rtrain ci xm (map fst (srt tcand (fun c1 c2 => dlt (snd c2) (snd c1)) (p :: c))) niter.
Proof.
  unfold surr_train, to_mat. pose proof (sorted_len (p :: c)) as L. destruct (srt tcand _ (p :: c)); [discriminate|]. reflexivity.
Qed.
Lemma all_different_perm l l' : Permutation l l' -> all_different n l -> all_different n l'.
Proof using Type.
  clear HS. intros P. induction P as [|x l l' P IH|x y l|l l' l'' P1 IH1 P2 IH2]; auto.
  - intros H i j a b Ha Hb NE. destruct i as [|i], j as [|j]; cbn [nth_error] in *; [lia| | |].
    + injection Ha as <-. assert (In b l) as Q by (eapply Permutation_in; [symmetry; exact P|]; eapply nth_error_In; eauto). apply In_nth_error in Q. destruct Q as [k Q]. apply (H 0%nat (S k)); auto.
    + injection Hb as <-. assert (In a l) as Q by (eapply Permutation_in; [symmetry; exact P|]; eapply nth_error_In; eauto). apply In_nth_error in Q. destruct Q as [k Q]. apply (H (S k) 0%nat); auto.
    + apply (IH ltac:(intros i' j' a' b' A' B' N'; apply (H (S i') (S j')); auto) i j); auto.
  - intros H i j a b Ha Hb NE. set (sw := fun k => match k with O => 1%nat | S O => 0%nat | k => k end).
    assert (E : forall k, nth_error (y :: x :: l) (sw k) = nth_error (x :: y :: l) k) by (intros [|[|k]]; reflexivity).
    apply (H (sw i) (sw j)); rewrite ?E; auto. destruct i as [|[|i]], j as [|[|j]]; cbn; lia.
Qed.
Lemma all_steps l : all_different n l -> steps_differ n l.
Proof using Type. clear HS. intros H i x y A B. apply (H i (S i)); auto. Qed.
Lemma strain_defined niter ci xm m c : 0 <= cval -> (forall i, 0 <= draw i <= 1) -> (2 <= length c)%nat -> all_different n (map (fun p => encode n ci xm (fst p)) c) ->
  exists g al, strain niter ci xm m c = Ok (g, al) /\ 0 < g /\ length al = (length c - 1)%nat /\
    forall i, (i < length al)%nat -> 0 <= nth i al 0 <= cval * (INR (S i) * INR (S i)).
Proof.
  intros Hc Hu L D. destruct c as [|p c]; [cbn in L; lia|]. rewrite strain_unfold. set (x := map fst (srt tcand (fun c1 c2 => dlt (snd c2) (snd c1)) (p :: c))).
  assert (Lx : length x = length (p :: c)) by (unfold x; rewrite map_length; apply sorted_len).
  destruct (proj2 (rtrain_defined ci xm x niter)) as [[g al] T].
  { split; [lia|]. apply all_steps. eapply all_different_perm; [|exact D]. unfold x. rewrite map_map. apply Permutation_map. symmetry. apply HS. }
  exists g, al. split; auto. destruct (rtrain_facts _ _ _ _ _ _ Hc Hu T) as (G & L' & B). rewrite Lx in L'. auto.
Qed.
(** Ranks. *)
Lemma revalue_sorted h c : increasing h -> map fst (srt tcand (fun c1 c2 => dlt (snd c2) (snd c1)) (revalue h c)) = map fst (srt tcand (fun c1 c2 => dlt (snd c2) (snd c1)) c).
Proof.
  intros Hh. unfold revalue. rewrite (proj2 HS tcand tcand (fun p => (fst p, h (snd p))) (fun c1 c2 => dlt (snd c2) (snd c1))) by (intros; apply Hh).
  rewrite map_map. apply map_ext. reflexivity.
Qed.
Lemma to_mat_len c : to_mat srt c = match c with [] => Fault OutOfRange | _ => Ok (map fst (srt tcand (fun c1 c2 => dlt (snd c2) (snd c1)) c)) end.
Proof.
  unfold to_mat. pose proof (sorted_len c) as L. destruct (srt _ _ _), c; cbn in L; try lia; reflexivity.
Qed.
Lemma ranks_train h niter ci xm m c : increasing h -> strain niter ci xm m (revalue h c) = strain niter ci xm m c.
Proof.
  intros Hh. pose proof (revalue_sorted h c Hh) as E. destruct c as [|p c]; [reflexivity|]. rewrite strain_unfold. cbn [revalue map] in *. rewrite strain_unfold. exact (f_equal (fun x => rtrain ci xm x niter) E).
Qed.
Lemma ranks_predict h ci xm m test c : increasing h -> spredict ci xm m test (revalue h c) = spredict ci xm m test c.
Proof.
  intros Hh. pose proof (revalue_sorted h c Hh) as E. unfold surr_predict. rewrite !to_mat_len, E. destruct c; reflexivity.
Qed.
End Model.

(** Similarities. *)
Section Sim.
Variable n : nat.
Variables (enc enc' : vec -> vec) (h : vec -> vec) (k : R).
Hypothesis Hk : k <> 0.
Hypothesis HE : forall x y, sqdist n (enc' (h x)) (enc' (h y)) = k * k * sqdist n (enc x) (enc y).
Lemma nth_map_in (e : vec -> vec) x i : (i < length x)%nat -> nth i (map e x) (fun _ => 0) = e (nth i x (fun _ => 0)).
Proof using Type. clear. intros H. rewrite (nth_indep _ _ (e (fun _ => 0))) by (now rewrite map_length). apply map_nth. Qed.
Lemma sim_sumdist x : sumdist n (map enc' (map h x)) = Rabs k * sumdist n (map enc x).
Proof.
  unfold sumdist. rewrite !map_length. rewrite <- rsum_scal. apply rsum_ext. intros i Hi. rewrite <- rsum_scal. apply rsum_ext. intros j Hj.
  rewrite !dist_sqdist, map_map. rewrite !nth_map_in by (unfold vec in *; lia). cbv beta.
  rewrite HE, sqrt_mult_alt by nra. f_equal. change (k * k) with (Rsqr k). apply sqrt_Rsqr_abs.
Qed.
Lemma sim_init x : match rbf_init n (map enc x), rbf_init n (map enc' (map h x)) with
  | Ok g, Ok g' => g' * (k * k) = g
  | Fault f, Fault f' => f = f'
  | _, _ => False end.
Proof.
  unfold rbf_init. rewrite sim_sumdist, !map_length. destruct Req_EM_T as [E|E]; [reflexivity|]. set (s := sumdist _ _). set (d := / 2 * _) in *.
  assert (Ek : Rabs k * Rabs k = k * k) by (rewrite <- Rabs_mult; apply Rabs_pos_eq; nra).
  assert (Q : 2 * (1 * (Rabs k * s / d)) * (1 * (Rabs k * s / d)) = k * k * (2 * (1 * (s / d)) * (1 * (s / d)))) by (rewrite <- Ek; field; auto).
  rewrite Q. clear Q. set (t := 2 * (1 * (s / d)) * _) in *. assert (k * k <> 0) by (intros Z; apply Hk; nra).
  destruct (Req_EM_T t 0) as [Z|Z], (Req_EM_T (k * k * t) 0) as [Z'|Z']; auto.
  - apply Z'. rewrite Z. ring.
  - apply Rmult_integral in Z'. tauto.
  - field. auto.
Qed.
Lemma sim_K g g' x y : g' * (k * k) = g -> rbf_K n g' (enc' (h x)) (enc' (h y)) = rbf_K n g (enc x) (enc y).
Proof. intros E. unfold rbf_K. f_equal. rewrite HE, <- E. ring. Qed.
Lemma sim_divisors g g' x : g' * (k * k) = g -> divisors_ok n g' (map enc' (map h x)) = divisors_ok n g (map enc x).
Proof.
  intros E. unfold divisors_ok. rewrite !map_length. apply forallb_ext_in. intros i Hi. apply in_seq in Hi.
  assert (Q : rbf_dii n g' (map enc' (map h x)) i = rbf_dii n g (map enc x) i); [|now rewrite Q].
  rewrite !dii_eq by (rewrite !map_length; unfold vec in *; lia). rewrite map_map, !nth_map_in by (unfold vec in *; lia).
  cbv beta. now rewrite (sim_K g g').
Qed.
End Sim.
Lemma train_ext (X : Type) cval eps draw kernel kernel' (enc enc' h : X -> X) x niter : (forall a b, kernel' (enc' (h a)) (enc' (h b)) = kernel (enc a) (enc b)) ->
  train exact cval eps draw kernel' enc' (map h x) niter = train exact cval eps draw kernel enc x niter.
Proof.
  intros H. destruct x as [|x0 x]; [reflexivity|]. cbn [map]. rewrite !train_unfold. cbv zeta. rewrite map_length.
  assert (E : differences kernel' (enc' (h x0)) (map enc' (h x0 :: map h x)) = differences kernel (enc x0) (map enc (x0 :: x))); [|now rewrite E].
  apply functional_extensionality; intros i. apply functional_extensionality; intros j. unfold differences.
  change (h x0 :: map h x) with (map h (x0 :: x)). rewrite map_map. rewrite !(map_nth (fun x => enc' (h x)) (x0 :: x) x0), !(map_nth enc (x0 :: x) x0). now rewrite !H.
Qed.
Lemma mapM_ext' {A B C} (f : A -> res C) (g : B -> res C) (h : A -> B) l : (forall a, g (h a) = f a) -> mapM g (map h l) = mapM f l.
Proof. intros H. induction l as [|a l IH]; cbn [map mapM]; auto. now rewrite H, IH. Qed.
Lemma mapM_map {A B C} (f : B -> res C) (g : A -> B) l : mapM f (map g l) = mapM (fun a => f (g a)) l.
Proof. apply mapM_ext'. reflexivity. Qed.
Lemma predict_ext (X : Type) kernel kernel' (enc enc' h : X -> X) al test x : (forall a b, kernel' (enc' (h a)) (enc' (h b)) = kernel (enc a) (enc b)) ->
  predict exact kernel' enc' al (map h test) (map h x) = predict exact kernel enc al test x.
Proof.
  intros H. unfold predict. destruct al as [|a al]; auto. rewrite !map_map, !mapM_map. f_equal. apply functional_extensionality. intros t.
  unfold predict_one. rewrite !map_map. rewrite (map_ext (fun y => kernel' (enc' (h t)) (enc' (h y))) (fun y => kernel (enc t) (enc y))) by (intros; apply H). reflexivity.
Qed.
Section SimModel.
Variable n : nat.
Variables cval eps : R.
Variable draw : nat -> R.
Variable srt : forall A : Type, (A -> A -> bool) -> list A -> list A.
Hypothesis HS : comparison_sort srt.
Variables (ci ci' : covinv) (xm xm' : vec) (h : vec -> vec) (k : R).
Hypothesis Hk : k <> 0.
Hypothesis HE : forall x y, sqdist n (encode n ci' xm' (h x)) (encode n ci' xm' (h y)) = k * k * sqdist n (encode n ci xm x) (encode n ci xm y).
Definition hall (c : list tcand) : list tcand := map (fun p => (h (fst p), snd p)) c.
Lemma hall_sorted c : map fst (srt tcand (fun c1 c2 => dlt (snd c2) (snd c1)) (hall c)) = map h (map fst (srt tcand (fun c1 c2 => dlt (snd c2) (snd c1)) c)).
Proof.
  unfold hall. rewrite (proj2 HS tcand tcand (fun p => (h (fst p), snd p)) (fun c1 c2 => dlt (snd c2) (snd c1))) by reflexivity.
  rewrite !map_map. apply map_ext. reflexivity.
Qed.
Lemma sim_rtrain x niter : same_multipliers k (rbf_train n cval eps draw ci xm x niter) (rbf_train n cval eps draw ci' xm' (map h x) niter).
Proof.
  rewrite !rtrain_unfold. destruct x as [|x0 x]; [reflexivity|]. cbn [map]. change (encode n ci xm x0 :: map (encode n ci xm) x) with (map (encode n ci xm) (x0 :: x)).
  change (encode n ci' xm' (h x0) :: map (encode n ci' xm') (map h x)) with (map (encode n ci' xm') (map h (x0 :: x))). change (h x0 :: map h x) with (map h (x0 :: x)).
  pose proof (sim_init n (encode n ci xm) (encode n ci' xm') h k Hk HE (x0 :: x)) as I.
  destruct (rbf_init n (map (encode n ci xm) (x0 :: x))) as [g|f], (rbf_init n (map (encode n ci' xm') (map h (x0 :: x)))) as [g'|f']; try contradiction; cbn [bind].
  2:{ exact I. }
  rewrite (sim_divisors n (encode n ci xm) (encode n ci' xm') h k HE g g' _ I). destruct (divisors_ok n g _); cbn [bind]; [|reflexivity].
  rewrite (train_ext vec cval eps draw (rbf_K n g) (rbf_K n g') (encode n ci xm) (encode n ci' xm') h).
  2:{ intros a b. apply (sim_K n (encode n ci xm) (encode n ci' xm') h k HE g g'). exact I. }
  destruct (train exact cval eps draw (rbf_K n g) (encode n ci xm) (x0 :: x) niter); cbn; auto.
Qed.
Lemma sim_train niter m m' c : c <> [] -> same_multipliers k (surr_train n cval eps draw srt niter ci xm m c) (surr_train n cval eps draw srt niter ci' xm' m' (hall c)).
Proof.
  intros NE. pose proof (hall_sorted c) as E. destruct c as [|p c]; [contradiction|]. rewrite strain_unfold by auto. cbn [hall map] in *. rewrite strain_unfold by auto.
  pose proof (sim_rtrain (map fst (srt tcand (fun c1 c2 => dlt (snd c2) (snd c1)) (p :: c))) niter) as Q.
  rewrite <- E in Q. exact Q.
Qed.
Lemma sim_predict g g' al test c : g' * (k * k) = g -> surr_predict n srt ci' xm' (g', al) (map h test) (hall c) = surr_predict n srt ci xm (g, al) test c.
Proof.
  intros G. pose proof (hall_sorted c) as E. unfold surr_predict. rewrite !to_mat_len by auto.
  destruct test as [|t test]; [reflexivity|]. cbn [map]. change (h t :: map h test) with (map h (t :: test)).
  destruct c as [|p c]; [reflexivity|]. cbn [hall map] in *. cbn [bind]. rewrite E. unfold rbf_predict. cbn [fst snd]. change (h t :: map h test) with (map h (t :: test)).
  rewrite (predict_ext vec (rbf_K n g) (rbf_K n g') (encode n ci xm) (encode n ci' xm') h); auto.
  intros a b. now apply (sim_K n (encode n ci xm) (encode n ci' xm') h k HE g g').
Qed.
End SimModel.
Lemma sqdist_scaled n x y x' y' k : (forall i, (i < n)%nat -> x' i - y' i = k * (x i - y i)) -> sqdist n x' y' = k * k * sqdist n x y.
Proof. intros H. unfold sqdist, dot. rewrite <- rsum_scal. apply rsum_ext. intros i Hi. rewrite (H i Hi). ring. Qed.
Lemma mv_sub n (q : mat) (u w : vec) i : mv n q (fun j => u j - w j) i = mv n q u i - mv n q w i.
Proof. unfold mv. rewrite (rsum_ext n _ (fun j => q i j * u j + (-1) * (q i j * w j))) by (intros; ring). rewrite rsum_plus, rsum_scal. ring. Qed.
Lemma full_sim n b k q a xm x y : orthogonal n q ->
  sqdist n (encode n (Full (conj n q a)) (moved n b k q xm) (moved n b k q x)) (encode n (Full (conj n q a)) (moved n b k q xm) (moved n b k q y)) = k * k * sqdist n (encode n (Full a) xm x) (encode n (Full a) xm y).
Proof.
  intros O. cbn [encode].
  assert (E : forall z, mv n (conj n q a) (fun i => moved n b k q z i - moved n b k q xm i) = fun i => k * mv n q (mv n a (fun i => z i - xm i)) i).
  { intros z. apply functional_extensionality. intros i. unfold moved.
    assert (L : forall j, b j + k * mv n q z j - (b j + k * mv n q xm j) = k * mv n q (fun i => z i - xm i) j).
    { intros j. rewrite (mv_sub n q z xm). ring. }
    unfold mv at 1. rewrite (rsum_ext n _ (fun j => k * (conj n q a i j * mv n q (fun i => z i - xm i) j))) by (intros j _; rewrite L; ring).
    rewrite rsum_scal. f_equal. apply (conj_mv n q O). }
  rewrite !E.
  transitivity (k * k * sqdist n (mv n q (mv n a (fun i => x i - xm i))) (mv n q (mv n a (fun i => y i - xm i)))).
  { apply sqdist_scaled. intros; ring. }
  f_equal. unfold sqdist at 1. rewrite (dot_ext n _ (mv n q (fun i => mv n a (fun i => x i - xm i) i - mv n a (fun i => y i - xm i) i)) _ (mv n q (fun i => mv n a (fun i => x i - xm i) i - mv n a (fun i => y i - xm i) i))).
  - now rewrite (rot_dot n q O).
  - intros i _. now rewrite (mv_sub n q).
  - intros i _. now rewrite (mv_sub n q).
Qed.
Lemma column_sim n b k v xm x y :
  sqdist n (encode n (Column v) (shifted b k xm) (shifted b k x)) (encode n (Column v) (shifted b k xm) (shifted b k y)) = k * k * sqdist n (encode n (Column v) xm x) (encode n (Column v) xm y).
Proof. apply sqdist_scaled. intros i _. cbn [encode]. unfold shifted. ring. Qed.
Lemma similarity n cval eps draw srt niter b k q a xm m m' c : comparison_sort srt -> orthogonal n q -> k <> 0 -> c <> [] ->
  same_multipliers k (surr_train n cval eps draw srt niter (Full a) xm m c)
    (surr_train n cval eps draw srt niter (Full (conj n q a)) (moved n b k q xm) m' (move_all n b k q c)) /\
  forall g g' al test, g' * (k * k) = g ->
    surr_predict n srt (Full (conj n q a)) (moved n b k q xm) (g', al) (map (moved n b k q) test) (move_all n b k q c) = surr_predict n srt (Full a) xm (g, al) test c.
Proof.
  intros HS O Hk NE. split.
  - apply (sim_train n cval eps draw srt HS (Full a) (Full (conj n q a)) xm (moved n b k q xm) (moved n b k q) k Hk); auto. intros; apply full_sim, O.
  - intros g g' al test G. apply (sim_predict n srt HS (Full a) (Full (conj n q a)) xm (moved n b k q xm) (moved n b k q) k); auto. intros; apply full_sim, O.
Qed.
Lemma similarity_column n cval eps draw srt niter b k v xm m m' c : comparison_sort srt -> k <> 0 -> c <> [] ->
  same_multipliers k (surr_train n cval eps draw srt niter (Column v) xm m c)
    (surr_train n cval eps draw srt niter (Column v) (shifted b k xm) m' (shift_all b k c)) /\
  forall g g' al test, g' * (k * k) = g ->
    surr_predict n srt (Column v) (shifted b k xm) (g', al) (map (shifted b k) test) (shift_all b k c) = surr_predict n srt (Column v) xm (g, al) test c.
Proof.
  intros HS Hk NE. split.
  - apply (sim_train n cval eps draw srt HS (Column v) (Column v) xm (shifted b k xm) (shifted b k) k Hk); auto. intros; apply column_sim.
  - intros g g' al test G. apply (sim_predict n srt HS (Column v) (Column v) xm (shifted b k xm) (shifted b k) k); auto. intros; apply column_sim.
Qed.

(** Two points. *)
Lemma one_step eps d c i a sm : 0 < d 0%nat 0%nat -> 0 < eps -> 0 < c -> 0 < a -> a + sm = eps / d 0%nat 0%nat ->
  exists a' sm', opt_step exact eps d [c] i ([a], [sm]) = Ok ([a'], [sm']) /\ 0 < a' /\ a' + sm' = eps / d 0%nat 0%nat.
Proof.
  intros Hd He Hc Ha E. unfold opt_step. cbn [length]. rewrite Nat.mod_1_r. cbn [nth_error a_add a_lt a_0 a_sub a_mul a_half exact].
  set (new := a_max exact _ _). assert (P : 0 < new).
  { unfold new, a_max, a_min. cbn [a_lt exact]. rewrite E. assert (0 < eps / d 0%nat 0%nat) by (now apply Rdiv_lt_0_compat).
    destruct (Rltb c (eps / d 0%nat 0%nat)); cbv iota; unfold Rltb; destruct Rlt_dec; lra. }
  destruct Rltb; cbn [firstn skipn app seq combine map fst snd]; do 2 eexists; (split; [reflexivity|]); split; auto. cbn [a_div exact]. rewrite <- E. field. lra.
Qed.
Lemma one_steps eps d c : 0 < d 0%nat 0%nat -> 0 < eps -> 0 < c -> forall k i a sm, 0 < a -> a + sm = eps / d 0%nat 0%nat ->
  exists a' sm', opt_steps exact eps d [c] i k ([a], [sm]) = Ok ([a'], [sm']) /\ 0 < a'.
Proof.
  intros Hd He Hc. induction k as [|k IH]; intros i a sm Ha E; cbn [opt_steps]; [eauto|].
  destruct (one_step eps d c i a sm Hd He Hc Ha E) as (a' & sm' & Q & A & B). rewrite Q. cbn [bind]. apply IH; auto.
Qed.
Lemma two_points n cval eps draw ci xm x0 x1 niter : 0 < cval -> 0 < eps -> (forall i, 0 <= draw i <= 1) ->
  ~ same n (encode n ci xm x0) (encode n ci xm x1) ->
  exists g a u v, rbf_train n cval eps draw ci xm [x0; x1] niter = Ok (g, [a]) /\ 0 < a /\
    rbf_predict n ci xm (g, [a]) [x0; x1] [x0; x1] = Ok [u; v] /\ v < u.
Proof.
  intros Hc He Hu D. assert (SD : steps_differ n (map (encode n ci xm) [x0; x1])).
  { intros i x y Hx Hy. destruct i as [|[|i]]; cbn in Hx, Hy; try discriminate. injection Hx as <-. injection Hy as <-. exact D. }
  destruct (proj2 (rtrain_defined n cval eps draw ci xm [x0; x1] niter)) as [[g al] T]; [split; [cbn; lia|exact SD]|].
  pose proof (rtrain_facts n cval eps draw ci xm [x0; x1] niter g al ltac:(lra) Hu T) as (G & _ & _).
  assert (A : exists a, al = [a] /\ 0 < a).
  { rewrite rtrain_unfold in T. inv_do T. clear H. inv_do T. clear H. inv_do T. apply Ok_inj in T. inversion T; subst a a1; clear T.
    rewrite train_unfold in H. cbv zeta in H. set (dd := differences _ _ _) in *. assert (P : 0 < dd 0%nat 0%nat) by (apply diff_pos; auto; cbn; lia).
    cbn [length] in H. change (weights_C exact cval 1) with [cval * (1 * 1)] in H. unfold start_alpha in H. cbn [length seq combine map fst snd] in H. cbn [a_mul a_add a_95 a_05 exact] in H.
    set (a := cval * (1 * 1) * (95 / 100 + 5 / 100 * draw 0%nat)) in *. pose proof (Hu 0%nat) as U0.
    assert (Pa : 0 < a) by (unfold a; apply Rmult_lt_0_compat; lra).
    destruct (one_steps eps dd (cval * (1 * 1)) P He ltac:(lra) (Z.to_nat niter) 0%nat a ((eps - (0 + a * dd 0%nat 0%nat)) / dd 0%nat 0%nat) Pa) as (a' & sm' & Q & A).
    { field. lra. }
    unfold start_sums in H. cbn [length seq combine map fst snd fold_left a_add a_mul a_sub a_div a_0 exact] in H. rewrite Q in H. cbn [bind fst] in H. apply Ok_inj in H. subst al. eauto. }
  destruct A as (a & -> & Pa). exists g, a. do 2 eexists. split; [exact T|]. split; [exact Pa|]. split.
  - unfold rbf_predict, predict. cbn [snd fst map mapM]. unfold predict_one. cbn [map length Nat.sub Nat.ltb Nat.leb combine tl fold_left fst snd bind]. reflexivity.
  - cbn [a_add a_mul a_sub a_0 exact]. rewrite !rbf_self, (rbf_sym n g (encode n ci xm x1)). pose proof (rbf_range n g (encode n ci xm x0) (encode n ci xm x1) G).
    assert (rbf_K n g (encode n ci xm x0) (encode n ci xm x1) <> 1) by (intros E; apply rbf_one in E; auto). nra.
Qed.

(** isort is such a sort. *)
Lemma ins_map {A B} (h : A -> B) cmp cmp' : (forall a b, cmp' (h a) (h b) = cmp a b) -> forall l a, ins cmp' (h a) (map h l) = map h (ins cmp a l).
Proof. intros H. induction l as [|b l IH]; intros a; cbn [map ins]; auto. rewrite H. destruct (cmp _ _); cbn [map]; auto. now rewrite IH. Qed.
Lemma isort_comparison : comparison_sort (@isort).
Proof.
  split; [intros; apply isort_perm|]. intros A B h cmp cmp' l H. induction l as [|a l IH]; cbn [map isort]; auto. rewrite IH. now apply ins_map.
Qed.
(** The only way to fail with a point is a division by zero. *)
Lemma rtrain_fault n cval eps draw ci xm x niter f : rbf_train n cval eps draw ci xm x niter = Fault f -> x <> [] -> f = DivByZero.
Proof.
  rewrite rtrain_unfold. destruct x as [|x0 x]; [contradiction|]. intros H _. destruct (rbf_init _ _) as [g|f0] eqn:I; cbn [bind] in H.
  - destruct (init_pos _ _ _ I) as [L _]. rewrite map_length in L. destruct (divisors_ok _ _ _); cbn [bind] in H; [|now inversion H].
    destruct (train_ok vec R exact cval eps draw (rbf_K n g) (encode n ci xm) (x0 :: x) niter L) as [al T]. rewrite T in H. discriminate.
  - unfold rbf_init in I. inversion H; subst f0; clear H. destruct Req_EM_T in I; [now inversion I|]. destruct Req_EM_T in I; now inversion I.
Qed.
Lemma strain_iff n cval eps draw srt niter ci xm m c : comparison_sort srt -> c <> [] ->
  let x := map fst (srt tcand (fun c1 c2 => dlt (snd c2) (snd c1)) c) in
  (exists m', surr_train n cval eps draw srt niter ci xm m c = Ok m') <-> (2 <= length c)%nat /\ steps_differ n (map (encode n ci xm) x).
Proof.
  intros HS NE x. destruct c as [|p c]; [contradiction|]. rewrite strain_unfold by auto. fold x. rewrite rtrain_defined.
  assert (L : length x = length (p :: c)) by (unfold x; rewrite map_length; now apply sorted_len). rewrite L. reflexivity.
Qed.
Definition rp1 : vec := fun _ => 0.
Definition rp2 : vec := fun _ => 1.
Lemma repeated : exists c, length c = 3%nat /\ (exists p q, In p c /\ In q c /\ ~ same 2 (fst p) (fst q)) /\
  surr_train 2 1000000 1 (fun _ => 0) (@isort) 1000000 (Full ident) (fun _ => 0) new_model c = Fault DivByZero.
Proof.
  exists [(rp1, Fin 3); (rp2, Fin 2); (rp1, Fin 3)]. split; [reflexivity|]. split.
  - exists (rp1, Fin 3), (rp2, Fin 2). split; [now left|]. split; [right; now left|]. intros S. specialize (S 0%nat ltac:(lia)). unfold rp1, rp2 in S. cbn in S. lra.
  - rewrite strain_unfold by apply isort_comparison.
    change (map fst (isort _ _)) with [rp1; rp1; rp2].
    match goal with |- ?t = _ => destruct t eqn:E end.
    + exfalso. destruct (proj1 (rtrain_defined 2 1000000 1 (fun _ => 0) (Full ident) (fun _ => 0) [rp1; rp1; rp2] 1000000) (ex_intro _ _ E)) as [_ D].
      apply (D 0%nat (encode 2 (Full ident) (fun _ => 0) rp1) (encode 2 (Full ident) (fun _ => 0) rp1)); auto. intros i _. reflexivity.
    + apply rtrain_fault in E; [now subst|discriminate].
Qed.


(** Three points of the plane. *)
Definition tri : list tcand := [(at0 [0; 0], Fin 5); (at0 [1; 0], Fin 9); (at0 [1; 2], Fin 7)].
Lemma encode_ident n xm x : same n (encode n (Full ident) xm x) (fun i => x i - xm i).
Proof.
  intros i Hi. cbn [encode]. unfold mv, ident, diag. rewrite (rsum_single n _ i Hi).
  - rewrite Nat.eqb_refl. ring.
  - intros j _ N. destruct (Nat.eqb_spec i j); [congruence|ring].
Qed.
Lemma tri_different : all_different 2 (map (fun p => encode 2 (Full ident) (fun _ => 0) (fst p)) tri).
Proof.
  assert (E : forall x y, same 2 (encode 2 (Full ident) (fun _ => 0) x) (encode 2 (Full ident) (fun _ => 0) y) -> x 0%nat = y 0%nat /\ x 1%nat = y 1%nat).
  { intros x y S. assert (forall i, (i < 2)%nat -> x i = y i); [|split; apply H; lia]. intros i Hi. specialize (S i Hi). rewrite !(encode_ident 2 _ _ i Hi) in S. lra. }
  intros i j x y Hx Hy NE S. unfold tri in Hx, Hy. cbn [map fst] in Hx, Hy.
  destruct i as [|[|[|i]]], j as [|[|[|j]]]; try lia; try (destruct i; discriminate Hx); try (destruct j; discriminate Hy);
    cbn [nth_error] in Hx, Hy; injection Hx as <-; injection Hy as <-; apply E in S; unfold at0 in S; cbn [nth] in S; destruct S; lra.
Qed.
Lemma ranks_case : increasing (fun a => match a with Fin z => Fin (2 * z + 1) | _ => a end).
Proof. intros [| |a|] [| |b|]; cbn [dlt]; auto. apply Bool.eq_true_iff_eq. rewrite !Z.ltb_lt. lia. Qed.
Lemma kernel_all n g x y : 0 < g ->
  rbf_K n g x y = rbf_K n g y x /\ 0 < rbf_K n g x y <= 1 /\ (rbf_K n g x y = 1 <-> same n x y) /\
  forall z, norm n (fun i => x i - y i) < norm n (fun i => x i - z i) <-> rbf_K n g x z < rbf_K n g x y.
Proof.
  intros H. destruct (kernel_facts n g x y H) as (A & B & C). split; [exact A|]. split; [exact B|]. split; [exact C|]. intros z. rewrite <- kernel_order by auto.
  rewrite !dist_sqdist. split; [|intros L; apply sqrt_lt_1; auto; apply sqdist_nonneg]. intros L. apply sqrt_lt_0_alt, L.
Qed.
(** A quarter turn. *)
Definition quarter : mat := fun i j => match i, j with O, S O => -1 | S O, O => 1 | _, _ => 0 end.
Lemma quarter_orthogonal : orthogonal 2 quarter.
Proof.
  split; intros i j Hi Hj; (destruct i as [|[|i]]; [| |lia]); (destruct j as [|[|j]]; [| |lia]); cbn; ring.
Qed.
Lemma similarity_case : orthogonal 2 quarter /\ tri <> [] /\
  exists g al g', surr_train 2 1000000 1 (fun _ => 0) (@isort) 1000 (Full ident) (fun _ => 0) new_model tri = Ok (g, al) /\ length al = 2%nat /\
    surr_train 2 1000000 1 (fun _ => 0) (@isort) 1000 (Full (conj 2 quarter ident)) (moved 2 (fun _ => 7) 3 quarter (fun _ => 0)) new_model (move_all 2 (fun _ => 7) 3 quarter tri) = Ok (g', al) /\ g' * 9 = g.
Proof.
  split; [exact quarter_orthogonal|]. split; [discriminate|].
  assert (U : forall i : nat, 0 <= (fun _ : nat => 0) i <= 1) by (intros; lra).
  destruct (strain_defined 2 1000000 1 (fun _ => 0) (@isort) isort_comparison 1000 (Full ident) (fun _ => 0) new_model tri ltac:(lra) U ltac:(cbn; lia) tri_different) as (g & al & T & _ & L & _).
  pose proof (proj1 (similarity 2 1000000 1 (fun _ => 0) (@isort) 1000 (fun _ => 7) 3 quarter ident (fun _ => 0) new_model new_model tri isort_comparison quarter_orthogonal ltac:(lra) ltac:(discriminate))) as S.
  rewrite T in S. unfold same_multipliers in S. destruct (surr_train 2 1000000 1 (fun _ => 0) (@isort) 1000 (Full (conj 2 quarter ident)) _ new_model _) as [[g' al']|]; [|contradiction].
  destruct S as [E1 E2]. subst al'. exists g, al, g'. split; [exact T|]. split; [exact L|]. split; [reflexivity|lra].
Qed.
Lemma predicted n srt ci xm g al test c r : 0 < g -> (forall i, (i < length al)%nat -> 0 <= nth i al 0) ->
  surr_predict n srt ci xm (g, al) test c = Ok r ->
  match r with
  | None => al = []
  | Some fit => length fit = length test /\ forall v, In v fit -> Rabs v <= rsum (length al) (fun i => nth i al 0)
  end.
Proof. apply spredict_facts; auto. Qed.
Lemma predicted_case : exists fit, surr_predict 2 (@isort) (Full ident) (fun _ => 0) (1, [2; 3]) [at0 [4; 4]; at0 [0; 1]] tri = Ok (Some fit).
Proof. eexists. unfold surr_predict, to_mat. change (isort _ tri) with [(at0 [1; 0], Fin 9); (at0 [1; 2], Fin 7); (at0 [0; 0], Fin 5)].
  cbn [bind map fst]. unfold rbf_predict, predict. cbn [snd fst map mapM]. unfold predict_one. cbn [map length Nat.sub Nat.ltb Nat.leb bind]. reflexivity. Qed.
Lemma dual_rbf n cval eps draw ci xm x0 x k l g al g' al' : 0 <= cval -> (forall i, 0 <= draw i <= 1) -> (k <= l)%Z ->
  rbf_train n cval eps draw ci xm (x0 :: x) k = Ok (g, al) -> rbf_train n cval eps draw ci xm (x0 :: x) l = Ok (g', al') ->
  g' = g /\ let d := differences (rbf_K n g) (encode n ci xm x0) (map (encode n ci xm) (x0 :: x)) in dual eps d al <= dual eps d al'.
Proof. apply rtrain_dual. Qed.
