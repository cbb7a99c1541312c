(** The ranking model of the surrogate (C88), in exact arithmetic.  [n] is the
    dimension; a whitening is a matrix or, for the separable variants, a column. *)
From Coq Require Import Reals List ZArith.
From Verif Require Import Base Dbl Vec Rsvm SpecRsvm SpecRot Demo Kernel SpecKernel KernelProofs.
Import ListNotations.
Local Open Scope R_scope.

(** C88: the model depends on the ranks of the training values only: a strictly
    increasing change of the objective gives the same model and the same
    predictions. *)
Theorem C88_ranks : forall n cval eps draw srt niter ci xmean m c h, comparison_sort srt -> increasing h ->
  surr_train n cval eps draw srt niter ci xmean m (revalue h c) = surr_train n cval eps draw srt niter ci xmean m c /\
  forall test, surr_predict n srt ci xmean m test (revalue h c) = surr_predict n srt ci xmean m test c.
Proof. intros. split; intros; [now apply ranks_train|now apply ranks_predict]. Qed.
Print Assumptions C88_ranks.
Example C88_ranks_case : comparison_sort (@isort) /\ increasing (fun a => match a with Fin z => Fin (2 * z + 1) | _ => a end) /\
  revalue (fun a => match a with Fin z => Fin (2 * z + 1) | _ => a end) tri = [(at0 [0; 0], Fin 11); (at0 [1; 0], Fin 19); (at0 [1; 2], Fin 15)].
Proof. split; [exact isort_comparison|]. split; [exact ranks_case|reflexivity]. Qed.

(** C88: translating, scaling and rotating the points, the mean and the
    whitening leaves the multipliers and every prediction unchanged. *)
Theorem C88_similarity : forall n cval eps draw srt niter b k q a xmean m m' c, comparison_sort srt -> orthogonal n q -> k <> 0 -> c <> [] ->
  same_multipliers k (surr_train n cval eps draw srt niter (Full a) xmean m c)
    (surr_train n cval eps draw srt niter (Full (conj n q a)) (moved n b k q xmean) m' (move_all n b k q c)) /\
  forall g g' al test, g' * (k * k) = g ->
    surr_predict n srt (Full (conj n q a)) (moved n b k q xmean) (g', al) (map (moved n b k q) test) (move_all n b k q c) = surr_predict n srt (Full a) xmean (g, al) test c.
Proof. exact similarity. Qed.
Print Assumptions C88_similarity.
(** The separable variants: translations and scalings. *)
Theorem C88_similarity_sep : forall n cval eps draw srt niter b k v xmean m m' c, comparison_sort srt -> k <> 0 -> c <> [] ->
  same_multipliers k (surr_train n cval eps draw srt niter (Column v) xmean m c)
    (surr_train n cval eps draw srt niter (Column v) (shifted b k xmean) m' (shift_all b k c)) /\
  forall g g' al test, g' * (k * k) = g ->
    surr_predict n srt (Column v) (shifted b k xmean) (g', al) (map (shifted b k) test) (shift_all b k c) = surr_predict n srt (Column v) xmean (g, al) test c.
Proof. exact similarity_column. Qed.
Print Assumptions C88_similarity_sep.
Example C88_similarity_case : orthogonal 2 quarter /\ tri <> [] /\
  exists g al g', surr_train 2 1000000 1 (fun _ => 0) (@isort) 1000 (Full ident) (fun _ => 0) new_model tri = Ok (g, al) /\ length al = 2%nat /\
    surr_train 2 1000000 1 (fun _ => 0) (@isort) 1000 (Full (conj 2 quarter ident)) (moved 2 (fun _ => 7) 3 quarter (fun _ => 0)) new_model (move_all 2 (fun _ => 7) 3 quarter tri) = Ok (g', al) /\ g' * 9 = g.
Proof. exact similarity_case. Qed.

(** C88: similarity of two points is symmetric, between 0 and 1, 1 for equal
    points only, and larger for closer points. *)
Theorem C88_kernel : forall n g x y, 0 < g ->
  rbf_K n g x y = rbf_K n g y x /\ 0 < rbf_K n g x y <= 1 /\ (rbf_K n g x y = 1 <-> same n x y) /\
  forall z, norm n (fun i => x i - y i) < norm n (fun i => x i - z i) <-> rbf_K n g x z < rbf_K n g x y.
Proof. exact kernel_all. Qed.
Print Assumptions C88_kernel.

(** C88: training on two or more points, all different, succeeds, with one
    multiplier for each consecutive pair, between 0 and C i^2, and a positive width. *)
Theorem C88_trained : forall n cval eps draw srt niter ci xmean m c, comparison_sort srt -> 0 <= cval -> (forall i, 0 <= draw i <= 1) ->
  (2 <= length c)%nat -> all_different n (map (fun p => encode n ci xmean (fst p)) c) ->
  exists g al, surr_train n cval eps draw srt niter ci xmean m c = Ok (g, al) /\ 0 < g /\ length al = (length c - 1)%nat /\
    forall i, (i < length al)%nat -> 0 <= nth i al 0 <= cval * (INR (S i) * INR (S i)).
Proof. intros; now apply strain_defined. Qed.
Print Assumptions C88_trained.
Example C88_trained_case : (2 <= length tri)%nat /\ all_different 2 (map (fun p => encode 2 (Full ident) (fun _ => 0) (fst p)) tri).
Proof. split; [repeat constructor|exact tri_different]. Qed.
(** Exactly: two points consecutive in the ranking must differ.  A point that is
    in the training set twice, as an elitist point that is put back, divides by
    zero. *)
Theorem C88_trained_iff : forall n cval eps draw srt niter ci xmean m c, comparison_sort srt -> c <> [] ->
  let x := map fst (srt tcand (fun c1 c2 => dlt (snd c2) (snd c1)) c) in
  (exists m', surr_train n cval eps draw srt niter ci xmean m c = Ok m') <-> (2 <= length c)%nat /\ steps_differ n (map (encode n ci xmean) x).
Proof. exact strain_iff. Qed.
Print Assumptions C88_trained_iff.
Theorem C88_repeated_refuted : exists c, length c = 3%nat /\ (exists p q, In p c /\ In q c /\ ~ same 2 (fst p) (fst q)) /\
  surr_train 2 1000000 1 (fun _ => 0) (@isort) 1000000 (Full ident) (fun _ => 0) new_model c = Fault DivByZero.
Proof. exact repeated. Qed.
Print Assumptions C88_repeated_refuted.

(** C88: one prediction for each candidate, never larger than the sum of the
    multipliers; none, and the candidates keep their values, before training. *)
Theorem C88_predicted : forall n srt ci xmean g al test c r, 0 < g -> (forall i, (i < length al)%nat -> 0 <= nth i al 0) ->
  surr_predict n srt ci xmean (g, al) test c = Ok r ->
  match r with
  | None => al = []
  | Some fit => length fit = length test /\ forall v, In v fit -> Rabs v <= rsum (length al) (fun i => nth i al 0)
  end.
Proof. exact predicted. Qed.
Print Assumptions C88_predicted.
Example C88_predicted_case : exists fit, surr_predict 2 (@isort) (Full ident) (fun _ => 0) (1, [2; 3]) [at0 [4; 4]; at0 [0; 1]] tri = Ok (Some fit).
Proof. exact predicted_case. Qed.

(** C88: a model of two different points ranks them as the objective did: the
    worse point has the larger prediction. *)
Theorem C88_two_points : forall n cval eps draw ci xmean worse better niter, 0 < cval -> 0 < eps -> (forall i, 0 <= draw i <= 1) ->
  ~ same n (encode n ci xmean worse) (encode n ci xmean better) ->
  exists g a u v, rbf_train n cval eps draw ci xmean [worse; better] niter = Ok (g, [a]) /\ 0 < a /\
    rbf_predict n ci xmean (g, [a]) [worse; better] [worse; better] = Ok [u; v] /\ v < u.
Proof. exact two_points. Qed.
Print Assumptions C88_two_points.

(** C88: more iterations of training never make the dual objective worse. *)
Theorem C88_dual : forall n cval eps draw ci xmean x0 x k l g al g' al', 0 <= cval -> (forall i, 0 <= draw i <= 1) -> (k <= l)%Z ->
  rbf_train n cval eps draw ci xmean (x0 :: x) k = Ok (g, al) -> rbf_train n cval eps draw ci xmean (x0 :: x) l = Ok (g', al') ->
  g' = g /\ let d := differences (rbf_K n g) (encode n ci xmean x0) (map (encode n ci xmean) (x0 :: x)) in dual eps d al <= dual eps d al'.
Proof. exact dual_rbf. Qed.
Print Assumptions C88_dual.
