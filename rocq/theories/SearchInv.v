(** Effects of the operations and an induction principle for histories. *)
From Coq Require Import Permutation.
From Verif Require Import Base Dbl DblProofs Config Search SpecSearch SortProofs.
Local Open Scope Z_scope.

Ltac inv_do H :=
  match type of H with
  | bind _ _ = Ok _ =>
      let a := fresh "a" in let H1 := fresh "H" in
      apply bind_ok in H; destruct H as (a & H1 & H)
  end.

(** vector access *)
Lemma at_ok {A} (l : list A) i a : at_ l i = Ok a <-> 0 <= i /\ nth_error l (Z.to_nat i) = Some a.
Proof.
  unfold at_. destruct (Z.ltb_spec i 0); [split; [discriminate|lia]|].
  destruct (nth_error l (Z.to_nat i)) eqn:E; split; intros H1; try discriminate.
  - injection H1 as ->; auto.
  - destruct H1 as [_ H1]; injection H1 as ->; auto.
  - destruct H1; discriminate.
Qed.
Lemma at_in {A} (l : list A) i : 0 <= i < Z.of_nat (length l) -> exists a, at_ l i = Ok a /\ nth_error l (Z.to_nat i) = Some a.
Proof.
  intros H. destruct (nth_error l (Z.to_nat i)) eqn:E.
  - exists a; split; auto. apply at_ok; split; [lia|auto].
  - apply nth_error_None in E. lia.
Qed.
Lemma upd_at_ok {A} (l : list A) i a l' : upd_at l i a = Ok l' <->
  0 <= i < Z.of_nat (length l) /\ l' = firstn (Z.to_nat i) l ++ a :: skipn (S (Z.to_nat i)) l.
Proof.
  unfold upd_at. destruct (Z.ltb_spec i 0), (Z.leb_spec (Z.of_nat (length l)) i); cbn [orb]; split; try discriminate; try (intros [? _]; lia).
  - intros Q; injection Q as <-. split; [lia|auto].
  - intros [_ ->]; auto.
Qed.
Lemma upd_at_in {A} (l : list A) i a : 0 <= i < Z.of_nat (length l) -> exists l', upd_at l i a = Ok l'.
Proof. intros H. eexists. apply upd_at_ok. split; [exact H|reflexivity]. Qed.
Lemma upd_at_length {A} (l : list A) i a l' : upd_at l i a = Ok l' -> length l' = length l.
Proof.
  intros H. apply upd_at_ok in H as [H ->].
  rewrite app_length, firstn_length; cbn [length]; rewrite skipn_length. lia.
Qed.
Lemma nth_error_upd {A} (l : list A) i a j : (i < length l)%nat ->
  nth_error (firstn i l ++ a :: skipn (S i) l) j = if (j =? i)%nat then Some a else nth_error l j.
Proof.
  intros H. destruct (Nat.eqb_spec j i) as [->|Hj].
  - rewrite nth_error_app2; rewrite firstn_length_le by lia; [|lia]. now rewrite Nat.sub_diag.
  - destruct (Nat.lt_ge_cases j i).
    + rewrite nth_error_app1 by (rewrite firstn_length_le; lia). apply nth_error_firstn'; auto.
    + rewrite nth_error_app2; rewrite firstn_length_le by lia; [|lia].
      destruct (j - i)%nat as [|k] eqn:E; [lia|]. cbn [nth_error]. rewrite nth_error_skipn'. f_equal; lia.
Qed.
Lemma upd_at_in_inv {A} (l : list A) i a l' x : upd_at l i a = Ok l' -> In x l' -> x = a \/ In x l.
Proof.
  intros H. apply upd_at_ok in H as [H ->]. rewrite in_app_iff. intros [Hx|[->|Hx]]; auto; right.
  - rewrite <- (firstn_skipn (Z.to_nat i) l), in_app_iff; auto.
  - rewrite <- (firstn_skipn (S (Z.to_nat i)) l), in_app_iff; auto.
Qed.
Lemma upd_at_new {A} (l : list A) i a l' : upd_at l i a = Ok l' -> In a l'.
Proof. intros H. apply upd_at_ok in H as [H ->]. rewrite in_app_iff. right; left; auto. Qed.

Lemma mapM_length {A C} (f : A -> res C) l l' : mapM f l = Ok l' -> length l' = length l.
Proof.
  revert l'; induction l as [|a l IH]; cbn; intros l' H; [injection H as <-; auto|].
  inv_do H. inv_do H. injection H as <-. cbn. f_equal; auto.
Qed.
Lemma mapM_nth {A C} (f : A -> res C) l l' : mapM f l = Ok l' ->
  forall i a, nth_error l i = Some a -> exists c, nth_error l' i = Some c /\ f a = Ok c.
Proof.
  revert l'; induction l as [|x l IH]; cbn; intros l' H i a Hi; [destruct i; discriminate|].
  inv_do H. inv_do H. injection H as <-. destruct i; cbn in *; [injection Hi as ->; eauto|eauto].
Qed.
Lemma mapM_in {A C} (f : A -> res C) l l' c : mapM f l = Ok l' -> In c l' -> exists a, In a l /\ f a = Ok c.
Proof.
  revert l'; induction l as [|x l IH]; cbn; intros l' H Hc; [injection H as <-; destruct Hc|].
  inv_do H. inv_do H. injection H as <-. destruct Hc as [<-|Hc]; eauto.
  destruct (IH _ H1 Hc) as (a1 & ? & ?); eauto.
Qed.

Section Inv.
Context {T N : Type}.
Variable no : numops T N.
Variable e : env T N.
Variable g : cfg T.
Notation st := (st T N).
Notation sol := (sol T N).
Implicit Types (s : st).

(** Everything except candidates, counters of calls, log, numeric state and
    the members used by uncertainty handling and two-point adaptation. *)
Definition keep s :=
  (s_hist (t_sol s), s_khist (t_sol s), s_bf (t_sol s), s_med (t_sol s), s_best (t_sol s), s_best_iter (t_sol s),
   s_worst (t_sol s), s_init (t_sol s), s_niter (t_sol s), s_kcand (t_sol s), s_maxhist (t_sol s), s_status (t_sol s),
   (t_niter s, t_initel s, t_x0 s)).

(** Calls of the objective *)
Definition eval_from (k : nat) (ys : list (list T)) : list (list T * dbl) :=
  map (fun p => (snd p, e_f e (fst p) (snd p))) (combine (seq k (length ys)) ys).
Lemma eval_from_length k ys : length (eval_from k ys) = length ys.
Proof. unfold eval_from. rewrite map_length, combine_length, seq_length. lia. Qed.
Lemma eval_from_cons k y ys : eval_from k (y :: ys) = (y, e_f e k y) :: eval_from (S k) ys.
Proof. reflexivity. Qed.
Lemma eval_from_app k ys zs : eval_from k (ys ++ zs) = eval_from k ys ++ eval_from (k + length ys) zs.
Proof.
  revert k; induction ys as [|y ys IH]; intros k; cbn [app length]; [now rewrite Nat.add_0_r|].
  rewrite !eval_from_cons, IH. cbn. do 3 f_equal. lia.
Qed.

Arguments eval_from : simpl never.

Lemma calls_spec xs s vs s' : calls e xs s = (vs, s') ->
  s' = set_t_log (t_log s ++ eval_from (length (t_log s)) xs) s /\ vs = map snd (eval_from (length (t_log s)) xs).
Proof.
  revert s vs s'; induction xs as [|x xs IH]; cbn [calls]; intros s vs s' H.
  - injection H as <- <-. cbn. rewrite app_nil_r. destruct s; auto.
  - unfold call in H. destruct (calls e xs _) as [ws s2] eqn:E. injection H as <- <-.
    apply IH in E as [-> ->]. rewrite eval_from_cons. cbn.
    rewrite app_length, Nat.add_comm. cbn. rewrite <- app_assoc. destruct s; auto.
Qed.

(** eval_cols *)
Definition phen_at (phen : list (list T)) (i : nat) (x : list T) : list T :=
  match phen with [] => x | _ => nth i phen x end.
Fixpoint new_gen (r k : nat) (cols phen : list (list T)) (old : list (cand T)) : list (cand T) :=
  match cols with
  | [] => []
  | x :: cols' =>
      mkCand (e_f e k (phen_at phen r x)) x (Z.of_nat r) (c_r (nth r old cand0)) ::
      new_gen (S r) (S k) cols' phen old
  end.
Fixpoint new_points (r : nat) (cols phen : list (list T)) : list (list T) :=
  match cols with [] => [] | x :: cols' => phen_at phen r x :: new_points (S r) cols' phen end.
Lemma new_gen_length r k cols phen old : length (new_gen r k cols phen old) = length cols.
Proof. revert r k; induction cols; cbn; auto. Qed.
Lemma new_points_length r cols phen : length (new_points r cols phen) = length cols.
Proof. revert r; induction cols; cbn; auto. Qed.
Lemma new_gen_x r k cols phen old : map c_x (new_gen r k cols phen old) = cols.
Proof. revert r k; induction cols as [|x cols IH]; cbn; intros; auto. now rewrite IH. Qed.
Lemma new_gen_f r k cols phen old : map c_f (new_gen r k cols phen old) = map snd (eval_from k (new_points r cols phen)).
Proof.
  revert r k; induction cols as [|x cols IH]; intros r k; [reflexivity|].
  cbn [new_gen new_points]. rewrite eval_from_cons. cbn [map c_f snd]. now rewrite IH.
Qed.
Lemma new_gen_id r k cols phen old : map c_id (new_gen r k cols phen old) = map Z.of_nat (seq r (length cols)).
Proof. revert r k; induction cols as [|x cols IH]; cbn; intros; auto. now rewrite IH. Qed.

Lemma eval_cols_spec r cols phen s s' : eval_cols e (Z.of_nat r) cols phen s = Ok s' ->
  (r + length cols <= length (s_cands (t_sol s)) \/ cols = [])%nat /\
  (phen = [] \/ cols = [] \/ (r + length cols <= length phen)%nat) /\
  let old := s_cands (t_sol s) in let k := length (t_log s) in
  s' = set_t_log (t_log s ++ eval_from k (new_points r cols phen))
         (set_t_sol (set_s_cands (firstn r old ++ new_gen r k cols phen old ++ skipn (r + length cols) old) (t_sol s)) s).
Proof.
  revert r s s'; induction cols as [|x cols IH]; cbn [eval_cols]; intros r s s' H.
  - injection H as <-. split; [auto|split; [auto|]]. cbn. rewrite app_nil_r, Nat.add_0_r, firstn_skipn.
    destruct s as [so ? ? ? ? ? ?]; destruct so; auto.
  - inv_do H. inv_do H. rename a into c, H0 into Hc, a0 into y, H1 into Hy.
    unfold call in H. cbn [t_sol set_t_log s_cands] in H. inv_do H. rename a into cs, H0 into Hu.
    apply at_ok in Hc as [_ Hc]. rewrite Nat2Z.id in Hc.
    assert (Hr : (r < length (s_cands (t_sol s)))%nat) by (apply nth_error_Some; congruence).
    assert (Hph : (phen = [] \/ (r < length phen)%nat) /\ y = phen_at phen r x).
    { destruct phen as [|p phen]; [injection Hy as <-; auto|].
      apply at_ok in Hy as [_ Hy]. rewrite Nat2Z.id in Hy. split.
      - right. apply nth_error_Some. congruence.
      - unfold phen_at. symmetry. apply nth_error_nth. auto. }
    destruct Hph as [Hph ->].
    apply upd_at_ok in Hu as [_ ->]. rewrite Nat2Z.id in H.
    replace (Z.of_nat r + 1) with (Z.of_nat (S r)) in H by lia.
    apply IH in H as (H1 & H2 & ->).
    set (old := s_cands (t_sol s)) in *.
    cbn [t_sol set_t_log set_t_sol s_cands set_s_cands t_log] in *.
    set (c' := mkCand _ x _ _) in *.
    assert (Hlen : length (firstn r old ++ c' :: skipn (S r) old) = length old).
    { rewrite app_length, firstn_length; cbn [length]; rewrite skipn_length. lia. }
    rewrite Hlen in H1.
    split; [left; cbn; destruct H1 as [H1| ->]; cbn; lia|].
    split.
    { destruct phen; [auto|right; right]. destruct H2 as [H2|[->|H2]]; [discriminate| |]; cbn in *; destruct Hph; try discriminate; lia. }
    rewrite app_length. cbn [length]. rewrite Nat.add_1_r.
    cbn [new_points]. rewrite eval_from_cons, <- app_assoc. cbn [app].
    cbn [new_gen].
    assert (Hfirst : firstn (S r) (firstn r old ++ c' :: skipn (S r) old) = firstn r old ++ [c']).
    { rewrite firstn_app, firstn_length_le by lia. rewrite (firstn_all2 (firstn r old)) by (rewrite firstn_length; lia).
      replace (S r - r)%nat with 1%nat by lia. reflexivity. }
    rewrite Hfirst.
    assert (Hskip : skipn (S r + length cols) (firstn r old ++ c' :: skipn (S r) old) = skipn (r + S (length cols)) old).
    { rewrite skipn_app, firstn_length_le by lia. rewrite (skipn_all2 (firstn r old)) by (rewrite firstn_length; lia).
      replace (S r + length cols - r)%nat with (S (length cols)) by lia. cbn [app]. rewrite skipn_cons.
      clear. replace (r + S (length cols))%nat with (length cols + S r)%nat by lia.
      symmetry. generalize (S r) as a, (length cols) as b, old as l. clear.
      induction a as [|a IH]; intros b l; [cbn; now rewrite Nat.add_0_r|].
      destruct l; [now rewrite !skipn_nil|]. replace (b + S a)%nat with (S (b + a)) by lia. cbn. apply IH. }
    rewrite Hskip.
    assert (Hgen : new_gen (S r) (S (length (t_log s))) cols phen (firstn r old ++ c' :: skipn (S r) old)
                   = new_gen (S r) (S (length (t_log s))) cols phen old).
    { assert (G : forall cs q k, (r < q)%nat -> new_gen q k cs phen (firstn r old ++ c' :: skipn (S r) old) = new_gen q k cs phen old).
      { induction cs as [|z cs IHc]; intros q k Hq; cbn; auto.
        rewrite IHc by lia. do 2 f_equal. f_equal.
        assert (E : nth_error (firstn r old ++ c' :: skipn (S r) old) q = nth_error old q).
        { rewrite nth_error_upd by auto. destruct (Nat.eqb_spec q r); [lia|auto]. }
        destruct (nth_error old q) eqn:E2.
        - rewrite (nth_error_nth _ _ _ E), (nth_error_nth _ _ _ E2); auto.
        - apply nth_error_None in E, E2. rewrite !nth_overflow; auto. }
      apply G; lia. }
    rewrite Hgen.
    assert (Hcr : c_r c = c_r (nth r old cand0)) by now rewrite (nth_error_nth _ _ _ Hc).
    unfold c'. rewrite Hcr. rewrite <- app_assoc. destruct s as [so ? ? ? ? ? ?]; destruct so; reflexivity.
Qed.

(** uncertainty handling evaluations *)
Lemma eval_uh_spec n : forall r muts s l s', eval_uh e r n muts s = Ok (l, s') ->
  exists ys, length ys = Nat.min n (s_reev (t_sol s) - r) /\
    s' = set_t_log (t_log s ++ eval_from (length (t_log s)) ys) s /\
    map r_idx l = seq r n /\
    map (fun q => Some (r_f q)) l = map (fun i => option_map c_f (nth_error (s_cands (t_sol s)) i)) (seq r n) /\
    (forall i y, nth_error ys i = Some y -> nth_error muts (r + i) = Some y).
Proof.
  induction n as [|n IH]; intros r muts s l s' H; cbn [eval_uh] in H.
  - injection H as <- <-. exists []. cbn. rewrite app_nil_r. split; auto. split; [destruct s; auto|].
    split; auto. split; auto. intros [|i]; discriminate.
  - inv_do H. rename a into c, H0 into Hc. apply at_ok in Hc as [_ Hc]. rewrite Nat2Z.id in Hc.
    destruct (Nat.ltb_spec r (s_reev (t_sol s))).
    + inv_do H. rename a into y, H1 into Hy. unfold call in H. inv_do H. destruct a as [l1 s1]. cbn [fst snd] in H.
      injection H as <- <-. apply IH in H1 as (ys & Hlen & -> & Hidx & Hf & Hm).
      exists (y :: ys). rewrite eval_from_cons.
      cbn [t_log set_t_log t_sol] in *. rewrite app_length, Nat.add_1_r. rewrite <- app_assoc.
      split; [cbn [length]; rewrite Hlen; lia|]. split; [destruct s; reflexivity|].
      split; [cbn; now rewrite Hidx|]. split; [cbn [map r_f seq]; rewrite Hf, Hc; reflexivity|].
      apply at_ok in Hy as [_ Hy]. rewrite Nat2Z.id in Hy.
      intros [|i] z Hz; cbn in Hz; [injection Hz as <-; now rewrite Nat.add_0_r|].
      rewrite <- Nat.add_succ_comm. apply Hm; auto.
    + inv_do H. destruct a as [l1 s1]. cbn [fst snd] in H.
      injection H as <- <-. apply IH in H1 as (ys & Hlen & -> & Hidx & Hf & Hm).
      exists ys. split; [rewrite Hlen; lia|]. split; auto.
      split; [cbn; now rewrite Hidx|]. split; [cbn [map r_f seq]; rewrite Hf, Hc; reflexivity|].
      assert (ys = []) by (destruct ys; auto; cbn in Hlen; lia). subst. intros [|i]; discriminate.
Qed.

Lemma perform_uh_spec cols phen s s' : perform_uh no e g cols phen s = Ok s' ->
  exists ys nn reev l,
    (1 <= reev <= length (match phen with [] => cols | _ => phen end))%nat /\
    (reev = g_reev g \/ reev = S (g_reev g) \/ (g_reev g = 0%nat /\ reev = 1%nat)) /\
    length ys = Nat.min (length cols) reev /\
    map r_idx l = seq 0 (length cols) /\
    map (fun q => Some (r_f q)) l = map (fun i => option_map c_f (nth_error (s_cands (t_sol s)) i)) (seq 0 (length cols)) /\
    s' = set_t_log (t_log s ++ eval_from (length (t_log s)) ys)
          (set_t_sol (set_s_cuh l (set_s_reev reev (set_s_num nn (t_sol s)))) s).
Proof.
  unfold perform_uh. destruct (n_coin no (s_num (t_sol s))) as [coin n1].
  set (src := match phen with [] => cols | _ => phen end).
  set (reev := match (if coin then S (g_reev g) else g_reev g) with O => 1%nat | S _ => _ end).
  destruct (Nat.ltb_spec (length src) reev); [discriminate|].
  destruct (n_mutate no (firstn reev src) n1) as [muts n2]. intros H1. inv_do H1. destruct a as [l s1].
  injection H1 as <-. apply eval_uh_spec in H0 as (ys & Hlen & -> & Hidx & Hf & _).
  cbn [t_sol set_t_sol t_log set_t_log s_reev set_s_reev s_cands set_s_num fst snd] in *.
  exists ys, n2, reev, l. split; [split; [unfold reev; destruct coin, (g_reev g); lia|auto]|].
  split; [unfold reev; destruct coin, (g_reev g); auto|].
  split; [rewrite Hlen; lia|]. split; auto.
Qed.

(** elitist injection *)
Definition ref_cand s : cand T :=
  if e_restart (g_elit g) || e_init (g_elit g) then s_init (t_sol s) else s_best (t_sol s).
Definition elit_on s : bool :=
  (0 <? t_niter s) && (e_best (g_elit g) || e_init (g_elit g) || (t_initel s && e_restart (g_elit g))).
Lemma elitist_spec n s s' : elitist g n s = Ok s' ->
  exists cs, s' = set_t_sol (set_s_cands cs (t_sol s)) s /\ length cs = length (s_cands (t_sol s)) /\
    ((cs = s_cands (t_sol s) /\
      (elit_on s = true -> (n <= length (s_cands (t_sol s)))%nat /\
         (n / 2 <= length (filter (fun c => dlt (c_f c) (c_f (ref_cand s))) (firstn n (s_cands (t_sol s)))))%nat)) \/
     (elit_on s = true /\ upd_at (s_cands (t_sol s)) 1 (ref_cand s) = Ok cs /\
      (length (filter (fun c => dlt (c_f c) (c_f (ref_cand s))) (firstn n (s_cands (t_sol s)))) < n / 2)%nat)).
Proof.
  unfold elitist. fold (elit_on s).
  assert (Hid : s = set_t_sol (set_s_cands (s_cands (t_sol s)) (t_sol s)) s) by (destruct s as [so ? ? ? ? ? ?]; destruct so; reflexivity).
  destruct (elit_on s) eqn:E; intros H.
  - assert (Er : (if e_restart (g_elit g) || e_init (g_elit g) then s_init (t_sol s)
                  else if e_best (g_elit g) then s_best (t_sol s) else cand0) = ref_cand s).
    { unfold ref_cand. unfold elit_on in E. destruct (e_restart _), (e_init _), (e_best _); cbn; auto.
      rewrite !andb_false_r in E. discriminate. }
    rewrite Er in H.
    assert (Ef : e_restart (g_elit g) || e_init (g_elit g) || e_best (g_elit g) = true).
    { unfold elit_on in E. destruct (e_restart _), (e_init _), (e_best _); cbn; auto.
      rewrite !andb_false_r in E. discriminate. }
    rewrite Ef in H.
    destruct (Nat.ltb_spec (length (s_cands (t_sol s))) n); [discriminate|].
    destruct (Nat.ltb_spec (length (filter (fun c => dlt (c_f c) (c_f (ref_cand s))) (firstn n (s_cands (t_sol s))))) (n / 2)).
    + inv_do H. injection H as <-. exists a. split; auto. split; [eapply upd_at_length; eauto|]. right; auto.
    + injection H as <-. exists (s_cands (t_sol s)). split; auto.
  - injection H as <-. exists (s_cands (t_sol s)). split; auto. split; auto. left; split; auto. discriminate.
Qed.
Lemma elitist_off n s : no_elitism g -> elitist g n s = Ok s.
Proof. intros H. unfold elitist. rewrite H. cbn. rewrite !andb_false_r. reflexivity. Qed.

Definition mid_cands cols phen s : list (cand T) :=
  new_gen 0 (length (t_log s)) cols phen (s_cands (t_sol s)) ++ skipn (length cols) (s_cands (t_sol s)).
Lemma eval_spec cols phen s s' : eval no e g cols phen s = Ok s' ->
  let k := length (t_log s) in
  (length cols <= length (s_cands (t_sol s)))%nat /\
  (phen = [] \/ cols = [] \/ (length cols <= length phen)%nat) /\
  keep s' = keep s /\
  t_gens s' = t_gens s ++ [new_gen 0 k cols phen (s_cands (t_sol s))] /\
  length (s_cands (t_sol s')) = length (s_cands (t_sol s)) /\
  s_tpa1 (t_sol s') = s_tpa1 (t_sol s) /\ s_tpa2 (t_sol s') = s_tpa2 (t_sol s) /\
  (g_uh g = false -> s_num (t_sol s') = s_num (t_sol s)) /\
  (exists ys, t_log s' = t_log s ++ eval_from k (new_points 0 cols phen ++ ys) /\
     (g_uh g = false -> ys = []) /\ (g_uh g = true -> (1 <= length ys <= length cols)%nat \/ cols = []) /\
     (length ys <= if g_uh g then S (g_reev g) else 0)%nat /\
     t_nevals s' = t_nevals s + Z.of_nat (length cols) + Z.of_nat (length ys) /\
     s_nevals (t_sol s') = s_nevals (t_sol s) + Z.of_nat (length cols) + Z.of_nat (length ys)) /\
  ((s_cands (t_sol s') = mid_cands cols phen s /\
    (elit_on s = true ->
         (length cols / 2 <= length (filter (fun c => dlt (c_f c) (c_f (ref_cand s)))
            (new_gen 0 k cols phen (s_cands (t_sol s)))))%nat)) \/
   (elit_on s = true /\ upd_at (mid_cands cols phen s) 1 (ref_cand s) = Ok (s_cands (t_sol s')) /\
    (length (filter (fun c => dlt (c_f c) (c_f (ref_cand s)))
            (new_gen 0 k cols phen (s_cands (t_sol s)))) < length cols / 2)%nat)) /\
  (g_uh g = true -> map r_idx (s_cuh (t_sol s')) = seq 0 (length cols) /\ (1 <= s_reev (t_sol s'))%nat /\
     map r_f (s_cuh (t_sol s')) = map c_f (new_gen 0 k cols phen (s_cands (t_sol s)))).
Proof.
  unfold eval. intros H. inv_do H. rename a into s1, H0 into H1.
  change 0 with (Z.of_nat 0) in H1. apply eval_cols_spec in H1 as (Hl & Hp & ->).
  cbn [firstn Nat.add] in H. cbn [app] in H.
  assert (Hl' : (length cols <= length (s_cands (t_sol s)))%nat) by (destruct Hl as [?| ->]; cbn in *; lia).
  fold (mid_cands cols phen s) in H. set (k := length (t_log s)) in *.
  set (gen := new_gen 0 k cols phen (s_cands (t_sol s))) in *.
  assert (Hfirst : firstn (length cols) (mid_cands cols phen s) = gen).
  { assert (Hgl : length gen = length cols) by apply new_gen_length.
    unfold mid_cands. fold k gen. rewrite firstn_app, (firstn_all2 gen), Hgl, Nat.sub_diag by lia.
    cbn. apply app_nil_r. }
  cbn [t_sol set_t_log set_t_sol s_cands set_s_cands t_gens set_t_gens] in H.
  rewrite Hfirst in H.
  set (s1 := set_t_gens (t_gens s ++ [gen]) _) in H.
  inv_do H. rename a into s2, H0 into H2. inv_do H. rename a into s3, H0 into H3. injection H as <-.
  assert (Hmidlen : length (mid_cands cols phen s) = length (s_cands (t_sol s))).
  { unfold mid_cands. rewrite app_length, new_gen_length, skipn_length. lia. }
  assert (U : exists ys, length ys = (if g_uh g then Nat.min (s_reev (t_sol s2)) (length cols) else 0%nat) /\
     t_log s2 = t_log s ++ eval_from k (new_points 0 cols phen ++ ys) /\
     keep s2 = keep s /\ t_gens s2 = t_gens s ++ [gen] /\ s_cands (t_sol s2) = mid_cands cols phen s /\
     t_nevals s2 = t_nevals s /\ s_nevals (t_sol s2) = s_nevals (t_sol s) /\
     s_tpa1 (t_sol s2) = s_tpa1 (t_sol s) /\ s_tpa2 (t_sol s2) = s_tpa2 (t_sol s) /\
     (g_uh g = false -> s_num (t_sol s2) = s_num (t_sol s)) /\
     (g_uh g = true -> (1 <= s_reev (t_sol s2))%nat /\ map r_idx (s_cuh (t_sol s2)) = seq 0 (length cols) /\
        map r_f (s_cuh (t_sol s2)) = map c_f gen /\
        (s_reev (t_sol s2) <= S (g_reev g))%nat)).
  { destruct (g_uh g) eqn:Eu.
    - apply perform_uh_spec in H2 as (ys & nn & reev & l & Hre & Hre2 & Hys & Hidx & Hf & ->).
      exists ys. unfold s1.
      cbn [t_sol set_t_log set_t_sol s_cands set_s_cands t_gens set_t_gens t_log s_reev set_s_reev set_s_cuh set_s_num keep
           t_nevals s_nevals s_tpa1 s_tpa2 s_num s_cuh].
      split; [rewrite Hys; lia|].
      split; [rewrite eval_from_app, app_length, !eval_from_length, new_points_length, app_assoc; auto|].
      do 7 (split; [reflexivity|]). split; [discriminate|].
      { intros _. split; [lia|]. split; auto. split; [|lia].
        unfold s1 in Hf. cbn [t_sol set_t_log set_t_sol s_cands set_s_cands t_gens set_t_gens] in Hf.
        assert (Hf2 : map Some (map r_f l) = map Some (map c_f gen)).
        { rewrite map_map, Hf. rewrite <- Hfirst. rewrite map_map.
          transitivity (map (fun i => option_map c_f (nth_error (firstn (length cols) (mid_cands cols phen s)) i)) (seq 0 (length cols))).
          - apply map_ext_in. intros i Hi. apply in_seq in Hi. rewrite nth_error_firstn' by lia. auto.
          - rewrite Hfirst.
            replace (length cols) with (length gen) by (unfold gen; apply new_gen_length).
            clear. induction gen as [|c l IH]; cbn; auto. f_equal.
            rewrite <- seq_shift, map_map. cbn. auto. }
        clear -Hf2. revert Hf2. generalize (map r_f l), (map c_f gen). induction l0 as [|x l0 IH]; intros [|y l1]; cbn; try discriminate; auto.
        intros H. injection H as -> H. f_equal; auto. }
    - injection H2 as <-. exists []. unfold s1. cbn. rewrite app_nil_r.
      repeat (split; [auto|]); auto; discriminate. }
  destruct U as (ys & Hys & Hlog & Hk & Hg & Hc & Hn1 & Hn2 & Ht1 & Ht2 & Hnum & Huh).
  assert (Hel : elit_on s2 = elit_on s) by (unfold elit_on; unfold keep in Hk; injection Hk as K1 K2 K3 K4 K5 K6 K7 K8 K9 K10 K11 K12 K13 K14 K15; rewrite K13, K14; auto).
  assert (Hrf : ref_cand s2 = ref_cand s).
  { unfold ref_cand. unfold keep in Hk. injection Hk as K1 K2 K3 K4 K5 K6 K7 K8 K9 K10 K11 K12 K13 K14 K15. rewrite K5, K8. auto. }
  apply elitist_spec in H3 as (cs & -> & Hcl & Hcs). rewrite Hel, Hrf, Hc, Hfirst in Hcs.
  split; auto. split; [exact Hp|]. split; [rewrite <- Hk; reflexivity|].
  split; [rewrite <- Hg; reflexivity|].
  split; [cbn; rewrite Hcl, Hc; auto|]. split; [rewrite <- Ht1; reflexivity|]. split; [rewrite <- Ht2; reflexivity|].
  split; [intros; rewrite <- Hnum by auto; reflexivity|].
  split.
  { exists ys. split; [rewrite <- Hlog; reflexivity|].
    cbn [update_fevals t_sol set_t_sol t_nevals set_t_nevals s_nevals set_s_nevals set_s_cands s_cands].
    rewrite Hn1, Hn2, Hys. destruct (g_uh g); (split; [try discriminate; intros _; destruct ys; cbn in *; auto; lia|]).
    - destruct (Huh eq_refl) as (U1 & U2 & U3 & U4).
      split; [intros _; destruct cols; [auto|left; cbn; lia]|]. lia.
    - split; [discriminate|lia]. }
  split.
  { cbn [update_fevals t_sol set_t_sol s_cands set_s_nevals set_s_cands t_nevals set_t_nevals].
    destruct Hcs as [[-> Hcs]|(Hcs1 & Hcs2 & Hcs3)]; [left|right]; auto.
    split; auto. intros E. apply Hcs in E. tauto. }
  cbn. intros E. destruct (Huh E) as (?&?&?&?). auto.
Qed.

(** histories, best and worst *)
Definition best_take (s : sol) (c0 : cand T) : bool :=
  ((s_niter s =? 0) && match c_x (s_best s) with [] => true | _ => false end) || dlt (c_f c0) (c_f (s_best s)).
Definition worst_take (s : sol) (cl : cand T) : bool :=
  ((s_niter s =? 0) && match c_x (s_worst s) with [] => true | _ => false end) || dlt (c_f (s_worst s)) (c_f cl).
Definition med_lim (s : sol) : Z :=
  let n := Z.of_nat (length (s_cands s)) in
  cdiv (n * s_niter s + 600 * n + 150 * Z.of_nat (length (n_xmean no (s_num s)))) (5 * n).
Definition kept_by_tell (s : sol) :=
  (s_cands s, s_init s, s_niter s, s_nevals s, s_kcand s, s_maxhist s, s_status s, s_num s, s_suh s, s_reev s,
   (s_cuh s, s_tpa1 s, s_tpa2 s)).
Lemma ubc_spec (s s' : sol) : update_best_candidates no s = Ok s' ->
  kept_by_tell s' = kept_by_tell s /\
  exists c0 ck cl m rest,
    nth_error (s_cands s) 0 = Some c0 /\ 0 <= s_kcand s /\ nth_error (s_cands s) (Z.to_nat (s_kcand s)) = Some ck /\
    s_cands s = rest ++ [cl] /\
    s_hist s' = drop_if (s_maxhist s <? Z.of_nat (length (s_hist s ++ [c0]))) (s_hist s ++ [c0]) /\
    s_khist s' = drop_if (s_maxhist s <? Z.of_nat (length (s_hist s ++ [c0]))) (s_khist s ++ [ck]) /\
    s_bf s' = drop_if (20 <? Z.of_nat (length (s_bf s ++ [c_f c0]))) (s_bf s ++ [c_f c0]) /\
    s_med s' = drop_if (med_lim s <? Z.of_nat (length (s_med s ++ [m]))) (s_med s ++ [m]) /\
    s_best s' = (if best_take s c0 then c0 else s_best s) /\
    s_best_iter s' = (if best_take s c0 then Some (s_niter s) else s_best_iter s) /\
    s_worst s' = (if worst_take s cl then cl else s_worst s) /\
    (let n := length (s_cands s) in
     if Nat.even n then exists a b, nth_error (s_cands s) (n / 2 - 1) = Some a /\ nth_error (s_cands s) (n / 2) = Some b /\ m = dhalf (dadd (c_f a) (c_f b))
     else exists a, nth_error (s_cands s) (n / 2) = Some a /\ m = c_f a).
Proof.
  unfold update_best_candidates. intros H. inv_do H. inv_do H.
  rename a into s1, H0 into H1, a0 into s2, H1 into H2.
  unfold update_hist in H1. inv_do H1. inv_do H1. rename a into c0, a0 into ck, H0 into Hc0, H3 into Hck.
  injection H1 as <-.
  unfold update_medians in H2. cbn [s_cands set_s_hist set_s_khist set_s_bf] in H2.
  destruct (Z.eqb_spec (Z.of_nat (length (s_cands s))) 0) as [E0|E0]; [discriminate|].
  inv_do H2. rename a into m, H0 into Hm. injection H2 as <-.
  unfold update_seen in H. cbn [s_cands set_s_hist set_s_khist set_s_bf set_s_med] in H. inv_do H.
  rewrite Hc0 in H0. injection H0 as <-.
  destruct (rev (s_cands s)) as [|cl rr] eqn:Er; [discriminate|].
  injection H as <-.
  apply at_ok in Hc0 as [_ Hc0]. apply at_ok in Hck as [Hk0 Hck].
  cbn [s_niter s_best s_worst set_s_hist set_s_khist set_s_bf set_s_med].
  fold (best_take s c0) (worst_take s cl).
  split; [destruct (best_take s c0), (worst_take s cl); reflexivity|].
  exists c0, ck, cl, m, (rev rr).
  split; [auto|]. split; [auto|]. split; [auto|].
  split; [rewrite <- (rev_involutive (s_cands s)), Er; reflexivity|].
  split; [destruct (best_take s c0), (worst_take s cl); reflexivity|].
  split; [destruct (best_take s c0), (worst_take s cl); reflexivity|].
  split; [destruct (best_take s c0), (worst_take s cl); reflexivity|].
  split; [destruct (best_take s c0), (worst_take s cl); reflexivity|].
  split; [destruct (best_take s c0), (worst_take s cl); reflexivity|].
  split; [destruct (best_take s c0), (worst_take s cl); reflexivity|].
  split; [destruct (best_take s c0), (worst_take s cl); reflexivity|].
  cbn zeta. clear -Hm E0.
  assert (Hev : (Z.of_nat (length (s_cands s)) mod 2 =? 0) = Nat.even (length (s_cands s))).
  {
    destruct (Nat.even (length (s_cands s))) eqn:E.
    - apply Nat.even_spec in E as [q ->]. rewrite Nat2Z.inj_mul. rewrite Z.mul_comm, Z_mod_mult. reflexivity.
    - assert (O : Nat.odd (length (s_cands s)) = true) by (unfold Nat.odd; rewrite E; auto).
      apply Nat.odd_spec in O as [q ->]. rewrite Nat2Z.inj_add, Nat2Z.inj_mul.
      replace (Z.of_nat 2 * Z.of_nat q + Z.of_nat 1) with (1 + Z.of_nat q * 2) by lia.
      rewrite Z_mod_plus_full. reflexivity. }
  rewrite Hev in Hm.
  assert (Hd : Z.of_nat (length (s_cands s)) / 2 = Z.of_nat (length (s_cands s) / 2)) by now rewrite Nat2Z.inj_div.
  rewrite Hd in Hm.
  destruct (Nat.even (length (s_cands s))) eqn:E.
  - inv_do Hm. inv_do Hm. injection Hm as <-. apply at_ok in H as [H' H], H0 as [_ H0].
    rewrite Nat2Z.id in H0. exists a, a0. split; auto.
    replace (length (s_cands s) / 2 - 1)%nat with (Z.to_nat (Z.of_nat (length (s_cands s) / 2) - 1)); auto.
    rewrite Z2Nat.inj_sub, Nat2Z.id by lia. reflexivity.
  - inv_do Hm. injection Hm as <-. apply at_ok in H as [_ H]. rewrite Nat2Z.id in H. eauto.
Qed.

(** tell *)
Definition ranked s (s1 : sol) : Prop := (* s1: solution after ranking, before the histories *)
  (g_uh g = false /\ compares_ok (s_cands (t_sol s)) = true /\ s1 = set_s_cands (sort_cands (s_cands (t_sol s))) (t_sol s)) \/
  (g_uh g = true /\ uncertainty_handling e g (t_sol s) = Ok s1).
Lemma tell_spec s s' : tell no e g s = Ok s' ->
  exists (s1 s2 s3 : sol) n4, ranked s s1 /\
    s2 = (if (g_tpa g =? 2) && (0 <? t_niter s) then tpa_update no s1 else s1) /\
    update_best_candidates no s2 = Ok s3 /\
    s' = set_t_sol (set_s_num n4 s3) s /\
    (g_uh g = false -> n4 = n_update no (s_niter s3) (map c_x (s_cands s3)) (s_num s3)).
Proof.
  unfold tell. intros H. inv_do H. inv_do H. injection H as <-. rename a into s1, a0 into s3.
  exists s1. eexists. exists s3.
  set (n4 := n_update no (s_niter s3) (map c_x (s_cands s3)) (s_num s3)) in *.
  exists (if g_uh g && (0 <? s_suh s3) then n_uh_scale no n4 else n4).
  split.
  { unfold ranked. destruct (g_uh g); [auto|left]. unfold sort_candidates in H0.
    destruct (compares_ok _); [injection H0 as <-; auto|discriminate]. }
  split; [reflexivity|]. split; [auto|]. split.
  - cbn [s_suh set_s_num s_num]. destruct (g_uh g && (0 <? s_suh s3)); destruct s3; reflexivity.
  - intros ->. reflexivity.
Qed.

(** numerical gradient *)
Lemma gradf_spec x s r s' : gradf no e g x s = (r, s') ->
  (e_gfunc e = true /\ r = None /\ s' = s) \/
  (e_gfunc e = false /\
   let ys := x :: map (fun i => n_gradpt no i x) (seq 0 (g_dim g)) in
   r = Some (map snd (eval_from (length (t_log s)) ys)) /\
   s' = update_fevals (Z.of_nat (g_dim g) + 1) (set_t_log (t_log s ++ eval_from (length (t_log s)) ys) s)).
Proof.
  unfold gradf. intros H. destruct (e_gfunc e); [injection H as <- <-; auto|right].
  destruct (calls e _ s) as [vs s1] eqn:E. injection H as <- <-.
  apply calls_spec in E as [-> ->]. auto.
Qed.

(** Effect shared by ask and edm: log and call counters grow together, the
    numeric state changes, the rest is kept. *)
Definition only_calls s s' : Prop :=
  keep s' = keep s /\ t_gens s' = t_gens s /\ s_cands (t_sol s') = s_cands (t_sol s) /\
  exists l, t_log s' = t_log s ++ l /\ t_nevals s' = t_nevals s + Z.of_nat (length l) /\
    s_nevals (t_sol s') = s_nevals (t_sol s) + Z.of_nat (length l).
Lemma only_calls_refl s : only_calls s s.
Proof. repeat (split; auto). exists []. cbn. rewrite app_nil_r, !Z.add_0_r. auto. Qed.
Lemma only_calls_trans a b c : only_calls a b -> only_calls b c -> only_calls a c.
Proof.
  intros (K & G & C & l & L & N1 & N2) (K' & G' & C' & l' & L' & N1' & N2').
  repeat (split; [congruence|]). exists (l ++ l'). rewrite L', L, app_assoc, N1', N1, N2', N2, app_length.
  split; auto. lia.
Qed.
Lemma gradf_calls x s r s' : gradf no e g x s = (r, s') -> only_calls s s' /\
  (length (t_log s') = length (t_log s) + if e_gfunc e then 0 else S (g_dim g))%nat /\ s_num (t_sol s') = s_num (t_sol s) /\
  s_tpa1 (t_sol s') = s_tpa1 (t_sol s) /\ s_tpa2 (t_sol s') = s_tpa2 (t_sol s).
Proof.
  intros H. apply gradf_spec in H as [(-> & -> & ->)|(-> & -> & ->)].
  - split; [apply only_calls_refl|]. split; [lia|auto].
  - set (ys := x :: _).
    assert (L : length (eval_from (length (t_log s)) ys) = S (g_dim g)).
    { rewrite eval_from_length. unfold ys. cbn. now rewrite map_length, seq_length. }
    split; [|split; [cbn; rewrite app_length, L; auto|auto]].
    split; [reflexivity|]. split; [reflexivity|]. split; [reflexivity|].
    exists (eval_from (length (t_log s)) ys). rewrite L. cbn. repeat split; lia.
Qed.

Lemma set_col_spec i x pop pop' : set_col (T:=T) i x pop = Ok pop' -> length pop' = length pop /\ 0 <= i < Z.of_nat (length pop).
Proof. unfold set_col. intros H. split; [eapply upd_at_length; eauto|]. apply upd_at_ok in H; tauto. Qed.
Lemma fix_rows_length fx pop pop' : fix_rows (T:=T) fx pop = Ok pop' -> length pop' = length pop.
Proof.
  revert pop; induction fx as [|[i v] fx IH]; cbn; intros pop H; [injection H as <-; auto|].
  inv_do H. apply IH in H. unfold set_row in H0. apply mapM_length in H0. congruence.
Qed.
Definition grad_cost : nat := if g_gradient g && negb (e_gfunc e) then S (g_dim g) else 0.
Lemma ask_spec s pop s' : ask no e g s = Ok (pop, s') ->
  only_calls s s' /\ (samples_ok no -> length pop = g_lambda g) /\
  length (t_log s') = (length (t_log s) + grad_cost)%nat.
Proof.
  unfold ask. destruct (n_sample no (g_lambda g) _) as [pop1 n2] eqn:Es. intros H.
  inv_do H. destruct a as [pop2 s2]. inv_do H. destruct a as [pop3 s3]. inv_do H. rename a into pop4.
  injection H as <- <-.
  set (s1 := set_t_sol (set_s_num n2 (t_sol s)) s) in *.
  assert (O1 : only_calls s s1).
  { unfold only_calls. do 3 (split; [reflexivity|]). exists []. cbn. rewrite app_nil_r, !Z.add_0_r. auto. }
  assert (O2 : only_calls s1 s2 /\ length pop2 = length pop1 /\ length (t_log s2) = (length (t_log s) + grad_cost)%nat).
  { unfold grad_cost. destruct (g_gradient g).
    - inv_do H0. destruct (gradf no e g a s1) as [gr s2'] eqn:Eg. apply gradf_calls in Eg as (E1 & E2 & E3 & E4 & E5).
      assert (L2 : length (t_log s2') = (length (t_log s) + (if true && negb (e_gfunc e) then S (g_dim g) else 0))%nat).
      { rewrite E2. destruct (e_gfunc e); reflexivity. }
      destruct (n_gradcol no gr _).
      + inv_do H0. injection H0 as <- <-. apply set_col_spec in H3. tauto.
      + injection H0 as <- <-. auto.
    - injection H0 as <- <-. split; [apply only_calls_refl|]. split; auto. }
  destruct O2 as (O2 & L2 & K2).
  assert (O3 : only_calls s2 s3 /\ length pop3 = length pop2 /\ length (t_log s3) = length (t_log s2)).
  { destruct ((g_tpa g =? 2) && (0 <? t_niter s2)).
    - destruct (n_tpa_points no (s_num (t_sol s2))) as [[x1 x2] n3].
      inv_do H1. inv_do H1. injection H1 as <- <-.
      apply set_col_spec in H, H3. split; [|split; [|destruct (g_gradient g); reflexivity]].
      + unfold only_calls. do 3 (split; [destruct (g_gradient g); reflexivity|]).
        exists []. cbn. rewrite app_nil_r, !Z.add_0_r. destruct (g_gradient g); auto.
      + destruct H, H3. congruence.
    - injection H1 as <- <-. split; [apply only_calls_refl|auto]. }
  destruct O3 as (O3 & L3 & K3).
  split; [eapply only_calls_trans; [exact O1|eapply only_calls_trans; eauto]|].
  split; [|rewrite K3; auto].
  intros S. apply fix_rows_length in H2. rewrite H2, L3, L2. specialize (S (g_lambda g) (n_eigen no (t_niter s) (s_num (t_sol s)))).
  rewrite Es in S. auto.
Qed.
Definition edm_cost : nat := if e_gfunc e then 0 else S (g_dim g).
Lemma edm_spec s s' : edm no e g s = Ok s' -> only_calls s s' /\ length (t_log s') = (length (t_log s) + edm_cost)%nat.
Proof.
  unfold edm. intros H. inv_do H. destruct (gradf no e g a s) as [gr s1] eqn:Eg. injection H as <-.
  apply gradf_calls in Eg as (E1 & E2 & E3 & E4 & E5).
  split; [|cbn; rewrite E2; unfold edm_cost; destruct (e_gfunc e); lia].
  eapply only_calls_trans; [exact E1|]. unfold only_calls. do 3 (split; [reflexivity|]). exists [].
  cbn. rewrite app_nil_r, !Z.add_0_r. auto.
Qed.

(** stop *)
Lemma stop_spec s b s' : stop no e g s = Ok (b, s') ->
  (b = true /\ s' = s /\ (s_status (t_sol s) < 0 \/ e_progress e (t_sol s) <> 0)) \/
  (0 <= s_status (t_sol s) /\ e_progress e (t_sol s) = 0 /\
   ((t_niter s = 0 /\ b = false /\ s' = s) \/
    (t_niter s <> 0 /\ exists r, stop_scan no g (g_flags g) (t_sol s) = Ok r /\ b = negb (r =? 0) /\
       s' = set_t_sol (set_s_status r (t_sol s)) s))).
Proof.
  unfold stop. destruct (Z.ltb_spec (s_status (t_sol s)) 0); [intros Q; injection Q as <- <-; auto|].
  destruct (Z.eqb_spec (e_progress e (t_sol s)) 0); cbn [negb]; [|intros Q; injection Q as <- <-; auto].
  destruct (Z.eqb_spec (t_niter s) 0).
  - intros Q; injection Q as <- <-. right; split; [auto|split; [auto|left; auto]].
  - intros Q. inv_do Q. injection Q as <- <-. right. split; auto. split; auto. right. split; auto. exists a; auto.
Qed.

(** evaluation of the initial point *)
Definition wants_init s : bool := t_initel s || e_init (g_elit g) || e_best (g_elit g) || g_init_fvalue g.
Lemma eval_initial_spec s s' : eval_initial no e g s = Ok s' ->
  (wants_init s = false /\ s' = s) \/
  (wants_init s = true /\ exists y, e_pheno e (n_xmean no (s_num (t_sol s))) = Ok y /\
   let v := e_f e (length (t_log s)) y in let c := cand_of v (n_xmean no (s_num (t_sol s))) in
   s' = set_t_log (t_log s ++ [(y, v)])
         (set_t_nevals (t_nevals s + 1)
           (set_t_sol (set_s_nevals (s_nevals (t_sol s) + 1) (set_s_best c (set_s_init c (t_sol s)))) s))).
Proof.
  unfold eval_initial. fold (wants_init s). destruct (wants_init s); intros H; [right|left].
  - inv_do H. unfold call in H. injection H as <-. split; auto. exists a. split; auto.
  - injection H as <-. auto.
Qed.

Lemma reinit_spec s s' : reinit no g s = Ok s' -> exists so,
  sol_new no g (c_x (s_best (t_sol s))) (s_num (t_sol s)) = Ok so /\
  s' = mkSt (set_s_nevals (t_nevals s) so) (t_nevals s) 0 true (c_x (s_best (t_sol s))) (t_log s) (t_gens s).
Proof. unfold reinit. intros H. inv_do H. injection H as <-. eauto. Qed.

Lemma optimize_unfold body rf fuel s r s' : optimize no e g body rf fuel s = Ok (r, s') ->
  exists s1 s2 s3 w, eval_initial no e g s = Ok s1 /\ loop no e g body fuel s1 = Ok s2 /\
    (if g_edm g then edm no e g s2 = Ok s3 else s3 = s2) /\ restart_wanted no g s3 = Ok w /\
    ((w = false /\ s' = s3) \/
     (w = true /\ exists rf' s4 r', rf = S rf' /\ reinit no g s3 = Ok s4 /\
        optimize no e g (round no e g) rf' fuel s4 = Ok (r', s'))) /\
    r = (if 0 <=? s_status (t_sol s') then 0 else -1).
Proof.
  intros H. destruct rf as [|rf]; cbn [optimize] in H.
  all: inv_do H; rename a into s1, H0 into H1; inv_do H; rename a into s2, H0 into H2;
       inv_do H; rename a into s3, H0 into H3; inv_do H; rename a into w, H0 into H4; inv_do H; rename a into s4, H0 into H5;
       injection H as <- <-; exists s1, s2, s3, w.
  all: do 2 (split; [auto|]); split; [destruct (g_edm g); [auto|injection H3 as <-; auto]|]; split; [auto|]; split; [|reflexivity].
  - destruct w; [discriminate|injection H5 as <-; auto].
  - destruct w; [right|injection H5 as <-; auto]. split; auto. inv_do H5. inv_do H5. injection H5 as <-.
    destruct a0 as [r' s']. exists rf, a, r'. auto.
Qed.

(** * Induction principle *)
Section Principle.
Variable P : st -> Prop.
Variable okc : list (list T) -> Prop.
Hypothesis P_pop : forall s pop s', P s -> ask no e g s = Ok (pop, s') -> okc pop.
Hypothesis P_ask : forall s pop s', P s -> ask no e g s = Ok (pop, s') -> P s'.
Hypothesis P_gen : forall s cols phen s1 s2, P s -> okc cols ->
  eval no e g cols phen s = Ok s1 -> tell no e g s1 = Ok s2 -> P (inc_iter s2).
Hypothesis P_stop : forall s b s', P s -> stop no e g s = Ok (b, s') -> P s'.
Hypothesis P_init : forall s s', P s -> eval_initial no e g s = Ok s' -> P s'.
Hypothesis P_edm : forall s s', P s -> edm no e g s = Ok s' -> P s'.
Hypothesis P_reinit : forall s s', P s -> restart_wanted no g s = Ok true -> reinit no g s = Ok s' -> P s'.

Lemma P_round s s' : P s -> round no e g s = Ok s' -> P s'.
Proof.
  intros HP H. unfold round in H. inv_do H. destruct a as [pop s1]. inv_do H. inv_do H. inv_do H. injection H as <-.
  cbn [fst snd] in *.
  eapply P_gen; [eapply P_ask; eauto| |exact H2|exact H3].
  eapply P_pop; eauto.
Qed.
Lemma P_loop fuel : forall s s', P s -> loop no e g (round no e g) fuel s = Ok s' -> P s'.
Proof.
  induction fuel as [|fuel IH]; intros s s' HP H; cbn in H; [discriminate|].
  inv_do H. destruct a as [b s1]. cbn [fst snd] in H.
  assert (P s1) by eauto. destruct b; [injection H as <-; auto|].
  inv_do H. eapply IH; [|exact H]. eapply P_round; eauto.
Qed.
Lemma P_optimize rf fuel : forall s r s', P s -> optimize no e g (round no e g) rf fuel s = Ok (r, s') -> P s'.
Proof.
  induction rf as [|rf IH]; intros s r s' HP H; apply optimize_unfold in H as (s1 & s2 & s3 & w & H1 & H2 & H3 & H4 & H5 & H6).
  all: assert (PA : P s3) by (assert (P s2) by (eapply P_loop; [eapply P_init; eauto|eauto]); destruct (g_edm g); [eapply P_edm; eauto|subst; auto]).
  - destruct H5 as [[-> ->]|(-> & rf' & s4 & r' & E & _)]; [auto|discriminate].
  - destruct H5 as [[-> ->]|(-> & rf' & s4 & r' & E & H5 & H7)]; [auto|]. injection E as <-.
    eapply IH; [|eauto]. eapply P_reinit; eauto.
Qed.
Definition okop (o : op T) : Prop :=
  match o with OEval _ _ | OTell | OInc => False | OGen cols _ => okc cols | _ => True end.
Lemma P_op o s s' : okop o -> P s -> do_op no e g o s = Ok s' -> P s'.
Proof.
  destruct o; cbn [okop do_op]; intros W HP H; try contradiction.
  - inv_do H. destruct a. injection H as <-. eauto.
  - inv_do H. destruct a. injection H as <-. eauto.
  - inv_do H. inv_do H. injection H as <-. eauto.
  - inv_do H. destruct a. injection H as <-. eapply P_optimize; eauto.
Qed.
Lemma P_ops h : forall s s', Forall okop h -> P s -> run_ops no e g h s = Ok s' -> P s'.
Proof.
  induction h as [|o h IH]; intros s s' W HP H; cbn in H; [injection H as <-; auto|].
  inv_do H. inversion W; subst. apply (IH a s'); auto. apply (P_op o s a); auto.
Qed.
End Principle.
End Inv.
