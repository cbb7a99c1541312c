From Coq Require Import Reals String Lra.
From Verif Require Import Base Params SpecParams Config SpecConfig.
Local Open Scope Z_scope.
Local Open Scope list_scope.

(** * Association lists *)
Definition keys {A} (m : list (Z * A)) : list Z := map fst m.

Lemma find_insert {A} (m : list (Z * A)) k v i :
  map_find (map_insert m k v) i =
  match map_find m i with Some w => Some w | None => if k =? i then Some v else None end.
Proof.
  unfold map_insert. destruct (existsb (fun e => fst e =? k) m) eqn:E.
  - destruct (map_find m i) eqn:F; [reflexivity|]. destruct (Z.eqb_spec k i) as [->|]; [|reflexivity].
    exfalso. induction m as [|[k' v'] m IH]; cbn in *; [discriminate|].
    destruct (k' =? i) eqn:G; [discriminate|]. exact (IH E F).
  - cbn. destruct (Z.eqb_spec k i) as [->|].
    + assert (F : map_find m i = None).
      { induction m as [|[k' v'] m IH]; cbn in *; [reflexivity|].
        destruct (k' =? i); [discriminate|]. exact (IH E). }
      rewrite F; reflexivity.
    + destruct (map_find m i); reflexivity.
Qed.
Lemma find_erase {A} (m : list (Z * A)) k i :
  map_find (map_erase m k) i = if k =? i then None else map_find m i.
Proof.
  unfold map_erase. induction m as [|[k' v'] m IH]; cbn; [destruct (k =? i); reflexivity|].
  destruct (Z.eqb_spec k' k) as [->|N]; cbn.
  - rewrite IH. destruct (Z.eqb_spec k i) as [->|]; reflexivity.
  - rewrite IH. destruct (Z.eqb_spec k i) as [->|N'].
    + destruct (Z.eqb_spec k' i); [contradiction|reflexivity].
    + reflexivity.
Qed.
Lemma insert_nodup {A} (m : list (Z * A)) k v : NoDup (keys m) -> NoDup (keys (map_insert m k v)).
Proof.
  unfold map_insert, keys. intros H. destruct (existsb (fun e => fst e =? k) m) eqn:E; [exact H|].
  cbn. constructor; [|exact H]. intros Hin. apply in_map_iff in Hin. destruct Hin as (e & He & Hin).
  assert (existsb (fun e => fst e =? k) m = true); [|congruence].
  apply existsb_exists; exists e; split; [exact Hin|]. apply Z.eqb_eq; exact He.
Qed.
Lemma erase_nodup {A} (m : list (Z * A)) k : NoDup (keys m) -> NoDup (keys (map_erase m k)).
Proof.
  unfold map_erase, keys. induction m as [|[k' v'] m IH]; cbn; intros H; [constructor|].
  inversion H; subst. destruct (negb (k' =? k)); [|auto]. cbn. constructor; [|auto].
  intros Hin. apply in_map_iff in Hin. destruct Hin as (e & He & Hin). apply filter_In in Hin.
  apply H2. apply in_map_iff; exists e; tauto.
Qed.

Lemma last_such_app {A} (P : A -> bool) h1 h2 :
  last_such P (h1 ++ h2) = match last_such P h2 with Some b => Some b | None => last_such P h1 end.
Proof.
  induction h1 as [|a h1 IH]; cbn; [destruct (last_such P h2); reflexivity|].
  rewrite IH. destruct (last_such P h2); reflexivity.
Qed.
Lemma last_such_snoc {A} (P : A -> bool) h a :
  last_such P (h ++ [a]) = if P a then Some a else last_such P h.
Proof. rewrite last_such_app; cbn. destruct (P a); reflexivity. Qed.
Lemma find_snoc {A} (P : A -> bool) h a :
  List.find P (h ++ [a]) = match List.find P h with Some b => Some b | None => if P a then Some a else None end.
Proof. induction h as [|b h IH]; cbn; [reflexivity|]. destruct (P b); [reflexivity|exact IH]. Qed.

(** * C16 *)
Lemma fixed_step p a :
  k_fixed (do_adapt p a) = match a with
    | Fix i v => map_insert (k_fixed p) i v
    | Unfix i => map_erase (k_fixed p) i
    | _ => k_fixed p end.
Proof. destruct a; try reflexivity. cbn. unfold set_tpa. destruct (_ =? _); reflexivity. Qed.

Lemma dim_step p a : k_dim (do_adapt p a) = k_dim p.
Proof. destruct a; try reflexivity. cbn. unfold set_tpa. destruct (_ =? _); reflexivity. Qed.


Lemma run_snoc n lambda h a : run_hist n lambda (h ++ [a]) = do_adapt (run_hist n lambda h) a.
Proof. unfold run_hist. rewrite fold_left_app. reflexivity. Qed.

Lemma fixed_iff n lambda h i :
  (exists v, map_find (k_fixed (run_hist n lambda h)) i = Some v) <->
  (exists v, last_such (about i) h = Some (Fix i v)).
Proof.
  induction h as [|a h IH] using rev_ind; [cbn; split; intros [v H]; discriminate|].
  rewrite run_snoc, fixed_step, last_such_snoc.
  destruct a as [| |b|j w|j]; cbn [about]; try exact IH.
  - rewrite find_insert. destruct (Z.eqb_spec j i) as [->|N].
    + split; intros _; [eauto|]. destruct (map_find _ i); eauto.
    + destruct (map_find (k_fixed (run_hist n lambda h)) i) eqn:F; [exact IH|].
      rewrite <- IH. split; intros [v H]; discriminate.
  - rewrite find_erase. destruct (Z.eqb_spec j i) as [->|N]; [|exact IH].
    split; intros [v H]; discriminate.
Qed.

Lemma fixed_first n lambda a b i v :
  (last_such (about i) a = None \/ last_such (about i) a = Some (Unfix i)) ->
  (forall j, In (Unfix j) b -> j <> i) ->
  map_find (k_fixed (run_hist n lambda (a ++ Fix i v :: b))) i = Some v.
Proof.
  intros Ha Hb. induction b as [|c b IH] using rev_ind.
  - replace (a ++ [Fix i v]) with (a ++ [Fix i v])%list by reflexivity.
    rewrite run_snoc, fixed_step, find_insert, Z.eqb_refl.
    destruct (map_find (k_fixed (run_hist n lambda a)) i) eqn:F; [|reflexivity].
    assert (X : exists v, last_such (about i) a = Some (Fix i v)).
    { apply (fixed_iff n lambda). eauto. }
    destruct X as [x X]. destruct Ha as [Ha|Ha]; rewrite Ha in X; discriminate.
  - change (a ++ Fix i v :: b ++ [c]) with (a ++ (Fix i v :: b) ++ [c]).
    rewrite app_assoc, run_snoc, fixed_step.
    assert (IH' : map_find (k_fixed (run_hist n lambda (a ++ Fix i v :: b))) i = Some v).
    { apply IH. intros j Hj; apply Hb. apply in_or_app; left; exact Hj. }
    destruct c as [| |b'|j w|j]; try exact IH'.
    + rewrite find_insert, IH'; reflexivity.
    + rewrite find_erase. destruct (Z.eqb_spec j i) as [->|]; [|exact IH'].
      exfalso. apply (Hb i); [apply in_or_app; right; left; reflexivity|reflexivity].
Qed.

Lemma fixed_nodup n lambda h : NoDup (keys (k_fixed (run_hist n lambda h))).
Proof.
  induction h as [|a h IH] using rev_ind; [constructor|].
  rewrite run_snoc, fixed_step. destruct a; auto using insert_nodup, erase_nodup.
Qed.
Lemma fixed_free n lambda h a : (exists i, about i a = true) ->
  k_chi (run_hist n lambda (h ++ [a])) =
  chi_of (INR n - INR (Datatypes.length (k_fixed (run_hist n lambda (h ++ [a]))))).
Proof.
  intros [i Hi]. rewrite run_snoc.
  assert (D : k_dim (run_hist n lambda h) = n).
  { clear. induction h as [|a h IH] using rev_ind; [reflexivity|]. rewrite run_snoc, dim_step; exact IH. }
  destruct a; try discriminate; cbn [do_adapt]; unfold set_fixed_p, unset_fixed_p, with_fixed; cbn [k_chi k_fixed];
  rewrite D; reflexivity.
Qed.

(** * C17 *)

Lemma stop_map_find h c : map_find (stop_map h) c = option_map snd (first_such (for_code c) h).
Proof.
  unfold stop_map, first_such. induction h as [|a h IH] using rev_ind; [reflexivity|].
  rewrite fold_left_app. cbn [fold_left].
  set (m := fold_left _ h []) in *. unfold set_stopping_criteria. rewrite find_insert, IH, find_snoc.
  destruct (List.find (for_code c) h) as [[k b]|]; [reflexivity|]. cbn [option_map].
  unfold for_code. destruct a as [k b]; cbn. destruct (k =? c); reflexivity.
Qed.
Lemma stop_map_nodup h : NoDup (keys (stop_map h)).
Proof.
  unfold stop_map. induction h as [|a h IH] using rev_ind; [constructor|].
  rewrite fold_left_app. apply insert_nodup; exact IH.
Qed.

Lemma sca_find fl c b i : map_find (set_criteria_active fl c b) i =
  match map_find fl i with None => None | Some w => if c =? i then Some b else Some w end.
Proof.
  unfold set_criteria_active. induction fl as [|[k v] fl IH]; cbn; [reflexivity|].
  destruct (Z.eqb_spec k c) as [->|N]; cbn; destruct (Z.eqb_spec c i) as [->|N'].
  - reflexivity.
  - exact IH.
  - destruct (Z.eqb_spec k i); [contradiction|]. exact IH.
  - destruct (k =? i); [reflexivity|exact IH].
Qed.

Lemma find_in_keys {A} (m : list (Z * A)) i : map_find m i <> None <-> In i (keys m).
Proof.
  induction m as [|[k v] m IH]; cbn; [tauto|]. destruct (Z.eqb_spec k i) as [->|N]; [split; [auto|discriminate]|].
  rewrite IH. split; [auto|]. intros [H|H]; [contradiction|exact H].
Qed.

Lemma flags_fold m : NoDup (keys m) -> forall fl i,
  map_find (fold_left (fun fl e => set_criteria_active fl (fst e) (snd e)) m fl) i =
  match map_find fl i with
  | None => None
  | Some w => match map_find m i with Some b => Some b | None => Some w end
  end.
Proof.
  induction m as [|[k v] m IH]; intros Hn fl i; cbn; [destruct (map_find fl i); reflexivity|].
  inversion Hn; subst. rewrite (IH H2), sca_find. cbn [fst snd].
  destruct (map_find fl i) as [w|]; [|reflexivity].
  destruct (Z.eqb_spec k i) as [->|N]; [|reflexivity].
  destruct (map_find m i) eqn:F; [|reflexivity].
  exfalso. apply H1. apply find_in_keys. cbn. congruence.
Qed.

Lemma all_active_find c : In c criteria_codes -> map_find all_active c = Some true.
Proof.
  unfold criteria_codes. cbn [In]. intros H.
  repeat (destruct H as [<-|H]; [reflexivity|]). contradiction.
Qed.

Lemma flags_first_wins h c : In c criteria_codes ->
  map_find (flags_of_ctor (stop_map h)) c =
  Some (match first_such (for_code c) h with Some (_, b) => b | None => true end).
Proof.
  intros H. unfold flags_of_ctor. rewrite (flags_fold _ (stop_map_nodup h)), (all_active_find c H), stop_map_find.
  destruct (first_such (for_code c) h) as [[k b]|]; reflexivity.
Qed.

Lemma first_last_once {A} (P : A -> bool) h :
  (forall a b, In a h -> In b h -> P a = true -> P b = true -> a = b) -> first_such P h = last_such P h.
Proof.
  unfold first_such. induction h as [|a h IH]; intros H; [reflexivity|]. cbn.
  assert (IH' : List.find P h = last_such P h).
  { apply IH. intros x y Hx Hy; apply H; right; assumption. }
  rewrite <- IH'. destruct (P a) eqn:E; [|destruct (List.find P h); reflexivity].
  destruct (List.find P h) as [b|] eqn:F; [|reflexivity].
  apply find_some in F. f_equal. apply H; [left; reflexivity|right; tauto|exact E|tauto].
Qed.

Lemma flags_last_wins h c : In c criteria_codes ->
  (forall b1 b2, In (c, b1) h -> In (c, b2) h -> b1 = b2) ->
  map_find (flags_of_ctor (stop_map h)) c =
  Some (match last_such (for_code c) h with Some (_, b) => b | None => true end).
Proof.
  intros Hc H. rewrite (flags_first_wins h c Hc). rewrite first_last_once; [reflexivity|].
  unfold for_code. intros [k1 b1] [k2 b2] H1 H2 E1 E2. cbn in *. apply Z.eqb_eq in E1, E2. subst.
  f_equal. exact (H _ _ H1 H2).
Qed.

(** * C18 *)

Lemma set_elitism_cases s e :
  (e = 0 /\ set_elitism s e = mkElit (e_restart s) (e_restart s) (e_restart s)) \/
  (1 <= e <= 3 /\ set_elitism s e = mkElit (e =? 1) (e =? 2) (e =? 3)) \/
  (~ (0 <= e <= 3) /\ set_elitism s e = s).
Proof.
  unfold set_elitism.
  destruct (Z.eqb_spec e 0) as [->|]; [left; auto|].
  destruct (Z.eqb_spec e 1) as [->|]; [right; left; split; [lia|reflexivity]|].
  destruct (Z.eqb_spec e 2) as [->|]; [right; left; split; [lia|reflexivity]|].
  destruct (Z.eqb_spec e 3) as [->|]; [right; left; split; [lia|reflexivity]|].
  right; right; split; [lia|reflexivity].
Qed.

Lemma elit_exact h :
  elit_run h =
  match last_such valid_elitism h with
  | Some 0 => match last_such nonzero_elitism h with Some 3 => mkElit true true true | _ => elit0 end
  | o => expected_elit o
  end.
Proof.
  assert (G : elit_run h =
    (match last_such valid_elitism h with
    | Some 0 => match last_such nonzero_elitism h with Some 3 => mkElit true true true | _ => elit0 end
    | o => expected_elit o
    end) /\ (e_restart (elit_run h) = true <-> last_such nonzero_elitism h = Some 3)
    /\ (last_such valid_elitism h = None -> last_such nonzero_elitism h = None)
    /\ (forall e, last_such valid_elitism h = Some e -> e = 0 \/ last_such nonzero_elitism h = Some e)); [|tauto].
  induction h as [|e h (IH1 & IH2 & IH3 & IH4)] using rev_ind.
  { cbn. repeat split; try discriminate; intros; discriminate. }
  assert (S : elit_run (h ++ [e]) = set_elitism (elit_run h) e).
  { unfold elit_run. rewrite fold_left_app. reflexivity. }
  rewrite S, !last_such_snoc.
  destruct (set_elitism_cases (elit_run h) e) as [[-> ->]|[[He ->]|[He ->]]].
  - cbn [valid_elitism nonzero_elitism Z.leb Z.compare andb e_restart]. cbn.
    destruct (last_such nonzero_elitism h) as [z|] eqn:E.
    + destruct (e_restart (elit_run h)) eqn:F.
      * assert (Z3 : Some z = Some 3) by (apply IH2; reflexivity). injection Z3 as ->.
        split; [reflexivity|]. split; [tauto|]. split; [discriminate|]. intros e He. injection He as <-; auto.
      * assert (z <> 3). { intros ->. assert (false = true) by (apply IH2; reflexivity). discriminate. }
        split; [|split; [split; [discriminate|intros K; injection K as ->; contradiction]|split; [discriminate|]]].
        -- destruct z as [|[[]|[]|]|]; try reflexivity. contradiction.
        -- intros e He. injection He as <-; auto.
    + destruct (e_restart (elit_run h)) eqn:F.
      * assert (X : None = Some 3) by (apply IH2; reflexivity). discriminate.
      * split; [reflexivity|]. split; [split; discriminate|]. split; [reflexivity|]. intros e He; injection He as <-; auto.
  - assert (V : valid_elitism e = true).
    { unfold valid_elitism. apply andb_true_iff; split; apply Z.leb_le; lia. }
    assert (V' : nonzero_elitism e = true).
    { unfold nonzero_elitism. apply andb_true_iff; split; apply Z.leb_le; lia. }
    rewrite V, V'. assert (C : e = 1 \/ e = 2 \/ e = 3) by lia.
    destruct C as [->|[->| ->]]; cbn; (split; [reflexivity|]); (split; [split; (reflexivity || discriminate)|]);
    (split; [discriminate|]); intros e' E'; right; exact E'.
  - assert (V : valid_elitism e = false).
    { unfold valid_elitism. destruct (Z.leb_spec 0 e), (Z.leb_spec e 3); try reflexivity; lia. }
    assert (V' : nonzero_elitism e = false).
    { unfold nonzero_elitism. destruct (Z.leb_spec 1 e), (Z.leb_spec e 3); try reflexivity; lia. }
    rewrite V, V'. auto.
Qed.

Lemma elit_last_wins h :
  (last_such valid_elitism h = Some 0 -> last_such nonzero_elitism h <> Some 3) ->
  elit_run h = expected_elit (last_such valid_elitism h).
Proof.
  intros H. rewrite elit_exact. destruct (last_such valid_elitism h) as [[|p|p]|]; try reflexivity.
  specialize (H eq_refl). destruct (last_such nonzero_elitism h) as [[|[[]|[]|]|]|]; try reflexivity.
  congruence.
Qed.

(** * C19 *)
Lemma contains_no_effect name p : contains "sep" name = false -> contains "vd" name = false ->
  algo_find algos name = None -> set_str_algo name p = p.
Proof. intros H1 H2 H3. unfold set_str_algo. rewrite H1, H2, H3. reflexivity. Qed.

(** * C20 *)

Lemma mod64_nonzero s : - 2 ^ 31 <= s < 2 ^ 31 -> s <> 0 -> s mod 2 ^ 64 <> 0.
Proof.
  intros H N E. apply Z.mod_divide in E; [|lia]. destruct E as [k E].
  assert (k = 0) by nia. subst. lia.
Qed.
Lemma get_seed_spec s : - 2 ^ 31 <= s < 2 ^ 31 -> get_seed (s mod 2 ^ 64) = s.
Proof.
  intros H. unfold get_seed.
  assert (E : (s mod 2 ^ 64) mod 2 ^ 32 = s mod 2 ^ 32).
  { replace (2 ^ 64) with (2 ^ 32 * 2 ^ 32) by reflexivity. rewrite Z.rem_mul_r by lia.
    rewrite Z.mul_comm, Z.mod_add by lia. apply Z.mod_mod; lia. }
  rewrite E. cbn zeta. destruct (Z_lt_dec s 0).
  - assert (F : s mod 2 ^ 32 = s + 2 ^ 32).
    { symmetry. apply Z.mod_unique with (q := -1); lia. }
    rewrite F. destruct (Z.ltb_spec (s + 2 ^ 32) (2 ^ 31)); lia.
  - rewrite Z.mod_small by lia. destruct (Z.ltb_spec s (2 ^ 31)); lia.
Qed.

Lemma seed_last_wins s0 h s c : s0 <> 0 ->
  (forall e, In e (h ++ [(s, c)]) -> - 2 ^ 31 <= fst e < 2 ^ 31 /\ fst e <> 0) ->
  seed_run s0 (h ++ [(s, c)]) = s mod 2 ^ 64 /\ get_seed (seed_run s0 (h ++ [(s, c)])) = s.
Proof.
  intros H0 H. unfold seed_run. rewrite fold_left_app. cbn [fold_left fst snd].
  assert (N : fold_left (fun cur e => set_seed cur (fst e) (snd e)) h s0 <> 0).
  { induction h as [|e h IH] using rev_ind; [exact H0|]. rewrite fold_left_app. cbn [fold_left].
    assert (N : fold_left (fun cur e => set_seed cur (fst e) (snd e)) h s0 <> 0).
    { apply IH. intros x Hx. apply H. apply in_or_app. apply in_app_or in Hx.
      destruct Hx as [Hx|Hx]; [left; apply in_or_app; left; exact Hx|right; exact Hx]. }
    unfold set_seed at 1. destruct (Z.eqb_spec (fold_left (fun cur e => set_seed cur (fst e) (snd e)) h s0) 0); [contradiction|].
    destruct (H e) as [A B]; [apply in_or_app; left; apply in_or_app; right; left; reflexivity|].
    apply mod64_nonzero; assumption. }
  assert (E : set_seed (fold_left (fun cur e => set_seed cur (fst e) (snd e)) h s0) s c = s mod 2 ^ 64).
  { unfold set_seed at 1. destruct (Z.eqb_spec (fold_left (fun cur e => set_seed cur (fst e) (snd e)) h s0) 0); [contradiction|reflexivity]. }
  rewrite E. split; [reflexivity|]. apply get_seed_spec.
  destruct (H (s, c)) as [A B]; [apply in_or_app; right; left; reflexivity|]. exact A.
Qed.

Lemma elit_zero_after_three h :
  last_such valid_elitism h = Some 0 -> last_such nonzero_elitism h = Some 3 -> elit_run h = mkElit true true true.
Proof. intros H1 H2. rewrite elit_exact, H1, H2. reflexivity. Qed.

Lemma str_algo_documented name a p : In (name, a) documented -> (a <> 10 /\ a <> 11) ->
  set_str_algo name p =
    (let q := set_algo a p in
     if (6 <=? a) && (a <=? 11) then set_sep q else if 12 <=? a then set_vd q else q) /\
  k_algo (set_str_algo name p) = a.
Proof.
  unfold documented. intros H N. cbn [In] in H.
  repeat (destruct H as [H|H]; [injection H as <- <-; try (exfalso; destruct N; lia); split; reflexivity|]).
  contradiction.
Qed.

Lemma str_algo_unknown name p : (forall a, ~ In (name, a) documented) ->
  contains "sep" name = false -> contains "vd" name = false -> set_str_algo name p = p.
Proof.
  intros H H1 H2. apply contains_no_effect; [exact H1|exact H2|].
  destruct (algo_find algos name) as [a|] eqn:E; [|reflexivity]. exfalso.
  assert (K : forall k b, In (k, b) algos -> exists a, In (k, a) documented).
  { unfold algos, documented. cbn [In]. intros k b Hk.
    repeat (destruct Hk as [Hk|Hk]; [injection Hk as <- <-; eexists; tauto|]). contradiction. }
  assert (F : exists b, In (name, b) algos).
  { clear - E. revert E. generalize algos. intros l. induction l as [|[k b] l IH]; cbn; [discriminate|].
    destruct (String.eqb_spec k name) as [->|]; intros E; [eauto|]. destruct (IH E) as [c Hc]; eauto. }
  destruct F as [b F]. destruct (K _ _ F) as [c Hc]. exact (H c Hc).
Qed.

Lemma seed_ctor s c : 0 < s < 2 ^ 31 -> get_seed (ctor_seed s c) = s /\ ctor_seed 0 c = c /\
  forall h s' c', (forall e, In e (h ++ [(s', c')]) -> - 2 ^ 31 <= fst e < 2 ^ 31 /\ fst e <> 0) ->
  get_seed (seed_run (ctor_seed s c) (h ++ [(s', c')])) = s'.
Proof.
  intros H. assert (E : ctor_seed s c = s) by (unfold ctor_seed; destruct (Z.eqb_spec s 0); lia).
  rewrite E. split; [|split; [reflexivity|]].
  - rewrite <- (get_seed_spec s) at 2 by lia. f_equal. symmetry. apply Z.mod_small. lia.
  - intros h s' c' Hh. apply seed_last_wins; auto. lia.
Qed.
Lemma seed_zero s0 s c1 c2 : s0 <> 0 ->
  seed_run s0 [(0, c1)] = 0 /\ seed_run s0 [(0, c1); (s, c2)] = c2.
Proof.
  intros H. assert (E : set_seed s0 0 c1 = 0).
  { unfold set_seed. destruct (Z.eqb_spec s0 0); [contradiction|reflexivity]. }
  unfold seed_run; cbn [fold_left fst snd]. rewrite E. split; reflexivity.
Qed.
