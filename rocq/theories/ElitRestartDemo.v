(** Instances for the elitist restart. *)
From Verif Require Import Base Dbl Config Search SpecSearch SpecSafe SpecElitRestart SearchInv StopProofs SpecStop DblProofs ElitRestartProofs Demo.
Local Open Scope Z_scope.

(** Points of the line; the state is the mean and the number of populations
    drawn so far.  [sc] is the factor of a linear scaling: a new solution object
    has the given point times [sc] for its mean, and the point evaluated is the
    internal one divided by [sc].  The k-th point of population i is [pts i k]. *)
Definition line_ops (sc : Z) (pts : nat -> nat -> Z) : numops Z (Z * nat) :=
  mkNum
    (fun n => [fst n])
    (fun x n => (sc * hd 0 x, snd n)) (fun n => n) (fun _ n => n)
    (fun k n => (map (fun i => [pts (snd n) i]) (seq 0 k), (fst n, S (snd n))))
    (fun _ x => x) (fun _ _ => None) (fun n => ([fst n], [fst n], n)) (fun n => (false, n))
    (fun cols n => (cols, n)) (fun _ n => n) (fun _ _ n => n) (fun n => n) (fun _ n => n) (fun _ _ => false).
(** Small multiples of the least positive double. *)
Definition small (z : Z) : dbl := Fin (Z.max (-1000) (Z.min z 1000)).
Definition line_env (sc : Z) (f : Z -> Z) : env Z (Z * nat) :=
  mkEnv (fun _ x => small (f (hd 0 x))) false (fun x => Ok [hd 0 x / sc]) (fun _ => 0) isort.
Definition e3_cfg : cfg Z := set_g_elit (mkElit false false true) (set_g_max_iter 5 (mk_cfg 1 4)).
Definition e3_opt (sc : Z) (pts : nat -> nat -> Z) (f : Z -> Z) (g : cfg Z) (x0 : Z) (rf fuel : nat) :=
  do s <- st_new (line_ops sc pts) g [x0] (0, 0%nat);
  optimize (line_ops sc pts) (line_env sc f) g (round (line_ops sc pts) (line_env sc f) g) rf fuel s.
(** The sphere; the first population meets the point 2, the seventh the point 1,
    the others are farther away. *)
Definition e3_pts (n i : nat) : Z :=
  match n, i with 0%nat, 1%nat => 2 | 6%nat, 2%nat => 1 | _, _ => 10 + Z.of_nat (n + i) end.
Definition sq (x : Z) : Z := x * x.


(** The runs of a search, computed. *)
Section All.
Context {T N : Type}.
Variable no : numops T N.
Variable e : env T N.
Variable g : cfg T.
Fixpoint all_runs (rf fuel : nat) (a : st T N) : res (list (st T N * st T N) * st T N) :=
  do s1 <- eval_initial no e g a;
  do s2 <- loop no e g (round no e g) fuel s1;
  do b <- (if g_edm g then edm no e g s2 else Ok s2);
  do w <- restart_wanted no g b;
  if w : bool then
    match rf with
    | O => Fault Diverges
    | S rf => do c <- reinit no g b; do p <- all_runs rf fuel c; Ok ((a, b) :: fst p, snd p)
    end
  else Ok ([(a, b)], b).
Lemma all_runs_ok fuel : e_restart (g_elit g) = true -> forall rf a l z, all_runs rf fuel a = Ok (l, z) -> runs no e g fuel a l z.
Proof.
  intros E. induction rf as [|rf IH]; intros a l z H; cbn [all_runs] in H.
  all: inv_do H; rename a0 into s1, H0 into H1; inv_do H; rename a0 into s2, H0 into H2;
       inv_do H; rename a0 into b, H0 into H3; inv_do H; rename a0 into w, H0 into H4.
  all: assert (O : one_run no e g fuel a b) by (exists s1, s2; split; [auto|split; [auto|destruct (g_edm g); [auto|apply Ok_inj in H3; auto]]]).
  all: pose proof (overtaken_wanted no g b w E H4) as W; destruct w.
  - discriminate.
  - apply Ok_inj in H. injection H as <- <-. constructor 1; auto. intros Q. apply W in Q. discriminate.
  - inv_do H. inv_do H. destruct a1 as [l1 z1]. apply Ok_inj in H. injection H as <- <-. cbn [fst snd].
    econstructor 2; [exact O|apply W; auto|eapply reinit_again; eauto|eauto].
  - apply Ok_inj in H. injection H as <- <-. constructor 1; auto. intros Q. apply W in Q. discriminate.
Qed.
Lemma all_runs_optimize fuel : forall rf a l z, all_runs rf fuel a = Ok (l, z) ->
  exists r, optimize no e g (round no e g) rf fuel a = Ok (r, z).
Proof.
  induction rf as [|rf IH]; intros a l z H; cbn [all_runs] in H; cbn [optimize].
  all: inv_do H; inv_do H; inv_do H; inv_do H; rewrite H0; cbn [bind]; rewrite H1; cbn [bind]; rewrite H2; cbn [bind]; rewrite H3; cbn [bind].
  all: destruct a3.
  - discriminate.
  - apply Ok_inj in H. injection H as <- <-. cbn. eauto.
  - inv_do H. inv_do H. destruct a4 as [l1 z1]. apply Ok_inj in H. injection H as <- <-. rewrite H4. cbn [bind].
    destruct (IH _ _ _ H5) as (r & ->). cbn. eauto.
  - apply Ok_inj in H. injection H as <- <-. cbn. eauto.
Qed.
Definition log_dec (l l' : list (list Z * dbl)) : {l = l'} + {l <> l'}.
Proof. apply list_eq_dec. intros [x v] [x' v']. destruct (list_eq_dec Z.eq_dec x x') as [->|]; [|right; congruence].
  destruct v as [| |a|], v' as [| |b|]; try (right; congruence); try (left; reflexivity).
  destruct (Z.eq_dec a b) as [->|]; [left; reflexivity|right; congruence]. Defined.
End All.

Lemma line_dims3 sc pts g : g_dim g = 1%nat -> dims_ok (line_ops sc pts) g.
Proof.
  intros E. unfold dims_ok. rewrite E. split; [intros k n; cbn; now rewrite map_length, seq_length|].
  split; [intros k n x Hx; cbn in Hx; apply in_map_iff in Hx as (i & <- & _); reflexivity|].
  split; [reflexivity|]. split; [discriminate|]. intros n. cbn. auto.
Qed.
Lemma line_told pts g : g_dim g = 1%nat -> starts_where_told (line_ops 1 pts) g.
Proof.
  intros E x n L. rewrite E in L. destruct x as [|v [|w x]]; try discriminate. cbn [n_xmean n_new line_ops fst hd]. now rewrite Z.mul_1_l.
Qed.
Lemma line_computes sc f : computes (line_env sc f) (fun x => small (f (hd 0 x))).
Proof. intros k x. reflexivity. Qed.
Lemma small_finite z : finite_dbl (small z).
Proof.
  unfold finite_dbl, small, dbl_max. assert (1000 <= 2 ^ 900) by (vm_compute; discriminate).
  set (v := Z.max _ _). assert (-1000 <= v <= 1000) by (unfold v; lia). clearbody v.
  split; [apply dle_fin|cbn [dneg]; apply dle_fin]; nia.
Qed.
Lemma line_nonan sc f : no_nan (line_env sc f).
Proof. intros k x. discriminate. Qed.

(** The runs from the point 7, with the factor [sc]; a property of them that
    can be tested. *)
Definition e3_new (sc : Z) := st_new (line_ops sc e3_pts) e3_cfg [7] (0, 0%nat).
Definition e3_all (sc : Z) := do a <- e3_new sc; all_runs (line_ops sc e3_pts) (line_env sc sq) e3_cfg 3 10 a.
Lemma e3_test sc (test : list (st Z (Z * nat) * st Z (Z * nat)) -> st Z (Z * nat) -> bool) :
  match e3_all sc with Ok (l, z) => test l z | Fault _ => false end = true ->
  exists s0 l z, e3_new sc = Ok s0 /\ all_runs (line_ops sc e3_pts) (line_env sc sq) e3_cfg 3 10 s0 = Ok (l, z) /\
    runs (line_ops sc e3_pts) (line_env sc sq) e3_cfg 10 s0 l z /\ test l z = true.
Proof.
  unfold e3_all. destruct (e3_new sc) as [s0|] eqn:E; cbn [bind]; [|discriminate].
  destruct (all_runs (line_ops sc e3_pts) (line_env sc sq) e3_cfg 3 10 s0) as [[l z]|] eqn:R; [|discriminate].
  intros H. exists s0, l, z. split; auto. split; auto. split; auto. apply all_runs_ok with (rf := 3%nat); auto.
Qed.
