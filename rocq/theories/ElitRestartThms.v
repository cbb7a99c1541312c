(** Instances of the theorems on the elitist restart. *)
From Coq Require Import Reals.
From Verif Require Import Base Dbl Config Search SpecSearch SpecSafe SpecElitRestart ElitRestartProofs ElitRestartDemo Demo StopProofs.
From Verif Require Import Vec VecProofs Params Update.
Local Open Scope Z_scope.

Lemma library_start p (g : cfg R) :
  k_dim (p_k p) = g_dim g -> k_fixed (p_k p) = [] -> (forall x, p_scale p x = x) -> starts_where_told (cma_num p) g.
Proof.
  intros E F S x n L. cbn [n_xmean n_new cma_num new_num x_mean]. unfold init_mean. rewrite F, S. cbn [put_fixed fold_left].
  rewrite E. rewrite (tab_at0 _ x) by auto. apply tab_at0. auto.
Qed.
Definition good_runs (l : list (st Z (Z * nat) * st Z (Z * nat))) (z : st Z (Z * nat)) : bool :=
  Nat.eqb (length l) 3 &&
  (if list_eq_dec Z.eq_dec (map (fun p => match c_f (s_best (t_sol (snd p))) with Fin v => v | _ => -1 end) l) [4; 1; 1] then true else false) &&
  (if list_eq_dec Z.eq_dec (c_x (s_best (t_sol z))) [1] then true else false).
Lemma e3_example : let no := line_ops 1 e3_pts in let e := line_env 1 sq in
  computes e (fun x => small (sq (hd 0 x))) /\ no_nan e /\ dims_ok no e3_cfg /\ scheme3 e3_cfg /\ starts_where_told no e3_cfg /\
  exists s0 l z r, st_new no e3_cfg [7] (0, 0%nat) = Ok s0 /\ optimize no e e3_cfg (round no e e3_cfg) 3 10 s0 = Ok (r, z) /\
    runs no e e3_cfg 10 s0 l z /\ length l = 3%nat /\
    map (fun p => c_f (s_best (t_sol (snd p)))) l = [small 4; small 1; small 1] /\ c_x (s_best (t_sol z)) = [1].
Proof.
  split; [apply line_computes|]. split; [apply line_nonan|]. split; [apply line_dims3; reflexivity|]. split; [split; reflexivity|].
  split; [apply line_told; reflexivity|].
  destruct (e3_test 1 good_runs) as (s0 & l & z & E & A & R & G); [vm_compute; reflexivity|].
  destruct (all_runs_optimize _ _ _ _ _ _ _ _ A) as (r & O). exists s0, l, z, r. split; [exact E|]. split; [exact O|]. split; [exact R|].
  unfold good_runs in G. apply andb_true_iff in G as [G G3]. apply andb_true_iff in G as [G1 G2]. apply Nat.eqb_eq in G1.
  split; [exact G1|]. destruct (list_eq_dec _ _ _) as [E2|] in G2; [|discriminate]. destruct (list_eq_dec _ _ _) as [E3|] in G3; [|discriminate].
  split; [|exact E3]. clear - E2. destruct l as [|a [|b [|c [|]]]]; try discriminate. cbn [map] in *. injection E2 as A1 A2 A3.
  destruct (c_f (s_best (t_sol (snd a)))), (c_f (s_best (t_sol (snd b)))), (c_f (s_best (t_sol (snd c)))); try discriminate. subst. reflexivity.
Qed.
Definition bad_runs (l : list (st Z (Z * nat) * st Z (Z * nat))) (z : st Z (Z * nat)) : bool :=
  match l with
  | [_; (a, b); (c, d)] =>
      match skipn (length (t_log b)) (t_log d) with
      | (y, v) :: more =>
          (if log_dec (t_log d) (t_log b ++ (y, v) :: more) then true else false) &&
          (if list_eq_dec Z.eq_dec [hd 0 (c_x (s_best (t_sol b))) / 2] y then false else true) &&
          dlt (c_f (s_best (t_sol b))) (c_f (s_best (t_sol z)))
      | [] => false
      end
  | _ => false
  end.
Lemma scaling_restart : exists (no : numops Z (Z * nat)) (e : env Z (Z * nat)) (g : cfg Z) f x0 n s0 l z,
  computes e f /\ no_nan e /\ dims_ok no g /\ g_uh g = false /\ scheme3 g /\
  (forall x n, n_xmean no (n_new no x n) = [2 * hd 0 x]) /\ (forall x, e_pheno e x = Ok [hd 0 x / 2]) /\
  st_new no g x0 n = Ok s0 /\ runs no e g 10 s0 l z /\
  exists a b c d y v more, nth_error l 1 = Some (a, b) /\ nth_error l 2 = Some (c, d) /\
    t_log d = t_log b ++ (y, v) :: more /\ e_pheno e (c_x (s_best (t_sol b))) <> Ok y /\
    dlt (c_f (s_best (t_sol b))) (c_f (s_best (t_sol z))) = true.
Proof.
  exists (line_ops 2 e3_pts), (line_env 2 sq), e3_cfg, (fun x => small (sq (hd 0 x))), [7], (0, 0%nat).
  destruct (e3_test 2 bad_runs) as (s0 & l & z & E & _ & R & G); [vm_compute; reflexivity|]. exists s0, l, z.
  split; [apply line_computes|]. split; [apply line_nonan|]. split; [apply line_dims3; reflexivity|]. split; [reflexivity|]. split; [split; reflexivity|].
  split; [reflexivity|]. split; [reflexivity|]. split; [exact E|]. split; [exact R|].
  unfold bad_runs in G. destruct l as [|p [|[a b] [|[c d] [|]]]]; try discriminate.
  destruct (skipn _ _) as [|[y v] more]; [discriminate|]. apply andb_true_iff in G as [G G3]. apply andb_true_iff in G as [G1 G2].
  destruct (log_dec _ _) as [L|]; [|discriminate]. destruct (list_eq_dec _ _ _) as [|Ne]; [discriminate|].
  exists a, b, c, d, y, v, more. do 3 (split; [solve [auto]|]). split; [|auto]. cbn [e_pheno line_env]. intros Q. apply Ok_inj in Q. auto.
Qed.
Lemma budget_restart : exists (no : numops Z (Z * nat)) (e : env Z (Z * nat)) (g : cfg Z) f x0 n s0,
  computes e f /\ real_values e /\ dims_ok no g /\ g_uh g = false /\ scheme3 g /\ starts_where_told no g /\ g_max_fevals g = 20 /\
  st_new no g x0 n = Ok s0 /\ optimize no e g (round no e g) 3 10 s0 = Fault Uninit.
Proof.
  exists (line_ops 1 e3_pts), (line_env 1 sq), (set_g_max_fevals 20 e3_cfg), (fun x => small (sq (hd 0 x))), [7], (0, 0%nat).
  destruct (st_new (line_ops 1 e3_pts) (set_g_max_fevals 20 e3_cfg) [7] (0, 0%nat)) as [s0|] eqn:E; [|discriminate].
  exists s0. split; [apply line_computes|]. split; [intros k x; apply small_finite|].
  split; [apply line_dims3; reflexivity|]. split; [reflexivity|]. split; [split; reflexivity|].
  split; [apply line_told; reflexivity|]. split; [reflexivity|]. split; [reflexivity|].
  assert (Q : (do s <- st_new (line_ops 1 e3_pts) (set_g_max_fevals 20 e3_cfg) [7] (0, 0%nat);
    optimize (line_ops 1 e3_pts) (line_env 1 sq) (set_g_max_fevals 20 e3_cfg) (round (line_ops 1 e3_pts) (line_env 1 sq) (set_g_max_fevals 20 e3_cfg)) 3 10 s) = Fault Uninit)
    by (vm_compute; reflexivity).
  rewrite E in Q. exact Q.
Qed.
