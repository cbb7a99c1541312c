(** Concrete instances used by the examples and the counterexamples of
    PropsSearch.v.  Points are integer vectors and the numeric state is the
    number of populations drawn; the populations follow a script. *)
From Verif Require Import Base Dbl Config Search SpecSearch.
Local Open Scope Z_scope.

(** The double of a small integer; larger ones are clamped. *)
Definition dint (z : Z) : dbl := Fin (Z.max (- 2 ^ 900) (Z.min z (2 ^ 900)) * 2 ^ 1074).

Definition toy (xm : list Z) (pts : nat -> nat -> list Z) : numops Z nat :=
  mkNum
    (fun _ => xm)                                   (* xmean *)
    (fun _ n => n) (fun n => n) (fun _ n => n)      (* new, reset, eigen *)
    (fun k n => (map (pts n) (seq 0 k), S n))       (* sample *)
    (fun i x => map (fun p => if (fst p =? i)%nat then snd p + 1 else snd p) (combine (seq 0 (length x)) x))  (* gradpt *)
    (fun gr _ => match gr with Some (_ :: _) => Some xm | _ => None end)  (* gradcol *)
    (fun n => (map (Z.add 1) xm, map (Z.sub 1) xm, n))  (* tpa points *)
    (fun n => (false, n))                           (* coin *)
    (fun cols n => (map (map (Z.add 1000)) cols, n))  (* mutate *)
    (fun _ n => n) (fun _ _ n => n) (fun n => n) (fun _ n => n)
    (fun _ _ => false).

(** Insertion sort, one behaviour std::sort may have. *)
Fixpoint ins {A} (cmp : A -> A -> bool) (x : A) (l : list A) : list A :=
  match l with [] => [x] | y :: l' => if cmp y x then y :: ins cmp x l' else x :: l end.
Fixpoint isort {A} (cmp : A -> A -> bool) (l : list A) : list A :=
  match l with [] => [] | x :: l' => ins cmp x (isort cmp l') end.

Definition mk_env (f : nat -> list Z -> Z) : env Z nat :=
  mkEnv (fun k x => dint (f k x)) false (fun x => Ok x) (fun _ => 0) isort.

Definition mk_cfg (dim lambda : nat) : cfg Z :=
  mkCfg dim lambda (-1) (-1) NegInf dbl_1em12 (-1) elit0 false false 2 false false false 1 [] all_active.

(** Sphere function on moving populations of four points of the plane, with a
    budget of three iterations. *)
Definition sphere (k : nat) (x : list Z) : Z := fold_right Z.add 0 (map (fun v => v * v) x).
Definition demo_pts (n i : nat) : list Z := [Z.of_nat ((7 * i + 3 * n) mod 5) + 3 - Z.of_nat n; Z.of_nat i - 1].
Definition demo_no : numops Z nat := toy [4; 4] demo_pts.
Definition demo_e : env Z nat := mk_env sphere.
Definition demo_g : cfg Z := set_g_max_iter 3 (set_g_max_fevals 50 (mk_cfg 2 4)).
Definition demo_h : list (op Z) := [OAsk; OGen [[3; 1]; [2; 5]; [0; 1]; [2; 5]] []; OStop; OOptimize 0 10].

Definition run (no : numops Z nat) (e : env Z nat) (g : cfg Z) (x0 : list Z) (h : list (op Z)) : res (st Z nat) :=
  do s <- st_new no g x0 0%nat; run_ops no e g h s.
Definition opt (no : numops Z nat) (e : env Z nat) (g : cfg Z) (x0 : list Z) (rf fuel : nat) : res (Z * st Z nat) :=
  do s <- st_new no g x0 0%nat; optimize no e g (round no e g) rf fuel s.

(** Elitism of scheme 3 with an iteration budget only: every run of five
    iterations is followed by a restart.  The point [0] has value 5, points 1 to
    4 value 7, the initial point 10; the script starts over at each restart. *)
Definition loop_no : numops Z nat :=
  let t := toy [9] (fun n _ => [Z.of_nat n]) in
  mkNum (n_xmean t) (fun _ _ => 0%nat) (n_reset t) (n_eigen t) (n_sample t) (n_gradpt t) (n_gradcol t) (n_tpa_points t) (n_coin t)
    (n_mutate t) (n_tpa t) (n_update t) (n_uh_scale t) (n_edm t) (n_crit t).
Definition loop_e : env Z nat :=
  mk_env (fun _ x => match x with [0] => 5 | [9] => 10 | _ => 7 end).
Definition loop_g : cfg Z := set_g_elit (mkElit false false true) (set_g_max_iter 5 (mk_cfg 1 2)).

(** Values given by the number of the call. *)
Definition table (l : list Z) : env Z nat := mk_env (fun k _ => nth k l 50).
Definition line_no : numops Z nat := toy [0] (fun n i => [Z.of_nat (10 * n + i)]).
