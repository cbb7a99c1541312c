(** Concrete programs with several optimisers: the generator is a counter, each
    drawn point is its value. *)
From Verif Require Import Base Dbl Config Search SpecSearch Demo Rng SpecRng.
Local Open Scope Z_scope.

Definition ctr_no : numops Z (nat * Z) :=
  mkNum (fun _ => [0]) (fun _ n => n) (fun n => n) (fun _ n => n)
    (fun k n => (map (fun i => [snd n + Z.of_nat i]) (seq 0 k), (fst n, snd n + Z.of_nat k)))
    (fun _ x => x) (fun _ _ => None) (fun n => ([0], [0], n))
    (fun n => (Nat.odd (fst n), (S (fst n), snd n)))
    (fun cols n => (map (map (Z.add (snd n))) cols, (fst n, snd n + 1)))
    (fun _ n => n) (fun _ _ n => n) (fun n => n) (fun _ n => n) (fun _ _ => false).
Definition ctr_e : env Z (nat * Z) := mkEnv (fun _ x => dint (nth 0 x 0)) false (fun x => Ok x) (fun _ => 0) isort.
Definition ctr_g : cfg Z := set_g_max_iter 2 (mk_cfg 1 3).
Definition ctr_sp (x0 : option (list Z)) (sd : Z) : spec Z nat Z := mkSpec ctr_no ctr_e ctr_g sd x0 0%nat.
Definition uh_sp (sd : Z) : spec Z nat Z :=
  mkSpec ctr_no (mkEnv (fun _ _ => dint 0) false (fun x => Ok x) (fun _ => 0) isort) (set_g_uh true ctr_g) sd (Some [7]) 0%nat.
(** rand() and the device as counters; the initial point of a run is where the
    objective is first called when it is asked for ([g_init]). *)
Definition ctr_rnd (n : nat) : list Z := [100 * Z.of_nat n].
Definition ctr_dev (n : nat) : nat := n.
Definition ctr_run (p : list (event Z nat Z)) : res (world Z nat Z) := steps (fun z => z) ctr_rnd ctr_dev p (fresh 42).
Definition full_run (i : nat) : event Z nat Z := On i (OOptimize 1 10).
