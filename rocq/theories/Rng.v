(** Random generators of a program with several optimisers.

    scalar_normal_dist_op::rng (eigenmvn.h:52, 63) is a static member: one
    mt19937 for the whole process, from which every sampler draws.  Eigen's
    Random (cmasolutions.cc:48, 53) draws from rand(), also shared, which the
    library never seeds.  std::random_device supplies _uhgen
    (esostrategy.cc:53-58, 69-74).

    The numeric state of an optimiser is a pair [L * G] of its own members and
    the generator; the generator is taken from the program before each call and
    given back after it.  Simplifications: [G], the seeding function and the
    sequences returned by rand() and by the device are arbitrary; threads are
    not modelled (calls of different optimisers are interleaved call by call). *)
From Verif Require Import Base Dbl Config Search SpecSearch.
Local Open Scope Z_scope.

Section Rng.
Context {T L G : Type}.
Variable seeded : Z -> G.           (* rng.seed(s) *)
Variable rnd : nat -> list T.       (* the n-th start point drawn with rand() *)
Variable device : nat -> L.         (* members initialised from the n-th reading of the device *)

(** An optimiser as the user describes it: variant, functions, parameters, seed,
    start point if any (cmasolutions.cc:45-55). *)
Record spec := mkSpec {
  sp_no : numops T (L * G);
  sp_e : env T (L * G);
  sp_g : cfg T;
  sp_seed : Z;
  sp_x0 : option (list T);
  sp_local : L                      (* members that do not depend on the device *)
}.
(** The process: generator, calls of rand(), readings of the device, optimisers. *)
Record world := mkWorld {
  w_gen : G;
  w_rand : nat;
  w_dev : nat;
  w_opts : list (spec * st T (L * G))
}.
Definition gen_of (s : st T (L * G)) : G := snd (s_num (t_sol s)).
Definition put_gen (w : G) (s : st T (L * G)) : st T (L * G) :=
  set_t_sol (set_s_num (fst (s_num (t_sol s)), w) (t_sol s)) s.

(** Constructor, esostrategy.cc:42-59, cmastrategy.cc:100-121: the members
    _uhesolver and _esolver are built with the default seed, the solution is
    built (seeding again and drawing if vd, cmasolutions.cc:78-83), and _esolver
    is assigned a sampler built with the user's seed.  Every one of these
    constructors seeds the shared generator (eigenmvn.h:94-107); only the seed
    given to the solution and the last one matter. *)
Definition construct (sp : spec) (x0 : list T) (l : L) : res (st T (L * G)) :=
  do s <- st_new (sp_no sp) (sp_g sp) x0 (l, seeded (sp_seed sp));
  Ok (put_gen (seeded (sp_seed sp)) s).

Inductive event :=
| New (sp : spec)
| On (i : nat) (o : op T).
Definition step (ev : event) (w : world) : res world :=
  match ev with
  | New sp =>
      let x0 := match sp_x0 sp with Some x => x | None => rnd (w_rand w) end in
      let r := match sp_x0 sp with Some _ => w_rand w | None => S (w_rand w) end in
      let l := if g_uh (sp_g sp) then device (w_dev w) else sp_local sp in
      let d := if g_uh (sp_g sp) then S (w_dev w) else w_dev w in
      do s <- construct sp x0 l;
      Ok (mkWorld (gen_of s) r d (w_opts w ++ [(sp, s)]))
  | On i o =>
      do p <- at_ (w_opts w) (Z.of_nat i);
      let sp := fst p in
      do s <- do_op (sp_no sp) (sp_e sp) (sp_g sp) o (put_gen (w_gen w) (snd p));
      do os <- upd_at (w_opts w) (Z.of_nat i) (sp, s);
      Ok (mkWorld (gen_of s) (w_rand w) (w_dev w) os)
  end.
Fixpoint steps (p : list event) (w : world) : res world :=
  match p with
  | [] => Ok w
  | ev :: p' => do w' <- step ev w; steps p' w'
  end.
End Rng.
Arguments event T L G : clear implicits.
Arguments world T L G : clear implicits.
Arguments spec T L G : clear implicits.
