(** Concrete numeric instances used by the examples and counterexamples of the
    property files on the numeric part. *)
From Coq Require Import Reals List.
From Verif Require Import Base Dbl Vec Params Config Search SpecSearch Demo Update.
Import ListNotations.
Open Scope R_scope.

(** Parameters [k], update [fl], step size 1; the draws are 1, 2, 0 repeated. *)
Definition demo_normal (i : nat) : R := INR (Nat.modulo (S i) 3).
Definition npar_of (k : cpar) (fl : flavour) : npar :=
  mkNpar k fl 1 false (/ 1000000000000) 0.3 (/ 10000000) (fun _ => (fun _ => 1, ident)) demo_normal (fun _ => 1 / 2)
    (fun x => x) (fun x => x) (fun _ => None) (fun x => x).
Definition cfg_of (k : cpar) : cfg R :=
  mkCfg (k_dim k) (k_lambda k) (-1) (-1) NegInf dbl_1em12 (-1) elit0 false false 2 false false (k_vd k) (k_tpa k) (k_fixed k) all_active.
(** Objective whose value depends on the number of the call only. *)
Definition call_env (f : nat -> Z) : env R num :=
  mkEnv (fun j _ => dint (f j)) false (fun x => Ok x) (fun _ => 0%Z) isort.
Definition flat_env : env R num := call_env (fun _ => 0%Z).
Definition zig (j : nat) : Z := Z.of_nat (Nat.modulo (3 * j) 5).
(** An earlier state of the random streams. *)
Definition num0 : num :=
  mkNu (fun _ => 0) (fun _ => 0) 0 ident (fun _ => 0) (fun _ => 0) ident (fun _ => 0) (fun _ => 0) 0 false 0 (fun _ => 0)
    ((fun _ => 0), ident) (fun _ => 0) ident 0 0 0 0 0 0 0.
(** The same with a given eigensolver. *)
Definition npar_eig (k : cpar) (fl : flavour) (eig : list (list R) -> vec * mat) : npar :=
  mkNpar k fl 1 false (/ 1000000000000) 0.3 (/ 10000000) eig demo_normal (fun _ => 1 / 2)
    (fun x => x) (fun x => x) (fun _ => None) (fun x => x).
(** Exact eigensolvers in dimensions 1 and 2: in dimension 2 the larger
    eigenvalue comes first, with eigenvector (b, e) for a matrix (a b; b c). *)
Definition eig1 (l : list (list R)) : vec * mat := (fun _ => nth 0 (nth 0 l []) 0, ident).
Definition eig2 (l : list (list R)) : vec * mat :=
  let a := nth 0 (nth 0 l []) 0 in let b := nth 1 (nth 0 l []) 0 in let c := nth 1 (nth 1 l []) 0 in
  if Req_EM_T b 0 then (fun i => if Nat.eqb i 0 then a else c, ident)
  else
    let r := sqrt ((a - c) * (a - c) + 4 * (b * b)) in
    let ev := (a + c + r) / 2 in
    let e := ev - a in
    let m := sqrt (b * b + e * e) in
    (fun i => if Nat.eqb i 0 then ev else a + c - ev,
     fun i j => if Nat.eqb j 0 then (if Nat.eqb i 0 then b / m else e / m) else (if Nat.eqb i 0 then - e / m else b / m)).
