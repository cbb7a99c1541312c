(** Ranking SVM, include/libcmaes/surrogates/rankingsvm.hpp.

    Generic in the numbers [D] and their arithmetic [ar]: RsvmProofs.v takes
    doubles with any arithmetic, and real numbers.  Generic in the kernel, i.e.
    in the RBF width computed by RBFKernel::init (see Kernel.v), and in the
    transformation made by encode() (lines 217-230).  [draw] gives the successive
    draws of the uniform distribution, in whatever order the threads of line 263
    make them. *)
From Coq Require Import QArith.
From Verif Require Import Base.
Local Open Scope nat_scope.

Record arith (D : Type) := mkArith {
  a_add : D -> D -> D;
  a_sub : D -> D -> D;
  a_mul : D -> D -> D;
  a_div : D -> D -> D;
  a_lt : D -> D -> bool;
  a_0 : D;
  a_half : D;                       (* 0.5 *)
  a_95 : D;                         (* 0.95 *)
  a_05 : D;                         (* 0.05 *)
  a_sq : nat -> D                   (* pow(n,2) *)
}.
Arguments a_add {D}. Arguments a_sub {D}. Arguments a_mul {D}. Arguments a_div {D}. Arguments a_lt {D}.
Arguments a_0 {D}. Arguments a_half {D}. Arguments a_95 {D}. Arguments a_05 {D}. Arguments a_sq {D}.

Section Rsvm.
Context {X D : Type}.
Variable ar : arith D.
Variable cval eps : D.              (* _Cval, _epsilon *)
Variable draw : nat -> D.           (* _udist(_rng) *)

(** std::min, std::max *)
Definition a_min (a b : D) : D := if a_lt ar b a then b else a.
Definition a_max (a b : D) : D := if a_lt ar a b then b else a.

(** Members written by train and read by predict: _alpha. *)
Definition svm : Type := list D.

(** _C, lines 152-154: element nalphas-1-i is _Cval*pow(nalphas-i,2). *)
Definition weights_C (nalphas : nat) : list D :=
  rev (map (fun i => a_mul ar cval (a_sq ar (nalphas - i))) (seq 0 nalphas)).

(** _dKij(i,j), line 269, from the kernel values _K of lines 242-246. *)
Definition dK (K : nat -> nat -> D) (i j : nat) : D :=
  a_add ar (a_sub ar (a_sub ar (K i j) (K i (S j))) (K (S i) j)) (K (S i) (S j)).
(** Initial multipliers, lines 271-272. *)
Definition start_alpha (C : list D) : list D :=
  map (fun p => a_mul ar (snd p) (a_add ar (a_95 ar) (a_mul ar (a_05 ar) (draw (fst p))))) (combine (seq 0 (length C)) C).
(** sum_alphas, lines 275-284. *)
Definition start_sums (d : nat -> nat -> D) (alpha : list D) : list D :=
  map (fun i =>
    let s := fold_left (fun s p => a_add ar s (a_mul ar (snd p) (d i (fst p)))) (combine (seq 0 (length alpha)) alpha) (a_0 ar) in
    a_div ar (a_sub ar eps s) (d i i)) (seq 0 (length alpha)).

(** One iteration of lines 292-304; the state is (_alpha, sum_alphas). *)
Definition opt_step (d : nat -> nat -> D) (C : list D) (i : nat) (s : list D * list D) : res (list D * list D) :=
  let (alpha, sums) := s in
  match length alpha with
  | O => Fault DivByZero             (* i % _dKij.cols() *)
  | n =>
      let i1 := i mod n in
      match nth_error alpha i1, nth_error sums i1, nth_error C i1 with
      | Some old, Some sa, Some c =>
          let new := a_max (a_min (a_add ar old sa) c) (a_0 ar) in
          let delta := a_sub ar new old in
          let dL := a_mul ar (a_mul ar delta (d i1 i1)) (a_add ar (a_sub ar sa (a_mul ar (a_half ar) delta)) eps) in
          if a_lt ar (a_0 ar) dL then
            Ok (firstn i1 alpha ++ new :: skipn (S i1) alpha,
                map (fun p => a_sub ar (snd p) (a_mul ar delta (a_div ar (d i1 (fst p)) (d (fst p) (fst p))))) (combine (seq 0 n) sums))
          else Ok (alpha, sums)
      | _, _, _ => Fault OutOfRange
      end
  end.
Fixpoint opt_steps (d : nat -> nat -> D) (C : list D) (i k : nat) (s : list D * list D) : res (list D * list D) :=
  match k with
  | O => Ok s
  | S k' => do s' <- opt_step d C i s; opt_steps d C (S i) k' s'
  end.

(** train, lines 142-167.  A training set without point makes the dimension -1. *)
Definition train (kernel : X -> X -> D) (encode : X -> X) (x : list X) (niter : Z) : res svm :=
  match map encode x with
  | [] => Fault OutOfRange
  | (x0 :: _) as xs =>
      let nalphas := length xs - 1 in
      let C := weights_C nalphas in
      let K i j := kernel (nth i xs x0) (nth j xs x0) in
      let d := dK K in
      let alpha := start_alpha C in
      do s <- opt_steps d C 0 (Z.to_nat niter) (alpha, start_sums d alpha);
      Ok (fst s)
  end.

(** predict, lines 180-209: no value before training. *)
Definition predict_one (kernel : X -> X -> D) (alpha : svm) (train : list X) (x : X) : res D :=
  let Kv := map (kernel x) train in
  if length alpha <? length Kv - 1 then Fault OutOfRange else
  Ok (fold_left (fun s p => a_add ar s (a_mul ar (fst p) (a_sub ar (fst (snd p)) (snd (snd p)))))
        (combine alpha (combine Kv (tl Kv))) (a_0 ar)).
Definition predict (kernel : X -> X -> D) (encode : X -> X) (alpha : svm) (test train : list X) : res (list D) :=
  match alpha with
  | [] => Ok []
  | _ => mapM (predict_one kernel alpha (map encode train)) (map encode test)
  end.

(** error, lines 318-343; [None] is 0/0.  [fit] is read up to the size of [ref]. *)
Definition misordered (rf ft : D * D) : bool :=
  (a_lt ar (snd rf) (fst rf) && a_lt ar (fst ft) (snd ft)) || (a_lt ar (fst rf) (snd rf) && a_lt ar (snd ft) (fst ft)).
Definition error (kernel : X -> X -> D) (encode : X -> X) (alpha : svm) (test train : list X) (ref : list D) : res (option Q) :=
  do fit <- predict kernel encode alpha test train;
  match fit with
  | [] => Ok (Some 1%Q)
  | f0 :: _ =>
      let n := length ref in
      if length fit <? n then Fault OutOfRange else
      let err := length (filter (fun p => negb (fst p =? snd p) &&
        misordered (nth (fst p) ref f0, nth (snd p) ref f0) (nth (fst p) fit f0, nth (snd p) fit f0))
        (list_prod (seq 0 n) (seq 0 n))) in
      Ok (if n <? 2 then None else Some (inject_Z (Z.of_nat err) / inject_Z (Z.of_nat (n * n - n)))%Q)
  end.
End Rsvm.
