(** Model of the error estimation: src/errstats.cc, include/libcmaes/pli.h,
    include/libcmaes/contour.h, include/libcmaes/cmasolutions.h:179-188.  Exact
    real arithmetic; a division by zero is a fault.  The objective function is a
    function from points of any size to reals.  The search run by optimize_vpk
    is an oracle that returns the best candidate of its solution. *)
From Coq Require Import Reals.
From Verif Require Import Base EoMatrix Pwq Scaling GenoPheno.
Open Scope R_scope.

Definition rlt (a b : R) : bool := if Rlt_dec a b then true else false.
Definition rle (a b : R) : bool := if Rle_dec a b then true else false.

(** Indexed access (Eigen operator[] and operator(), vector::at). *)
Definition get {A} (l : list A) (i : Z) : res A :=
  if (i <? 0)%Z then Fault OutOfRange else
  match nth_error l (Z.to_nat i) with Some a => Ok a | None => Fault OutOfRange end.
Definition put_nat {A} (l : list A) (i : nat) (a : A) : list A := firstn i l ++ a :: skipn (S i) l.
Definition put {A} (l : list A) (i : Z) (a : A) : res (list A) :=
  if (i <? 0)%Z || (Z.of_nat (length l) <=? i)%Z then Fault OutOfRange
  else Ok (put_nat l (Z.to_nat i) a).

(** Fields of the class pli, pli.h:152-164. *)
Record pli := mkPli {
  p_k : nat;
  p_size : nat;                (* _samplesize *)
  p_fvaluem : list R;
  p_xm : list (list R);        (* rows, in phenotype *)
  p_min : R; p_max : R; p_errmin : R; p_errmax : R;
  p_minindex : Z; p_maxindex : Z;
  p_err : list Z;
  p_fup : R; p_delta : R
}.
(** Constructor, pli.h:53-60: the vectors have 2*samplesize+1 entries. *)
Definition pli_new (k samplesize dim : nat) (xm : list R) (fvalue fup delta : R) : res pli :=
  let n := (2 * samplesize + 1)%nat in
  do xs <- (if (length xm =? dim)%nat then put (repeat (repeat 0 dim) n) (Z.of_nat samplesize) xm else Fault SizeMismatch);
  do fs <- put (repeat 0 n) (Z.of_nat samplesize) fvalue;
  do es <- put (repeat 0%Z n) (Z.of_nat samplesize) 1%Z;
  Ok (mkPli k samplesize fs xs 0 0 0 0 (-1) (-1) es fup delta).
(** One stored point: _fvaluem[i], _xm.row(i), _err[i]. *)
Definition pli_store (i : Z) (f : R) (x : list R) (err : Z) (l : pli) : res pli :=
  do fs <- put (p_fvaluem l) i f;
  do xs <- put (p_xm l) i x;
  do es <- put (p_err l) i err;
  Ok (mkPli (p_k l) (p_size l) fs xs (p_min l) (p_max l) (p_errmin l) (p_errmax l)
        (p_minindex l) (p_maxindex l) es (p_fup l) (p_delta l)).

(** Index of the first smallest entry (Eigen minCoeff with an index; it requires
    a non-empty vector). *)
Fixpoint argmin_from (i bi : nat) (b : R) (l : list R) : nat :=
  match l with
  | [] => bi
  | a :: l' => if rlt a b then argmin_from (S i) i a l' else argmin_from (S i) bi b l'
  end.
Definition argmin (l : list R) : res nat :=
  match l with [] => Fault OutOfRange | a :: l' => Ok (argmin_from 1 0 a l') end.

(** getMinMax, pli.h:70-80. *)
Definition getMinMax (fvalue : R) (l : pli) : res (R * R * nat * nat) :=
  let s := p_size l in
  do i <- argmin (map (fun v => Rabs (v - fvalue)) (firstn s (p_fvaluem l)));
  do j <- argmin (map (fun v => Rabs (v - fvalue)) (skipn (length (p_fvaluem l) - s) (p_fvaluem l)));
  do ri <- get (p_xm l) (Z.of_nat i);
  do mi <- get ri (Z.of_nat (p_k l));
  do rj <- get (p_xm l) (Z.of_nat (s + 1 + j));
  do ma <- get rj (Z.of_nat (p_k l));
  Ok (if rlt ma mi then (ma, mi, i, j) else (mi, ma, i, j)).
(** setMinMax and setErrMinMax, pli.h:85-100. *)
Definition setErrMinMax (l : pli) : res pli :=
  do f0 <- get (p_fvaluem l) (Z.of_nat (p_size l));
  do q <- getMinMax (f0 + p_fup l) l;
  let '(mi, ma, i, j) := q in
  do r <- get (p_xm l) (Z.of_nat (p_size l));
  do x <- get r (Z.of_nat (p_k l));
  Ok (mkPli (p_k l) (p_size l) (p_fvaluem l) (p_xm l) mi ma (mi - x) (ma - x)
        (Z.of_nat i) (Z.of_nat j) (p_err l) (p_fup l) (p_delta l)).

(** What error estimation reads of a candidate and of a solution object. *)
Record ecand := mkEC { ec_x : list R; ec_f : R }.
Record esol := mkES {
  s_cands : list ecand;          (* _candidates *)
  s_hist : list ecand;           (* _best_candidates_hist *)
  s_eigv : list (list R);        (* rows of _leigenvectors *)
  s_nevals : Z;
  s_status : Z;                  (* _run_status *)
  s_pls : list (nat * pli)       (* _pls *)
}.
(** best_candidate, cmasolutions.h:103-112, once a generation has been told; the
    NaN candidate of an earlier call is a fault here. *)
Definition best (s : esol) : res ecand :=
  match rev (s_hist s) with c :: _ => Ok c | [] => Fault EmptyFront end.
(** get_pli, cmasolutions.h:179-188. *)
Definition get_pli (k : nat) (s : esol) : option pli :=
  match find (fun q => (fst q =? k)%nat) (s_pls s) with Some q => Some (snd q) | None => None end.
(** _pls.insert, errstats.cc:55: std::map::insert keeps an existing entry. *)
Definition insert_pli (k : nat) (l : pli) (s : esol) : esol :=
  match get_pli k s with
  | Some _ => s
  | None => mkES (s_cands s) (s_hist s) (s_eigv s) (s_nevals s) (s_status s) (s_pls s ++ [(k, l)])
  end.

(** Parameters read by error estimation. *)
Record epar := mkEP {
  a_dim : nat; a_gp : genopheno; a_lambda : Z; a_seed : Z; a_ftarget : R;
  a_x0min : list R; a_ftol : R
}.
(** Parameters of the inner search, errstats.cc:271-274 (initial_fvalue is set). *)
Record ipar := mkIP { i_x0 : list R; i_sigma : R; i_lambda : Z; i_seed : Z; i_gp : genopheno; i_ftarget : R }.
(** What is read of its solution. *)
Record iout := mkIO { o_x : list R; o_f : R; o_nevals : Z; o_status : Z }.

Section Errstats.
Variable func : list R -> R.
Variable par : epar.
Variable cmaes : (list R -> R) -> ipar -> res iout.   (* cmaes.h, errstats.cc:289 *)

(** optimize_vpk, errstats.cc:232-313; the indices given to addElement are those
    that were stored, so that the default of [rfunc] is not used. *)
Definition vpk_sigma (c0 : list R) (k : list nat) (vk : list R) : res R :=
  let fix go (kv : list (nat * R)) (s : R) : res R :=
    match kv with
    | [] => Ok s
    | (i, v) :: r => do c <- get c0 (Z.of_nat i); go r (Rmax s (Rabs (c - v)))
    end in
  if (length k =? length vk)%nat then go (rev (combine k vk)) 0 else Fault OutOfRange.
Fixpoint put_all (kv : list (nat * R)) (v : list R) : res (list R) :=
  match kv with
  | [] => Ok v
  | (i, a) :: r => do v' <- put v (Z.of_nat i) a; put_all r v'
  end.
Fixpoint add_all (k : list nat) (vals : list R) (x : list R) : res (list R) :=
  match k with
  | [] => Ok x
  | i :: r => do v <- get vals (Z.of_nat i); add_all r vals (addElement x (Z.of_nat i) v)
  end.
Fixpoint add_each (kv : list (nat * R)) (x : list R) : list R :=
  match kv with [] => x | (i, v) :: r => add_each r (addElement x (Z.of_nat i) v) end.
Definition optimize_vpk (sol : esol) (k : list nat) (vk x0 : list R) (pheno_x0 pheno_vk : bool) : res esol :=
  do rx0 <- (if pheno_x0 then Ok x0 else pheno (a_gp par) x0);
  let ngp := gp_remove (a_gp par) (map Z.of_nat k) in
  do c0 <- get (s_cands sol) 0;
  do sigma <- vpk_sigma (ec_x c0) k vk;
  let rx0 := fold_left (fun v i => removeElement v (Z.of_nat i)) (rev k) rx0 in
  do pvk <- put_all (combine k vk) (repeat 0 (length x0));
  do pvk <- (if pheno_vk then Ok pvk else pheno (a_gp par) pvk);
  match rx0 with
  | [] => (* errstats.cc:262-270: the history receives the candidate of the given solution *)
      Ok (mkES [mkEC pvk (func pvk)] [c0] [] 1 0 [])
  | _ =>
      let rfunc := fun x => match add_all k pvk x with Ok nx => func nx | Fault _ => 0 end in
      do o <- cmaes rfunc (mkIP rx0 sigma (a_lambda par) (a_seed par) ngp (a_ftarget par));
      do nx <- (if pheno_vk then do gpvk <- geno (a_gp par) pvk; add_all k gpvk (o_x o)
                else Ok (add_each (combine k vk) (o_x o)));
      let c := mkEC nx (o_f o) in
      Ok (mkES [c] [c] [] (o_nevals o) (o_status o) [])
  end.
(** optimize_pk, errstats.cc:315-328. *)
Definition optimize_pk (sol : esol) (k : nat) (vk : R) (x0 : list R) (pheno_x0 pheno_vk : bool) : res esol :=
  optimize_vpk sol [k] [vk] x0 pheno_x0 pheno_vk.

(** getPhenoLBound(k) <= y[k] <= getPhenoUBound(k); no bounds: -DBL_MAX and
    DBL_MAX, always satisfied. *)
Definition in_bounds (y : list R) (k : nat) : res bool :=
  do v <- get y (Z.of_nat k);
  match pheno_bounds (a_gp par) with
  | None => Ok true
  | Some bs => do b <- get bs (Z.of_nat k); Ok (rle (fst b) v && rle v (snd b))
  end.
(** eigenve.transpose() * dv where dv is zero except for d at k. *)
Definition direction (eigv : list (list R)) (k : nat) (d : R) : res (list R) :=
  if (length eigv =? a_dim par)%nat then
    do r <- get eigv (Z.of_nat k); Ok (map (fun e => e * d) r)
  else Fault SizeMismatch.
Definition vadd (x y : list R) : res (list R) := mapM2 (fun a b => Ok (a + b)) x y.
Definition vsub (x y : list R) : res (list R) := mapM2 (fun a b => Ok (a - b)) x y.

(** The two loops of take_linear_step, errstats.cc:187-204 (above) and 209-226
    (below); returns d and xtmp. *)
Definition far (above : bool) (fup fdelta fdiff : R) : bool :=
  if above then rlt (fup + fdelta) fdiff else rlt fdiff (fup - fdelta).
Fixpoint step_loop (fuel : nat) (above : bool) (k : nat) (minf fup fdelta : R) (linit : bool) (eigv : list (list R))
    (x : list R) (i : nat) (d : R) (xtmp y : list R) (fdiff : R) : res (R * list R) :=
  match fuel with
  | O => Fault Diverges
  | S fuel' =>
      if far above fup fdelta fdiff && (0 <? i)%nat then
        do ok <- in_bounds y k;
        if ok then
          let d := if above then d / 2 else d * 2 in
          do dv <- direction eigv k d;
          do xtmp <- vadd x dv;
          do y <- pheno (a_gp par) xtmp;
          step_loop fuel' above k minf fup fdelta linit eigv x (if linit then i else pred i) d xtmp y
            (Rabs (func y - minf))
        else Ok (d, xtmp)
      else Ok (d, xtmp)
  end.
(** take_linear_step, errstats.cc:158-229; returns d and x. *)
Definition take_linear_step (fuel : nat) (k : nat) (minf fup delta : R) (n : nat) (linit : bool) (eigv : list (list R))
    (d : R) (x : list R) : res (R * list R) :=
  let fdelta := delta * fup in
  do y <- pheno (a_gp par) x;
  let fdiff := Rabs (func y - minf) in
  if rlt (fup + fdelta) fdiff then
    do dv <- direction eigv k d;
    do x1 <- vsub x dv;
    do q <- step_loop fuel true k minf fup fdelta linit eigv x1 n d x y fdiff;
    do v <- get (snd q) (Z.of_nat k);
    do x2 <- put x1 (Z.of_nat k) v;
    Ok (fst q, x2)
  else
    do q <- step_loop fuel false k minf fup fdelta linit eigv x n d x y fdiff;
    do v <- get (snd q) (Z.of_nat k);
    do x2 <- put x (Z.of_nat k) v;
    Ok (fst q, x2).

(** Padding loops, errstats.cc:98-103, 110-115, 142-147. *)
Fixpoint pad (j : nat) (n : nat) (s : Z) (sign : Z) (f : R) (x : list R) (err : Z) (l : pli) : res pli :=
  match n with
  | O => Ok l
  | S n' => do l' <- pli_store (s + sign * (1 + Z.of_nat j)) f x err l; pad (S j) n' s sign f x err l'
  end.
(** Padding with the stored centre. *)
Definition pad_centre (samplesize : nat) (sign : Z) (err : Z) (l : pli) : res pli :=
  match samplesize with
  | O => Ok l
  | _ => do f <- get (p_fvaluem l) (Z.of_nat samplesize);
         do x <- get (p_xm l) (Z.of_nat samplesize);
         pad 0 samplesize (Z.of_nat samplesize) sign f x err l
  end.
(** profile_likelihood_search, errstats.cc:59-155; [fuel] bounds the iterations
    and, separately, the loops of take_linear_step.  The iteration number is
    compared to maxiters for equality. *)
Fixpoint pl_loop (fuel lfuel : nat) (sol : esol) (k : nat) (sign : Z) (samplesize : nat) (minf fup delta : R)
    (maxiters : Z) (curve : bool) (i : nat) (linit : bool) (d : R) (x : list R) (l : pli) : res pli :=
  match fuel with
  | O => Fault Diverges
  | S fuel' =>
      do q <- take_linear_step lfuel k minf fup delta 10 linit (s_eigv sol) d x;
      let (d, x) := (q : R * list R) in
      do v <- get x (Z.of_nat k);
      do nsol <- optimize_pk sol k v x false false;
      if (s_status nsol <? 0)%Z then pad_centre samplesize sign (s_status nsol) l
      else
        do b <- best nsol;
        if rlt (ec_f b) (0.1 * minf) then pad_centre samplesize sign (s_status nsol) l
        else
          do y <- pheno (a_gp par) (ec_x b);
          do l <- (if curve then pli_store (Z.of_nat samplesize + sign * (1 + Z.of_nat i)) (ec_f b) y (s_status nsol) l
                   else Ok l);
          if negb curve && rle (Rabs (ec_f b - minf - fup)) (0.1 * fup) then
            pad 0 samplesize (Z.of_nat samplesize) sign (ec_f b) y (s_status nsol) l
          else
            let i := S i in
            if curve && (i =? samplesize)%nat then Ok l
            else if (Z.of_nat i =? maxiters)%Z then Ok l
            else pl_loop fuel' lfuel sol k sign samplesize minf fup delta maxiters curve i false d (ec_x b) l
  end.
Definition profile_likelihood_search (fuel lfuel : nat) (l : pli) (sol : esol) (k : nat) (neg : bool) (samplesize : nat)
    (fup delta : R) (maxiters : Z) (curve : bool) : res pli :=
  let sign := if neg then (-1)%Z else 1%Z in
  do b <- best sol;
  do xk <- get (ec_x b) (Z.of_nat k);
  pl_loop fuel lfuel sol k sign samplesize (ec_f b) fup delta maxiters curve 0 true (IZR sign * xk * 0.1) (ec_x b) l.
(** profile_likelihood, errstats.cc:29-57; returns the interval and the updated
    solution object. *)
Definition profile_likelihood (fuel lfuel : nat) (sol : esol) (k : nat) (curve : bool) (samplesize : nat)
    (fup delta : R) (maxiters : Z) : res (pli * esol) :=
  do b <- best sol;
  do y <- pheno (a_gp par) (ec_x b);
  do l <- pli_new k samplesize (a_dim par) y (ec_f b) fup delta;
  do l <- profile_likelihood_search fuel lfuel l sol k false samplesize fup delta maxiters curve;
  do l <- profile_likelihood_search fuel lfuel l sol k true samplesize fup delta maxiters curve;
  do l <- setErrMinMax l;
  Ok (l, insert_pli k l sol).

(** * Contours *)
(** class fcross, contour.h:32-45; the default object has no evaluations. *)
Record fcross := mkFC { f_value : R; f_nevals : Z; f_x : list R }.
Definition fc_empty : fcross := mkFC 0 0 [].
(** The point of a solution, in phenotype (candidate.h:113-118). *)
Definition pheno_best (s : esol) : res (list R) := do b <- best s; pheno (a_gp par) (ec_x b).
Definition best_f (s : esol) : res R := do b <- best s; Ok (ec_f b).

Section Cross.
Variable sol : esol.
Variables px py : nat.
Variables pmid pdir : R * R.
Variables fup ftol : R.

Definition vpk2 (s : esol) (a b : R) : res esol :=
  optimize_vpk s [px; py] [a; b] (a_x0min par) true true.
Definition along (a : R) : res esol := vpk2 sol (fst pmid + a * fst pdir) (snd pmid + a * snd pdir).

(** Variables of cross that live across its jumps. *)
Record cst := mkC {
  x_al : R * R * R;            (* alsb *)
  x_fl : R * R * R;            (* flsb *)
  x_sols : list esol;          (* cmasols *)
  x_dfda : R;
  x_nfcn : Z;
  x_tla : R
}.
(** Lines 520-544: look for a positive slope; [todo] steps remain. *)
Fixpoint slope_loop (todo : nat) (it : nat) (c : cst) : res cst :=
  match todo with
  | O => Ok c
  | S todo' =>
      let '(_, a1, a2) := x_al c in
      let '(_, f1, f2) := x_fl c in
      let aopt := a1 + 0.2 * INR (S it) in
      do t <- along aopt;
      do ft <- best_f t;
      do df <- rdiv (ft - f1) (aopt - a1);
      do ss <- put (x_sols c) 1 t;
      let c' := mkC (a1, aopt, a2) (f1, ft, f2) ss df (x_nfcn c + s_nevals t) (x_tla c) in
      if rlt 0 df then Ok c' else slope_loop todo' (S it) c'
  end.
Definition slope (c : cst) : res cst := if rlt (x_dfda c) 0 then slope_loop 13 0 c else Ok c.

Definition pick {A} (q : A * A * A) (i : nat) : A :=
  let '(a, b, c) := q in match i with O => a | S O => b | _ => c end.
Definition store {A} (q : A * A * A) (i : nat) (v : A) : A * A * A :=
  let '(a, b, c) := q in match i with O => (v, b, c) | S O => (a, v, c) | _ => (a, b, v) end.

(** Lines 592-612: best, worst and number of points below the level. *)
Definition judge (fl : R * R * R) (aim : R) : nat * nat * nat * R :=
  let step (s : R * R * nat * nat * nat) (i : nat) :=
    let '(ecarmn, ecarmx, ibest, iworst, noless) := s in
    let e := Rabs (pick fl i - aim) in
    let '(ecarmx, iworst) := if rlt ecarmx e then (e, i) else (ecarmx, iworst) in
    let '(ecarmn, ibest) := if rlt e ecarmn then (e, i) else (ecarmn, ibest) in
    (ecarmn, ecarmx, ibest, iworst, if rlt (pick fl i) aim then S noless else noless) in
  let '(ecarmn, ecarmx, ibest, iworst, noless) :=
    step (step (step (Rabs (pick fl 2 - aim), 0, 2%nat, 0%nat, 0%nat) 0%nat) 1%nat) 2%nat in
  (ibest, iworst, noless, ecarmx).
(** Lines 618-636: the closest point on the other side. *)
Definition other_side (fl : R * R * R) (aim : R) (ibest : nat) (ecarmx : R) : option nat :=
  let below := rlt (pick fl ibest) aim in
  let step (s : R * option nat) (i : nat) :=
    let (ref, p) := (s : R * option nat) in
    if negb (i =? ibest)%nat && (if below then rlt aim (pick fl i) else rlt (pick fl i) aim) then
      let e := Rabs (pick fl i - aim) in if rle e ref then (e, Some i) else s
    else s in
  snd (step (step (step (ecarmx, None) 0%nat) 1%nat) 2%nat).
(** The line search of lines 661-681; nminfvalue is only read after it has been
    assigned. *)
Fixpoint advance (fuel : nat) (aim : R) (dx dy : R) (xs : R * R) (cit : esol) : res esol :=
  match fuel with
  | O => Fault Diverges
  | S fuel' =>
      let xs := (fst xs + dx, snd xs + dy) in
      do n <- vpk2 cit (fst xs) (snd xs);
      do f <- best_f n;
      if rlt aim f then Ok cit else advance fuel' aim dx dy xs n
  end.
Definition sgn_step (a b v : R) : R := (if rlt 0 (a - b) then 1 else -1) * Rabs v * 0.1.
(** Lines 615-688. *)
Definition refine (fuel : nat) (aim : R) (c : cst) (ibest : nat) (ecarmx : R) : res fcross :=
  match other_side (x_fl c) aim ibest ecarmx with
  | None => Fault OutOfRange                     (* cmasols.at(-1) *)
  | Some srefp =>
      do ss <- get (x_sols c) (Z.of_nat srefp);
      do sb <- get (x_sols c) (Z.of_nat ibest);
      do ys <- pheno_best ss;
      do yb <- pheno_best sb;
      do s0 <- get ys (Z.of_nat px); do b0 <- get yb (Z.of_nat px);
      do s1 <- get ys (Z.of_nat py); do b1 <- get yb (Z.of_nat py);
      do fb <- best_f sb;
      let x0 := if rlt fb aim then b0 else s0 in
      let x1 := if rlt fb aim then b1 else s1 in
      do r <- advance fuel aim (sgn_step s0 b0 x0) (sgn_step s1 b1 x1) (x0, x1) sb;
      do cd <- get (s_cands r) 0;
      do y <- pheno (a_gp par) (ec_x cd);
      Ok (mkFC (ec_f cd) (x_nfcn c) y)
  end.

(** From the label point3, lines 548-725.  [tent] is the variable tentatives,
    reset by a jump to the label slope; [sol2] is cmasol2. *)
Fixpoint point3 (fuel lfuel : nat) (aim : R) (tlf : R) (sol2 : esol) (tent : nat) (c : cst) : res fcross :=
  match fuel with
  | O => Fault Diverges
  | S fuel' =>
      let tent := S tent in
      let '(a0, a1, a2) := x_al c in
      let '(f0, f1, f2) := x_fl c in
      do r <- rdiv (aim - f1) (x_dfda c);
      let aopt := a1 + r in
      let fdist := Rmin (Rabs (aim - f0)) (Rabs (aim - f1)) in
      let adist := Rmin (Rabs (aopt - a0)) (Rabs (aopt - a1)) in
      let tla := if rlt 1 (Rabs aopt) then ftol * Rabs aopt else x_tla c in
      if rlt adist tla && rlt fdist tlf then
        do f <- best_f sol2; do y <- pheno_best sol2; Ok (mkFC f (x_nfcn c) y)
      else
        let bmin := Rmin a0 a1 - 1 in
        let aopt := if rlt aopt bmin then bmin else aopt in
        let bmax := Rmax a0 a1 + 1 in
        let aopt := if rlt bmax aopt then bmax else aopt in
        do t <- along aopt;
        do ft <- best_f t;
        let al := (a0, a1, aopt) in
        let fl := (f0, f1, ft) in
        let ss := firstn 2 (x_sols c) ++ [t] in
        let nf := (x_nfcn c + s_nevals t)%Z in
        let '(ibest, iworst, noless, ecarmx) := judge fl aim in
        let c' := mkC al fl ss (x_dfda c) nf tla in
        if (noless =? 1)%nat || (noless =? 2)%nat then refine lfuel aim c' ibest ecarmx
        else if (noless =? 0)%nat && negb (ibest =? 2)%nat then
          do s <- get ss (Z.of_nat ibest); do y <- pheno_best s; Ok (mkFC (pick fl ibest) nf y)
        else if (noless =? 3)%nat && negb (ibest =? 2)%nat then
          do c2 <- slope (mkC (a0, aopt, aopt) (f0, ft, ft) ss (x_dfda c) nf tla);
          point3 fuel' lfuel aim tlf sol2 0 c2
        else
          let fl := store fl iworst ft in
          let al := store al iworst aopt in
          do df <- rdiv (pick fl 1 - pick fl 0) (pick al 1 - pick al 0);
          if (tent <? 10)%nat then point3 fuel' lfuel aim tlf sol2 tent (mkC al fl ss df nf tla)
          else Ok fc_empty
  end.
(** cross, errstats.cc:463-726. *)
Definition cross (fuel lfuel : nat) : res fcross :=
  do b <- best sol;
  let aminsv := ec_f b in
  let aim := aminsv + fup in
  do s1 <- vpk2 sol (fst pmid) (snd pmid);
  do g0 <- best_f s1;
  let f0 := Rmax g0 (aminsv + 0.1 * fup) in
  do q <- rdiv fup (f0 - aminsv);
  let aopt := sqrt q - 1 in
  let aopt := if rlt 1 aopt then 1 else if rlt aopt (-0.5) then 0.5 else aopt in
  do s2 <- along aopt;
  do f1 <- best_f s2;
  do df <- rdiv (f1 - f0) (aopt - 0);
  do c <- slope (mkC (0, aopt, 0) (f0, f1, 0) [s1; s2] df (s_nevals s1 + s_nevals s2) ftol);
  point3 fuel lfuel aim (ftol * fup) s2 0 c.
End Cross.

(** Lines 397-415: the two neighbouring points with the largest distance; the
    result is (idist1, idist2) as indices. *)
Definition dist2 (scalx scaly : R) (p q : R * R) : R :=
  let dx := fst p - fst q in let dy := snd p - snd q in
  scalx * scalx * dx * dx + scaly * scaly * dy * dy.
Fixpoint widest (scalx scaly : R) (i : nat) (big : R) (w : nat * nat) (ps : list (R * R)) : nat * nat :=
  match ps with
  | p :: ((q :: _) as r) =>
      if rlt big (dist2 scalx scaly p q) then widest scalx scaly (S i) (dist2 scalx scaly p q) (i, S i) r
      else widest scalx scaly (S i) big w r
  | _ => w
  end.
(** add_point, contour.h:61-70: at the end, or before the second point. *)
Definition add_point (i : nat) (p : R * R) (ps : list (R * R)) : list (R * R) :=
  match i with O => ps ++ [p] | _ => insert_at i p ps end.
(** The loop of lines 388-453, [todo] points remain to be tried. *)
Fixpoint more_points (todo : nat) (fuel lfuel : nat) (sol : esol) (px py : nat) (fup scalx scaly : R) (ps : list (R * R)) : res (list (R * R)) :=
  match todo with
  | O => Ok ps
  | S todo' =>
      let last := (length ps - 1)%nat in
      do pl <- get ps (Z.of_nat last);
      do pf <- get ps 0;
      let (i1, i2) := widest scalx scaly 0 (dist2 scalx scaly pl pf) (last, 0%nat) ps in
      do q1 <- get ps (Z.of_nat i1);
      do q2 <- get ps (Z.of_nat i2);
      let xdir := snd q2 - snd q1 in
      let ydir := fst q1 - fst q2 in
      let sf := Rmax (Rabs (xdir * scalx)) (Rabs (ydir * scaly)) in
      do xd <- rdiv xdir sf;
      do yd <- rdiv ydir sf;
      do fc <- cross sol px py (0.5 * fst q1 + 0.5 * fst q2, 0.5 * snd q1 + 0.5 * snd q2) (xd, yd) fup (a_ftol par) fuel lfuel;
      if (f_nevals fc =? 0)%Z then more_points todo' fuel lfuel sol px py fup scalx scaly ps
      else
        do a <- get (f_x fc) (Z.of_nat px);
        do b <- get (f_x fc) (Z.of_nat py);
        more_points todo' fuel lfuel sol px py fup scalx scaly (add_point i2 (a, b) ps)
  end.
(** Lines 338-351: a cached interval is reused whatever its level. *)
Definition pli_for (fuel lfuel : nat) (sol : esol) (k : nat) (fup delta : R) (maxiters : Z) : res (pli * esol) :=
  match get_pli k sol with
  | Some l => Ok (l, sol)
  | None =>
      do q <- profile_likelihood fuel lfuel sol k false 10 fup delta maxiters;
      match get_pli k (snd q) with Some l => Ok (l, snd q) | None => Fault OutOfRange end
  end.
(** contour_points, errstats.cc:330-461; the value is the list of points and the
    updated solution. *)
Definition contour_points (fuel lfuel : nat) (px py : nat) (npoints : Z) (fup : R) (sol : esol) (delta : R) (maxiters : Z) : res (list (R * R) * esol) :=
  do qx <- pli_for fuel lfuel sol px fup delta maxiters;
  do qy <- pli_for fuel lfuel (snd qx) py fup delta maxiters;
  let plx := fst qx in let ply := fst qy in let sol := snd qy in
  do phenox <- pheno_best sol;
  do valx <- get phenox (Z.of_nat px);
  do valy <- get phenox (Z.of_nat py);
  let at_k k v := do s <- optimize_pk sol k v (a_x0min par) true true; pheno_best s in
  do exy_up <- at_k px (valx + p_errmax plx);
  do exy_lo <- at_k px (valx + p_errmin plx);
  do eyx_up <- at_k py (valy + p_errmax ply);
  do eyx_lo <- at_k py (valy + p_errmin ply);
  do y1 <- get exy_lo (Z.of_nat py);
  do x2 <- get eyx_lo (Z.of_nat px);
  do y3 <- get exy_up (Z.of_nat py);
  do x4 <- get eyx_up (Z.of_nat px);
  let ps := [(valx + p_errmin plx, y1); (x2, valy + p_errmin ply); (valx + p_errmax plx, y3); (x4, valy + p_errmax ply)] in
  do r <- (if (npoints <=? 4)%Z then Ok ps     (* the scales are not used *)
           else do scalx <- rdiv 1 (p_errmax plx - p_errmin plx);
                do scaly <- rdiv 1 (p_errmax ply - p_errmin ply);
                more_points (Z.to_nat (npoints - 4)) fuel lfuel sol px py fup scalx scaly ps);
  Ok (r, sol).
End Errstats.
