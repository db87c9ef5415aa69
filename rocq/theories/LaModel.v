(** * Model of linalg.c: BLAS-like routines of level 1, 2 and 3 and Cholesky factorization

    All the routines of linalg.c that are compiled are modelled (linalg.c 43-1730, the second OPK_IAMAX is
    disabled by [#if 0]).  The code is compiled twice, for [real_t] = float and double: here the numbers are those
    of an arbitrary record of operations [Num].

    The memory of the caller is a partial map from addresses (in units of real_t) to values: [None] means that the
    address does not exist.  A pointer is an address; [x[i]] is the cell at [x + i].  Reading or writing a missing
    cell is undefined behaviour: the model yields [None].  Several arrays are different addresses in the same
    memory, so they may overlap.  Simplification: opk_index (ptrdiff_t) is [Z], products such as [n*incx] do not
    overflow. *)
From Coq Require Import ZArith List Bool.
From Verif Require Import Base Num.
Import ListNotations.

(** ** Loops *)

(** for (i = i0, k times; ; i += d) body(i) *)
Fixpoint iter {A} (k : nat) (i d : Z) (body : Z -> A -> option A) (s : A) : option A :=
  match k with
  | O => Some s
  | S k => do s <- body i s; iter k (i + d) d body s
  end.

(** for (i = lo; i < hi; ++i) body(i); linalg.c 44: LOOP(i, n) is [for_up 0 n] *)
Definition for_up {A} (lo hi : Z) : (Z -> A -> option A) -> A -> option A := iter (Z.to_nat (hi - lo)) lo 1.

(** for (i = hi; i >= lo; --i) body(i) *)
Definition for_down {A} (hi lo : Z) : (Z -> A -> option A) -> A -> option A := iter (Z.to_nat (hi - lo + 1)) hi (-1).

(** for (i = lo; i < hi; i += d) body(i); [fuel] bounds the number of iterations, running out of it is an error
    ([None]).  With d >= 1 the loop makes less than [hi - lo + 1] iterations. *)
Fixpoint for_step_fuel {A} (fuel : nat) (lo hi d : Z) (body : Z -> A -> option A) (s : A) : option A :=
  match fuel with
  | O => None
  | S fuel => if (lo <? hi)%Z then do s <- body lo s; for_step_fuel fuel (lo + d) hi d body s else Some s
  end.

Definition for_step {A} (lo hi d : Z) : (Z -> A -> option A) -> A -> option A :=
  for_step_fuel (S (Z.to_nat (hi - lo))) lo hi d.

(** linalg.c 72-84: UNROLL_4a *)
Definition unroll_4a {A} (n : Z) (op : Z -> A -> option A) (s : A) : option A :=
  let m := Z.land n 3 in
  do s <- for_up 0 m op s;
  for_step m n 4
    (fun i s => do s <- op i s; do s <- op (i + 1)%Z s; do s <- op (i + 2)%Z s; op (i + 3)%Z s) s.

(** linalg.c 100-116: UNROLL_8a *)
Definition unroll_8a {A} (n : Z) (op : Z -> A -> option A) (s : A) : option A :=
  let m := Z.land n 7 in
  do s <- for_up 0 m op s;
  for_step m n 8
    (fun i s =>
       do s <- op i s; do s <- op (i + 1)%Z s; do s <- op (i + 2)%Z s; do s <- op (i + 3)%Z s;
       do s <- op (i + 4)%Z s; do s <- op (i + 5)%Z s; do s <- op (i + 6)%Z s; op (i + 7)%Z s) s.

(** linalg.c 86-98: UNROLL_4b.  The operation applies to one of the variables t0, ..., t3: [op i t] is the new
    value of that variable. *)
Definition unroll_4b {T} (n : Z) (op : Z -> T -> option T) (s : T * T * T * T) : option (T * T * T * T) :=
  let m := Z.land n 3 in
  do s <- for_up 0 m (fun i '(t0, t1, t2, t3) => do t0 <- op i t0; Some (t0, t1, t2, t3)) s;
  for_step m n 4
    (fun i '(t0, t1, t2, t3) =>
       do t0 <- op i t0; do t1 <- op (i + 1)%Z t1; do t2 <- op (i + 2)%Z t2; do t3 <- op (i + 3)%Z t3;
       Some (t0, t1, t2, t3)) s.

(** linalg.c 49: START_0 *)
Definition start0 (number step : Z) : Z := if (step >=? 0)%Z then 0%Z else ((1 - number) * step)%Z.

(** optimpack-linalg.h 94-122: arguments of the routines, other values are invalid *)
Definition NO_TRANS : Z := 111.
Definition TRANS : Z := 112.
Definition CONJ_TRANS : Z := 113.
Definition UPPER : Z := 121.
Definition LOWER : Z := 122.
Definition NON_UNIT : Z := 131.
Definition UNIT : Z := 132.

Section Linalg.
Context {N : Num}.

(** The memory *)
Definition mem := Z -> option N.

(** [*p = v]: the cell must exist *)
Definition store (M : mem) (p : Z) (v : N) : option mem :=
  match M p with
  | Some _ => Some (fun q => if (q =? p)%Z then Some v else M q)
  | None => None
  end.

Definition ZERO : N := nZ 0.
Definition ONE : N := nZ 1.

(** ** Level 1 *)

(** linalg.c 165-173, 563-573: the body of the loops of OPK_AMAX and OPK_NRM2:
    if (x[i] < a) a = x[i]; if (x[i] > b) b = x[i]; *)
Definition minmax (M : mem) (x : Z) (i : Z) (s : N * N) : option (N * N) :=
  let '(a, b) := s in
  do v <- M (x + i)%Z;
  Some (if (v <? a)%num then v else a, if (b <? v)%num then v else b).

(** linalg.c 153-180: OPK_AMAX *)
Definition amax (n x incx : Z) (M : mem) : option N :=
  if ((n <? 1) || (incx <? 1))%Z then Some ZERO
  else
    do (a, b) <- (if (incx =? 1)%Z then for_up 0 n (minmax M x) (ZERO, ZERO)
                  else for_step 0 (n * incx) incx (minmax M x) (ZERO, ZERO));
    let a := nopp a in
    Some (if (b <=? a)%num then a else b).

(** linalg.c 54: SWAP applied to the cells at p and q *)
Definition swap_cells (p q : Z) (M : mem) : option mem :=
  do t <- M p; do v <- M q; do M <- store M p v; store M q t.

(** linalg.c 185-231: OPK_SWAP *)
Definition swap (n x incx y incy : Z) (M : mem) : option mem :=
  if ((n <=? 0) || (x =? y))%Z then Some M
  else if (incx =? incy)%Z then
    if (incx =? 1)%Z then unroll_4a n (fun j M => swap_cells (x + j) (y + j) M) M
    else
      do (M, _) <- for_up 0 n (fun _ '(M, ix) => do M <- swap_cells (x + ix) (y + ix) M; Some (M, (ix + incx)%Z))
                     (M, start0 n incx);
      Some M
  else if (incx =? 1)%Z then
    do (M, _) <- for_up 0 n (fun i '(M, iy) => do M <- swap_cells (x + i) (y + iy) M; Some (M, (iy + incy)%Z))
                   (M, start0 n incy);
    Some M
  else if (incy =? 1)%Z then
    do (M, _) <- for_up 0 n (fun i '(M, ix) => do M <- swap_cells (x + ix) (y + i) M; Some (M, (ix + incx)%Z))
                   (M, start0 n incx);
    Some M
  else
    do (M, _, _) <- for_up 0 n (fun _ '(M, ix, iy) =>
                                  do M <- swap_cells (x + ix) (y + iy) M; Some (M, (ix + incx)%Z, (iy + incy)%Z))
                      (M, start0 n incx, start0 n incy);
    Some M.

(** *p = ZERO *)
Definition zero_cell (p : Z) (M : mem) : option mem := store M p ZERO.
(** *p = -( *p ) *)
Definition neg_cell (p : Z) (M : mem) : option mem := do v <- M p; store M p (nopp v).
(** *p *= a *)
Definition mul_cell (p : Z) (a : N) (M : mem) : option mem := do v <- M p; store M p (v * a)%num.
(** *p += a *)
Definition add_cell (p : Z) (a : N) (M : mem) : option mem := do v <- M p; store M p (v + a)%num.
(** *p -= a *)
Definition sub_cell (p : Z) (a : N) (M : mem) : option mem := do v <- M p; store M p (v - a)%num.

(** linalg.c 236-278: OPK_SCAL *)
Definition scal (n : Z) (a : N) (x incx : Z) (M : mem) : option mem :=
  if ((n <=? 0)%Z || (a =? ONE)%num) then Some M
  else if (incx =? 1)%Z then
    if (a =? ZERO)%num then unroll_8a n (fun i => zero_cell (x + i)) M
    else if (a =? nZ (-1))%num then unroll_8a n (fun i => neg_cell (x + i)) M
    else unroll_8a n (fun i => mul_cell (x + i) a) M
  else if (0 <? incx)%Z then
    let m := (n * incx)%Z in
    if (a =? ZERO)%num then for_step 0 m incx (fun i => zero_cell (x + i)) M
    else if (a =? nZ (-1))%num then for_step 0 m incx (fun i => neg_cell (x + i)) M
    else for_step 0 m incx (fun i => mul_cell (x + i) a) M
  else Some M.

(** The four cases of the loops of OPK_COPY (linalg.c 294-324) and of each of the three parts of OPK_AXPY
    (linalg.c 343-372, 373-402, 403-432): unrolled when both increments are 1 (by [unroll]), otherwise with the
    running indices ix and iy.  [op ix iy] is the elementary operation. *)
Definition walk2 (unroll : Z -> (Z -> mem -> option mem) -> mem -> option mem)
    (n incx incy : Z) (op : Z -> Z -> mem -> option mem) (M : mem) : option mem :=
  if (incx =? 1)%Z then
    if (incy =? 1)%Z then unroll n (fun i => op i i) M
    else
      do (M, _) <- for_up 0 n (fun i '(M, iy) => do M <- op i iy M; Some (M, (iy + incy)%Z)) (M, start0 n incy);
      Some M
  else
    if (incy =? 1)%Z then
      do (M, _) <- for_up 0 n (fun i '(M, ix) => do M <- op ix i M; Some (M, (ix + incx)%Z)) (M, start0 n incx);
      Some M
    else
      do (M, _, _) <- for_up 0 n (fun _ '(M, ix, iy) =>
                                    do M <- op ix iy M; Some (M, (ix + incx)%Z, (iy + incy)%Z))
                        (M, start0 n incx, start0 n incy);
      Some M.

(** linalg.c 283-326: OPK_COPY *)
Definition copy (n x incx y incy : Z) (M : mem) : option mem :=
  if ((n <=? 0) || ((incx =? incy) && (x =? y)))%Z then Some M
  else walk2 unroll_8a n incx incy (fun ix iy M => do v <- M (x + ix)%Z; store M (y + iy) v) M.

(** linalg.c 331-434: OPK_AXPY *)
Definition axpy (n : Z) (a : N) (x incx y incy : Z) (M : mem) : option mem :=
  if ((n <=? 0)%Z || (a =? ZERO)%num) then Some M
  else if (a =? ONE)%num then
    walk2 unroll_4a n incx incy (fun ix iy M => do v <- M (x + ix)%Z; add_cell (y + iy) v M) M
  else if (a =? nZ (-1))%num then
    walk2 unroll_4a n incx incy (fun ix iy M => do v <- M (x + ix)%Z; sub_cell (y + iy) v M) M
  else
    walk2 unroll_4a n incx incy (fun ix iy M => do v <- M (x + ix)%Z; add_cell (y + iy) (a * v)%num M) M.

(** t += x[ix]*y[iy] *)
Definition dot_op (M : mem) (x y ix iy : Z) (t : N) : option N :=
  do v <- M (x + ix)%Z; do w <- M (y + iy)%Z; Some (t + v * w)%num.

(** linalg.c 439-482: OPK_DOT *)
Definition dot (n x incx y incy : Z) (M : mem) : option N :=
  if (n <=? 0)%Z then Some ZERO
  else if (incx =? 1)%Z then
    if (incy =? 1)%Z then
      do (t0, t1, t2, t3) <- unroll_4b n (fun i => dot_op M x y i i) (ZERO, ZERO, ZERO, ZERO);
      Some ((t0 + t1) + (t2 + t3))%num
    else
      do (t0, _) <- for_up 0 n (fun ix '(t0, iy) => do t0 <- dot_op M x y ix iy t0; Some (t0, (iy + incy)%Z))
                      (ZERO, start0 n incy);
      Some t0
  else
    if (incy =? 1)%Z then
      do (t0, _) <- for_up 0 n (fun iy '(t0, ix) => do t0 <- dot_op M x y ix iy t0; Some (t0, (ix + incx)%Z))
                      (ZERO, start0 n incx);
      Some t0
    else
      do (t0, _, _) <- for_up 0 n (fun _ '(t0, ix, iy) =>
                                     do t0 <- dot_op M x y ix iy t0; Some (t0, (ix + incx)%Z, (iy + incy)%Z))
                         (ZERO, start0 n incx, start0 n incy);
      Some t0.

(** linalg.c 487-512: OPK_ASUM, and linalg.c 517-542: OPK_SUM.  Both codes are the same up to the function applied
    to the elements, [f] is FABS or nothing. *)
Definition sum_by (f : N -> N) (n x incx : Z) (M : mem) : option N :=
  let op := fun i t => do v <- M (x + i)%Z; Some (t + f v)%num in
  if ((n <? 1) || (incx <? 1))%Z then Some ZERO
  else if (incx =? 1)%Z then
    do (t0, t1, t2, t3) <- unroll_4b n op (ZERO, ZERO, ZERO, ZERO);
    Some ((t0 + t1) + (t2 + t3))%num
  else for_step 0 (n * incx) incx op ZERO.

Definition asum := sum_by nabs.
Definition sum := sum_by (fun v => v).

(** linalg.c 547-599: OPK_NRM2 *)
Definition nrm2 (n x incx : Z) (M : mem) : option N :=
  if ((n <? 1) || (incx <? 1))%Z then Some ZERO
  else
    do x0 <- M x;
    do (a, b) <- (if (incx =? 1)%Z then for_up 1 n (minmax M x) (x0, x0)
                  else for_step incx (n * incx) incx (minmax M x) (x0, x0));
    let a := nopp a in
    let a := if (a <? b)%num then b else a in
    if (a <=? ZERO)%num then Some ZERO
    else
      let b := (ONE / a)%num in
      let op := fun i s => do v <- M (x + i)%Z; let t := (b * v)%num in Some (s + t * t)%num in
      do s <- (if (incx =? 1)%Z then for_up 0 n op ZERO else for_step 0 (n * incx) incx op ZERO);
      Some (a * nsqrt s)%num.

(** linalg.c 604-637: OPK_IAMAX *)
Definition iamax (n x incx : Z) (M : mem) : option Z :=
  if ((n <? 1) || (incx <? 1))%Z then Some 0%Z
  else if (n =? 1)%Z then Some 1%Z
  else
    do x0 <- M x;
    if (incx =? 1)%Z then
      do (_, imax) <- for_up 1 n (fun i '(amax, imax) =>
                        do v <- M (x + i)%Z;
                        let t := nabs v in
                        if (amax <? t)%num then Some (t, i) else Some (amax, imax)) (nabs x0, 0%Z);
      Some (imax + 1)%Z
    else
      do (_, imax, _) <- for_up 1 n (fun i '(amax, imax, ix) =>
                           do v <- M (x + ix)%Z;
                           let t := nabs v in
                           if (amax <? t)%num then Some (t, i, (ix + incx)%Z)
                           else Some (amax, imax, (ix + incx)%Z)) (nabs x0, 0%Z, incx);
      Some (imax + 1)%Z.

(** linalg.c 693-713: OPK_ZERO *)
Definition zero (n x incx : Z) (M : mem) : option mem :=
  if (1 <=? n)%Z then
    if (incx =? 1)%Z then unroll_8a n (fun i => zero_cell (x + i)) M
    else if (1 <? incx)%Z then for_step 0 (n * incx) incx (fun i => zero_cell (x + i)) M
    else Some M
  else Some M.

(** ** Level 2 *)

(** linalg.c 796-824 (OPK_GEMV): y := beta*y.  [y] gives the address of an element. *)
Definition gemv_beta (leny : Z) (beta : N) (y : Z -> Z) (incy ky : Z) (M : mem) : option mem :=
  if negb (beta =? ONE)%num then
    if (incy =? 1)%Z then
      if (beta =? ZERO)%num then for_up 0 leny (fun i => zero_cell (y i)) M
      else for_up 0 leny (fun i => mul_cell (y i) beta) M
    else
      if (beta =? ZERO)%num then
        do (M, _) <- for_up 0 leny (fun _ '(M, iy) => do M <- zero_cell (y iy) M; Some (M, (iy + incy)%Z)) (M, ky);
        Some M
      else
        do (M, _) <- for_up 0 leny (fun _ '(M, iy) => do M <- mul_cell (y iy) beta M; Some (M, (iy + incy)%Z)) (M, ky);
        Some M
  else Some M.

(** linalg.c 827-854 (OPK_GEMV): y := alpha*A*x + y *)
Definition gemv_n (m n : Z) (alpha : N) (a : Z -> Z -> Z) (x : Z -> Z) (incx kx : Z) (y : Z -> Z) (incy ky : Z)
    (M : mem) : option mem :=
  if (incy =? 1)%Z then
    do (M, _) <- for_up 0 n (fun j '(M, jx) =>
        do xj <- M (x jx);
        do M <- (if negb (xj =? ZERO)%num then
                   let temp := (alpha * xj)%num in
                   for_up 0 m (fun i M => do v <- M (a i j); add_cell (y i) (temp * v)%num M) M
                 else Some M);
        Some (M, (jx + incx)%Z)) (M, kx);
    Some M
  else
    do (M, _) <- for_up 0 n (fun j '(M, jx) =>
        do xj <- M (x jx);
        do M <- (if negb (xj =? ZERO)%num then
                   let temp := (alpha * xj)%num in
                   do (M, _) <- for_up 0 m (fun i '(M, iy) =>
                       do v <- M (a i j);
                       do M <- add_cell (y iy) (temp * v)%num M;
                       Some (M, (iy + incy)%Z)) (M, ky);
                   Some M
                 else Some M);
        Some (M, (jx + incx)%Z)) (M, kx);
    Some M.

(** linalg.c 855-881 (OPK_GEMV): y := alpha*A'*x + y *)
Definition gemv_t (m n : Z) (alpha : N) (a : Z -> Z -> Z) (x : Z -> Z) (incx kx : Z) (y : Z -> Z) (incy ky : Z)
    (M : mem) : option mem :=
  if (incx =? 1)%Z then
    do (M, _) <- for_up 0 n (fun j '(M, jy) =>
        do temp <- for_up 0 m (fun i temp =>
            do v <- M (a i j); do w <- M (x i); Some (temp + v * w)%num) ZERO;
        do M <- add_cell (y jy) (alpha * temp)%num M;
        Some (M, (jy + incy)%Z)) (M, ky);
    Some M
  else
    do (M, _) <- for_up 0 n (fun j '(M, jy) =>
        do (temp, _) <- for_up 0 m (fun i '(temp, ix) =>
            do v <- M (a i j); do w <- M (x ix);
            Some ((temp + v * w)%num, (ix + incx)%Z)) (ZERO, kx);
        do M <- add_cell (y jy) (alpha * temp)%num M;
        Some (M, (jy + incy)%Z)) (M, ky);
    Some M.

(** linalg.c 717-885: OPK_GEMV.  The result is the returned code and the memory. *)
Definition gemv (trans m n : Z) (alpha : N) (a_ lda x_ incx : Z) (beta : N) (y_ incy : Z) (M : mem)
    : option (Z * mem) :=
  let a := fun a1 a2 => (a_ + (a2 * lda + a1))%Z in
  let x := fun a1 => (x_ + a1)%Z in
  let y := fun a1 => (y_ + a1)%Z in
  let notrans := (trans =? NO_TRANS)%Z in
  (* linalg.c 753-779 *)
  if negb (notrans || (trans =? TRANS)%Z || (trans =? CONJ_TRANS)%Z) then Some (1%Z, M)
  else
  let lenx := if notrans then n else m in
  let leny := if notrans then m else n in
  if (m <? 0)%Z then Some (2%Z, M)
  else if (n <? 0)%Z then Some (3%Z, M)
  else if ((lda <? m) || (lda <? 1))%Z then Some (6%Z, M)
  else if (incx =? 0)%Z then Some (8%Z, M)
  else if (incy =? 0)%Z then Some (11%Z, M)
  (* linalg.c 781-784 *)
  else if ((m =? 0)%Z || (n =? 0)%Z || ((alpha =? ZERO)%num && (beta =? ONE)%num)) then Some (0%Z, M)
  else
  let kx := start0 lenx incx in
  let ky := start0 leny incy in
  do M <- gemv_beta leny beta y incy ky M;
  do M <- (if negb (alpha =? ZERO)%num then
             if notrans then gemv_n m n alpha a x incx kx y incy ky M
             else gemv_t m n alpha a x incx kx y incy ky M
           else Some M);
  Some (0%Z, M).

(** linalg.c 967-991 (OPK_TRMV): A upper, not transposed *)
Definition trmv_nu (nounit : bool) (n : Z) (a : Z -> Z -> Z) (x : Z -> Z) (incx kx : Z) (M : mem) : option mem :=
  if (incx =? 1)%Z then
    for_up 0 n (fun j M =>
      do xj <- M (x j);
      if negb (xj =? ZERO)%num then
        let temp := xj in
        do M <- for_up 0 j (fun i M => do v <- M (a i j); add_cell (x i) (temp * v)%num M) M;
        if nounit then do v <- M (a j j); mul_cell (x j) v M else Some M
      else Some M) M
  else
    do (M, _) <- for_up 0 n (fun j '(M, jx) =>
      do xj <- M (x jx);
      do M <- (if negb (xj =? ZERO)%num then
        let temp := xj in
        do (M, _) <- for_up 0 j (fun i '(M, ix) =>
          do v <- M (a i j); do M <- add_cell (x ix) (temp * v)%num M; Some (M, (ix + incx)%Z)) (M, kx);
        if nounit then do v <- M (a j j); mul_cell (x jx) v M else Some M
      else Some M);
      Some (M, (jx + incx)%Z)) (M, kx);
    Some M.

(** linalg.c 992-1018 (OPK_TRMV): A lower, not transposed *)
Definition trmv_nl (nounit : bool) (n : Z) (a : Z -> Z -> Z) (x : Z -> Z) (incx kx : Z) (M : mem) : option mem :=
  if (incx =? 1)%Z then
    for_down (n - 1) 0 (fun j M =>
      do xj <- M (x j);
      if negb (xj =? ZERO)%num then
        let temp := xj in
        do M <- for_down (n - 1) (j + 1) (fun i M => do v <- M (a i j); add_cell (x i) (temp * v)%num M) M;
        if nounit then do v <- M (a j j); mul_cell (x j) v M else Some M
      else Some M) M
  else
    let kx := (kx + (n - 1) * incx)%Z in
    do (M, _) <- for_down (n - 1) 0 (fun j '(M, jx) =>
      do xj <- M (x jx);
      do M <- (if negb (xj =? ZERO)%num then
        let temp := xj in
        do (M, _) <- for_down (n - 1) (j + 1) (fun i '(M, ix) =>
          do v <- M (a i j); do M <- add_cell (x ix) (temp * v)%num M; Some (M, (ix - incx)%Z)) (M, kx);
        if nounit then do v <- M (a j j); mul_cell (x jx) v M else Some M
      else Some M);
      Some (M, (jx - incx)%Z)) (M, kx);
    Some M.

(** linalg.c 1024-1048 (OPK_TRMV): A upper, transposed *)
Definition trmv_tu (nounit : bool) (n : Z) (a : Z -> Z -> Z) (x : Z -> Z) (incx kx : Z) (M : mem) : option mem :=
  if (incx =? 1)%Z then
    for_down (n - 1) 0 (fun j M =>
      do temp <- M (x j);
      do temp <- (if nounit then do v <- M (a j j); Some (temp * v)%num else Some temp);
      do temp <- for_down (j - 1) 0 (fun i temp =>
                   do v <- M (a i j); do w <- M (x i); Some (temp + v * w)%num) temp;
      store M (x j) temp) M
  else
    do (M, _) <- for_down (n - 1) 0 (fun j '(M, jx) =>
      do temp <- M (x jx);
      do temp <- (if nounit then do v <- M (a j j); Some (temp * v)%num else Some temp);
      do (temp, _) <- for_down (j - 1) 0 (fun i '(temp, ix) =>
                   let ix := (ix - incx)%Z in
                   do v <- M (a i j); do w <- M (x ix); Some ((temp + v * w)%num, ix)) (temp, jx);
      do M <- store M (x jx) temp;
      Some (M, (jx - incx)%Z)) (M, (kx + (n - 1) * incx)%Z);
    Some M.

(** linalg.c 1049-1073 (OPK_TRMV): A lower, transposed *)
Definition trmv_tl (nounit : bool) (n : Z) (a : Z -> Z -> Z) (x : Z -> Z) (incx kx : Z) (M : mem) : option mem :=
  if (incx =? 1)%Z then
    for_up 0 n (fun j M =>
      do temp <- M (x j);
      do temp <- (if nounit then do v <- M (a j j); Some (temp * v)%num else Some temp);
      do temp <- for_up (j + 1) n (fun i temp =>
                   do v <- M (a i j); do w <- M (x i); Some (temp + v * w)%num) temp;
      store M (x j) temp) M
  else
    do (M, _) <- for_up 0 n (fun j '(M, jx) =>
      do temp <- M (x jx);
      do temp <- (if nounit then do v <- M (a j j); Some (temp * v)%num else Some temp);
      do (temp, _) <- for_up (j + 1) n (fun i '(temp, ix) =>
                   let ix := (ix + incx)%Z in
                   do v <- M (a i j); do w <- M (x ix); Some ((temp + v * w)%num, ix)) (temp, jx);
      do M <- store M (x jx) temp;
      Some (M, (jx + incx)%Z)) (M, kx);
    Some M.

(** linalg.c 887-1077: OPK_TRMV *)
Definition trmv (uplo trans diag n a_ lda x_ incx : Z) (M : mem) : option (Z * mem) :=
  let a := fun a1 a2 => (a_ + (a2 * lda + a1))%Z in
  let x := fun a1 => (x_ + a1)%Z in
  if negb ((uplo =? UPPER) || (uplo =? LOWER))%Z then Some (1%Z, M)
  else if negb ((trans =? NO_TRANS) || (trans =? TRANS) || (trans =? CONJ_TRANS))%Z then Some (2%Z, M)
  else if negb ((diag =? NON_UNIT) || (diag =? UNIT))%Z then Some (3%Z, M)
  else if (n <? 0)%Z then Some (4%Z, M)
  else if ((lda <? n) || (lda <? 1))%Z then Some (6%Z, M)
  else if (incx =? 0)%Z then Some (8%Z, M)
  else if (n =? 0)%Z then Some (0%Z, M)
  else
  let upper := (uplo =? UPPER)%Z in
  let notrans := (trans =? NO_TRANS)%Z in
  let nounit := (diag =? NON_UNIT)%Z in
  let kx := start0 n incx in
  do M <-
    (if notrans then
       if upper then trmv_nu nounit n a x incx kx M else trmv_nl nounit n a x incx kx M
     else
       if upper then trmv_tu nounit n a x incx kx M else trmv_tl nounit n a x incx kx M);
  Some (0%Z, M).

(** linalg.c 1158-1184 (OPK_TRSV): A upper, not transposed *)
Definition trsv_nu (nounit : bool) (n : Z) (a : Z -> Z -> Z) (x : Z -> Z) (incx kx : Z) (M : mem) : option mem :=
  if (incx =? 1)%Z then
    for_down n 1 (fun j M =>
      do xj <- M (x j);
      if negb (xj =? ZERO)%num then
        do M <- (if nounit then do v <- M (a j j); store M (x j) (xj / v)%num else Some M);
        do temp <- M (x j);
        for_down (j - 1) 1 (fun i M => do v <- M (a i j); sub_cell (x i) (temp * v)%num M) M
      else Some M) M
  else
    do (M, _) <- for_down n 1 (fun j '(M, jx) =>
      do xj <- M (x jx);
      do M <- (if negb (xj =? ZERO)%num then
        do M <- (if nounit then do v <- M (a j j); store M (x jx) (xj / v)%num else Some M);
        do temp <- M (x jx);
        do (M, _) <- for_down (j - 1) 1 (fun i '(M, ix) =>
          let ix := (ix - incx)%Z in
          do v <- M (a i j); do M <- sub_cell (x ix) (temp * v)%num M; Some (M, ix)) (M, jx);
        Some M
      else Some M);
      Some (M, (jx - incx)%Z)) (M, (kx + (n - 1) * incx)%Z);
    Some M.

(** linalg.c 1185-1209 (OPK_TRSV): A lower, not transposed *)
Definition trsv_nl (nounit : bool) (n : Z) (a : Z -> Z -> Z) (x : Z -> Z) (incx kx : Z) (M : mem) : option mem :=
  if (incx =? 1)%Z then
    for_up 1 (n + 1) (fun j M =>
      do xj <- M (x j);
      if negb (xj =? ZERO)%num then
        do M <- (if nounit then do v <- M (a j j); store M (x j) (xj / v)%num else Some M);
        do temp <- M (x j);
        for_up (j + 1) (n + 1) (fun i M => do v <- M (a i j); sub_cell (x i) (temp * v)%num M) M
      else Some M) M
  else
    do (M, _) <- for_up 1 (n + 1) (fun j '(M, jx) =>
      do xj <- M (x jx);
      do M <- (if negb (xj =? ZERO)%num then
        do M <- (if nounit then do v <- M (a j j); store M (x jx) (xj / v)%num else Some M);
        do temp <- M (x jx);
        do (M, _) <- for_up (j + 1) (n + 1) (fun i '(M, ix) =>
          let ix := (ix + incx)%Z in
          do v <- M (a i j); do M <- sub_cell (x ix) (temp * v)%num M; Some (M, ix)) (M, jx);
        Some M
      else Some M);
      Some (M, (jx + incx)%Z)) (M, kx);
    Some M.

(** linalg.c 1213-1234 (OPK_TRSV): A upper, transposed *)
Definition trsv_tu (nounit : bool) (n : Z) (a : Z -> Z -> Z) (x : Z -> Z) (incx kx : Z) (M : mem) : option mem :=
  if (incx =? 1)%Z then
    for_up 1 (n + 1) (fun j M =>
      do temp <- M (x j);
      do temp <- for_up 1 j (fun i temp =>
                   do v <- M (a i j); do w <- M (x i); Some (temp - v * w)%num) temp;
      do temp <- (if nounit then do v <- M (a j j); Some (temp / v)%num else Some temp);
      store M (x j) temp) M
  else
    do (M, _) <- for_up 1 (n + 1) (fun j '(M, jx) =>
      do temp <- M (x jx);
      do (temp, _) <- for_up 1 j (fun i '(temp, ix) =>
                   do v <- M (a i j); do w <- M (x ix); Some ((temp - v * w)%num, (ix + incx)%Z)) (temp, kx);
      do temp <- (if nounit then do v <- M (a j j); Some (temp / v)%num else Some temp);
      do M <- store M (x jx) temp;
      Some (M, (jx + incx)%Z)) (M, kx);
    Some M.

(** linalg.c 1235-1259 (OPK_TRSV): A lower, transposed *)
Definition trsv_tl (nounit : bool) (n : Z) (a : Z -> Z -> Z) (x : Z -> Z) (incx kx : Z) (M : mem) : option mem :=
  if (incx =? 1)%Z then
    for_down n 1 (fun j M =>
      do temp <- M (x j);
      do temp <- for_down n (j + 1) (fun i temp =>
                   do v <- M (a i j); do w <- M (x i); Some (temp - v * w)%num) temp;
      do temp <- (if nounit then do v <- M (a j j); Some (temp / v)%num else Some temp);
      store M (x j) temp) M
  else
    let kx := (kx + (n - 1) * incx)%Z in
    do (M, _) <- for_down n 1 (fun j '(M, jx) =>
      do temp <- M (x jx);
      do (temp, _) <- for_down n (j + 1) (fun i '(temp, ix) =>
                   do v <- M (a i j); do w <- M (x ix); Some ((temp - v * w)%num, (ix - incx)%Z)) (temp, kx);
      do temp <- (if nounit then do v <- M (a j j); Some (temp / v)%num else Some temp);
      do M <- store M (x jx) temp;
      Some (M, (jx - incx)%Z)) (M, kx);
    Some M.

(** linalg.c 1079-1263: OPK_TRSV.  Indices start at 1 in this routine. *)
Definition trsv (uplo trans diag n a_ lda x_ incx : Z) (M : mem) : option (Z * mem) :=
  let a := fun a1 a2 => (a_ + (a1 - 1 + lda * (a2 - 1)))%Z in
  let x := fun a1 => (x_ + (a1 - 1))%Z in
  if negb ((uplo =? UPPER) || (uplo =? LOWER))%Z then Some (1%Z, M)
  else if negb ((trans =? NO_TRANS) || (trans =? TRANS) || (trans =? CONJ_TRANS))%Z then Some (2%Z, M)
  else if negb ((diag =? NON_UNIT) || (diag =? UNIT))%Z then Some (3%Z, M)
  else if (n <? 0)%Z then Some (4%Z, M)
  else if (lda <? Z.max 1 n)%Z then Some (6%Z, M)
  else if (incx =? 0)%Z then Some (8%Z, M)
  else if (n =? 0)%Z then Some (0%Z, M)
  else
  let upper := (uplo =? UPPER)%Z in
  let notrans := (trans =? NO_TRANS)%Z in
  let nounit := (diag =? NON_UNIT)%Z in
  let kx := (if (incx >=? 0)%Z then 1 else 1 + (1 - n) * incx)%Z in
  do M <-
    (if notrans then
       if upper then trsv_nu nounit n a x incx kx M else trsv_nl nounit n a x incx kx M
     else
       if upper then trsv_tu nounit n a x incx kx M else trsv_tl nounit n a x incx kx M);
  Some (0%Z, M).

(** ** Level 3 *)

(** The part of column [j] of C in rows lo <= i < hi becomes beta*C: linalg.c 1364-1372, 1402-1410 (OPK_GEMM),
    1553-1561, 1573-1581 (OPK_SYRK) *)
Definition scale_col (c : Z -> Z -> Z) (lo hi j : Z) (beta : N) (M : mem) : option mem :=
  if (beta =? ZERO)%num then for_up lo hi (fun i => zero_cell (c i j)) M
  else if negb (beta =? ONE)%num then for_up lo hi (fun i => mul_cell (c i j) beta) M
  else Some M.

(** c(i,j) = alpha*temp + beta*c(i,j): linalg.c 1390-1394, 1428-1432 (OPK_GEMM), 1601-1605, 1616-1620 (OPK_SYRK) *)
Definition set_cell (c : Z) (alpha temp beta : N) (M : mem) : option mem :=
  if (beta =? ZERO)%num then store M c (alpha * temp)%num
  else do v <- M c; store M c (alpha * temp + beta * v)%num.

(** linalg.c 1267-1440: OPK_GEMM *)
Definition gemm (transa transb m n k : Z) (alpha : N) (a_ lda b_ ldb : Z) (beta : N) (c_ ldc : Z) (M : mem)
    : option (Z * mem) :=
  let a := fun a1 a2 => (a_ + (a1 + lda * a2))%Z in
  let b := fun a1 a2 => (b_ + (a1 + ldb * a2))%Z in
  let c := fun a1 a2 => (c_ + (a1 + ldc * a2))%Z in
  let nota := (transa =? NO_TRANS)%Z in
  let notb := (transb =? NO_TRANS)%Z in
  if negb (nota || (transa =? TRANS)%Z || (transa =? CONJ_TRANS)%Z) then Some (1%Z, M)
  else if negb (notb || (transb =? TRANS)%Z || (transb =? CONJ_TRANS)%Z) then Some (1%Z, M)
  else
  let nrowa := if nota then m else k in
  let nrowb := if notb then k else n in
  if (m <? 0)%Z then Some (3%Z, M)
  else if (n <? 0)%Z then Some (4%Z, M)
  else if (k <? 0)%Z then Some (5%Z, M)
  else if ((lda <? 1) || (lda <? nrowa))%Z then Some (8%Z, M)
  else if ((ldb <? 1) || (ldb <? nrowb))%Z then Some (10%Z, M)
  else if ((ldc <? 1) || (ldc <? m))%Z then Some (13%Z, M)
  (* linalg.c 1336-1339 *)
  else if ((m =? 0)%Z || (n =? 0)%Z || ((beta =? ONE)%num && ((alpha =? ZERO)%num || (k =? 0)%Z))) then Some (0%Z, M)
  else
  do M <-
    (if (alpha =? ZERO)%num then
       (* linalg.c 1341-1357 *)
       if (beta =? ZERO)%num then
         for_up 0 n (fun j => for_up 0 m (fun i => zero_cell (c i j))) M
       else
         for_up 0 n (fun j => for_up 0 m (fun i => mul_cell (c i j) beta)) M
     else if notb then
       if nota then
         for_up 0 n (fun j M =>
           do M <- scale_col c 0 m j beta M;
           for_up 0 k (fun l M =>
             do blj <- M (b l j);
             if negb (blj =? ZERO)%num then
               let temp := (alpha * blj)%num in
               for_up 0 m (fun i M => do v <- M (a i l); add_cell (c i j) (temp * v)%num M) M
             else Some M) M) M
       else
         for_up 0 n (fun j => for_up 0 m (fun i M =>
           do temp <- for_up 0 k (fun l temp =>
                        do v <- M (a l i); do w <- M (b l j); Some (temp + v * w)%num) ZERO;
           set_cell (c i j) alpha temp beta M)) M
     else
       if nota then
         for_up 0 n (fun j M =>
           do M <- scale_col c 0 m j beta M;
           for_up 0 k (fun l M =>
             do bjl <- M (b j l);
             if negb (bjl =? ZERO)%num then
               let temp := (alpha * bjl)%num in
               for_up 0 m (fun i M => do v <- M (a i l); add_cell (c i j) (temp * v)%num M) M
             else Some M) M) M
       else
         for_up 0 n (fun j => for_up 0 m (fun i M =>
           do temp <- for_up 0 k (fun l temp =>
                        do v <- M (a l i); do w <- M (b j l); Some (temp + v * w)%num) ZERO;
           set_cell (c i j) alpha temp beta M)) M);
  Some (0%Z, M).

(** linalg.c 1442-1627: OPK_SYRK.  The macro that gives the address of an element of A uses [ldc] instead of [lda]
    (linalg.c 1478). *)
Definition syrk (uplo trans n k : Z) (alpha : N) (a_ lda : Z) (beta : N) (c_ ldc : Z) (M : mem)
    : option (Z * mem) :=
  let a := fun a1 a2 => (a_ + (a2 * ldc + a1))%Z in
  let c := fun a1 a2 => (c_ + (a2 * ldc + a1))%Z in
  let upper := (uplo =? UPPER)%Z in
  let notrans := (trans =? NO_TRANS)%Z in
  if negb (upper || (uplo =? LOWER)%Z) then Some (1%Z, M)
  else if negb (notrans || (trans =? TRANS)%Z || (trans =? CONJ_TRANS)%Z) then Some (2%Z, M)
  else
  let nrowa := if notrans then n else k in
  if (n <? 0)%Z then Some (3%Z, M)
  else if (k <? 0)%Z then Some (4%Z, M)
  else if ((lda <? 1) || (lda <? nrowa))%Z then Some (7%Z, M)
  else if ((ldc <? 1) || (ldc <? n))%Z then Some (10%Z, M)
  else if ((n =? 0)%Z || ((beta =? ONE)%num && ((alpha =? ZERO)%num || (k =? 0)%Z))) then Some (0%Z, M)
  else
  do M <-
    (if (alpha =? ZERO)%num then
       (* linalg.c 1514-1545 *)
       if upper then
         if (beta =? ZERO)%num then for_up 0 n (fun j => for_up 0 (j + 1) (fun i => zero_cell (c i j))) M
         else for_up 0 n (fun j => for_up 0 (j + 1) (fun i => mul_cell (c i j) beta)) M
       else
         if (beta =? ZERO)%num then for_up 0 n (fun j => for_up j n (fun i => zero_cell (c i j))) M
         else for_up 0 n (fun j => for_up j n (fun i => mul_cell (c i j) beta)) M
     else if notrans then
       if upper then
         for_up 0 n (fun j M =>
           do M <- scale_col c 0 (j + 1) j beta M;
           for_up 0 k (fun l M =>
             do ajl <- M (a j l);
             if negb (ajl =? ZERO)%num then
               let temp := (alpha * ajl)%num in
               for_up 0 (j + 1) (fun i M => do v <- M (a i l); add_cell (c i j) (temp * v)%num M) M
             else Some M) M) M
       else
         for_up 0 n (fun j M =>
           do M <- scale_col c j n j beta M;
           for_up 0 k (fun l M =>
             do ajl <- M (a j l);
             if negb (ajl =? ZERO)%num then
               let temp := (alpha * ajl)%num in
               for_up j n (fun i M => do v <- M (a i l); add_cell (c i j) (temp * v)%num M) M
             else Some M) M) M
     else
       if upper then
         for_up 0 n (fun j => for_up 0 (j + 1) (fun i M =>
           do temp <- for_up 0 k (fun l temp =>
                        do v <- M (a l i); do w <- M (a l j); Some (temp + v * w)%num) ZERO;
           set_cell (c i j) alpha temp beta M)) M
       else
         for_up 0 n (fun j => for_up j n (fun i M =>
           do temp <- for_up 0 k (fun l temp =>
                        do v <- M (a l i); do w <- M (a l j); Some (temp + v * w)%num) ZERO;
           set_cell (c i j) alpha temp beta M)) M);
  Some (0%Z, M).

(** ** Cholesky factorization *)

(** linalg.c 1631-1730: OPK_POTF2.  The state of the loop is the memory and the returned value if the routine has
    returned (then the remaining iterations are skipped).  The codes returned by OPK_GEMV are ignored. *)
Definition potf2 (uplo n a_ lda : Z) (M : mem) : option (Z * mem) :=
  let a := fun a1 a2 => (a_ + (a1 - 1 + lda * (a2 - 1)))%Z in
  let loop := fun (body : Z -> mem -> option (mem * option Z)) =>
    do (M, ret) <- for_up 1 (n + 1) (fun j '(M, ret) =>
                     match ret with Some r => Some (M, Some r) | None => body j M end) (M, None);
    Some (match ret with Some r => r | None => 0%Z end, M) in
  if (n <? 0)%Z then Some ((-2)%Z, M)
  else if ((lda <? 1) || (lda <? n))%Z then Some ((-4)%Z, M)
  else if (n =? 0)%Z then Some (0%Z, M)
  else if (uplo =? UPPER)%Z then
    loop (fun j M =>
      do v <- M (a j j);
      do d <- dot (j - 1) (a 1 j)%Z 1 (a 1 j)%Z 1 M;
      let ajj := (v - d)%num in
      if (ajj <=? ZERO)%num then do M <- store M (a j j) ajj; Some (M, Some j)
      else
        let ajj := nsqrt ajj in
        do M <- store M (a j j) ajj;
        do M <- (if (j <? n)%Z then
                   do (_, M) <- gemv TRANS (j - 1) (n - j) (nopp ONE) (a 1 (j + 1))%Z lda (a 1 j)%Z 1
                                  ONE (a j (j + 1))%Z lda M;
                   scal (n - j) (ONE / ajj)%num (a j (j + 1))%Z lda M
                 else Some M);
        Some (M, None))
  else if (uplo =? LOWER)%Z then
    loop (fun j M =>
      do v <- M (a j j);
      do d <- dot (j - 1) (a j 1)%Z lda (a j 1)%Z lda M;
      let ajj := (v - d)%num in
      if (ajj <=? ZERO)%num then do M <- store M (a j j) ajj; Some (M, Some j)
      else
        let ajj := nsqrt ajj in
        do M <- store M (a j j) ajj;
        do M <- (if (j <? n)%Z then
                   do (_, M) <- gemv NO_TRANS (n - j) (j - 1) (nopp ONE) (a (j + 1) 1)%Z lda (a j 1)%Z lda
                                  ONE (a (j + 1) j)%Z 1 M;
                   scal (n - j) (ONE / ajj)%num (a (j + 1) j)%Z 1 M
                 else Some M);
        Some (M, None))
  else Some ((-1)%Z, M).

End Linalg.
