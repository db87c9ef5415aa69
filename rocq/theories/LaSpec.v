(** * Specification of the arguments of the routines of linalg.c

    Vectors and matrices in a memory (a partial map from addresses to values), in the conventions of the BLAS, and
    sums over an interval of integers. *)
From Coq Require Import ZArith Reals.
From Verif Require Import Num.
Local Open Scope Z_scope.

(** Address of the element [i] (from 0) of a vector of [n] elements given by its pointer and its increment.  With a
    negative increment, the pointer is the one of the last element. *)
Definition elt (x n inc i : Z) : Z := if inc <? 0 then x + (n - 1 - i) * (- inc) else x + i * inc.

(** Address of the element (i,j), from 0, of a matrix stored by columns with leading dimension [ld]. *)
Definition entry (a ld i j : Z) : Z := a + (i + ld * j).

Section Mem.
Context {N : Num}.

(** The memory contains the vector X *)
Definition has_vec (M : Z -> option N) (x n inc : Z) (X : Z -> N) : Prop :=
  forall i, 0 <= i < n -> M (elt x n inc i) = Some (X i).

(** The memory contains the matrix A of size (rows, cols) *)
Definition has_mat (M : Z -> option N) (a ld rows cols : Z) (A : Z -> Z -> N) : Prop :=
  forall i j, 0 <= i < rows -> 0 <= j < cols -> M (entry a ld i j) = Some (A i j).

(** The memories are the same but for the elements of the vector *)
Definition only_vec (M M' : Z -> option N) (x n inc : Z) : Prop :=
  forall p, (forall i, 0 <= i < n -> p <> elt x n inc i) -> M' p = M p.

(** The memories are the same but for the entries of the matrix selected by [T] *)
Definition only_mat (M M' : Z -> option N) (a ld : Z) (T : Z -> Z -> Prop) : Prop :=
  forall p, (forall i j, T i j -> p <> entry a ld i j) -> M' p = M p.

(** Element of [a*x + y] as OPK_AXPY computes it: special values of the factor avoid the multiplication *)
Definition axpy_elt (a v w : N) : N :=
  if (a =? nZ 0)%num then w
  else if (a =? nZ 1)%num then (w + v)%num
  else if (a =? nZ (-1))%num then (w - v)%num
  else (w + a * v)%num.

(** Element of [a*x] as OPK_SCAL computes it *)
Definition scal_elt (a v : N) : N :=
  if (a =? nZ 1)%num then v
  else if (a =? nZ 0)%num then nZ 0
  else if (a =? nZ (-1))%num then nopp v
  else (v * a)%num.

End Mem.

(** No address in common *)
Definition vec_apart (x n incx y m incy : Z) : Prop :=
  forall i j, 0 <= i < n -> 0 <= j < m -> elt x n incx i <> elt y m incy j.

Definition vec_mat_apart (x n inc a ld rows cols : Z) : Prop :=
  forall k i j, 0 <= k < n -> 0 <= i < rows -> 0 <= j < cols -> elt x n inc k <> entry a ld i j.

Definition mat_apart (a lda ra ca b ldb rb cb : Z) : Prop :=
  forall i j k l, 0 <= i < ra -> 0 <= j < ca -> 0 <= k < rb -> 0 <= l < cb -> entry a lda i j <> entry b ldb k l.

(** f lo + f (lo+1) + ... + f (hi-1) *)
Fixpoint sum_nat (k : nat) (lo : Z) (f : Z -> R) : R :=
  match k with
  | O => 0%R
  | S k => (f lo + sum_nat k (lo + 1) f)%R
  end.

Definition sumz (lo hi : Z) (f : Z -> R) : R := sum_nat (Z.to_nat (hi - lo)) lo f.

(** ** Matrix arguments *)

(** Is the argument [t] a valid value of opk_blas_trans_t, and does it ask for a transposition?
    (optimpack-linalg.h: 111 for no transposition, 112 for the transpose, 113 for the conjugate transpose) *)
Definition transp (t : Z) (tr : bool) : Prop := if tr then t = 112 \/ t = 113 else t = 111.

(** opk_blas_uplo_t: 121 for the upper triangle, 122 for the lower triangle *)
Definition uplo_arg (u : Z) (up : bool) : Prop := u = if up then 121 else 122.

(** opk_blas_diag_t: 131 for a general diagonal, 132 for a diagonal of ones, not stored *)
Definition diag_arg (d : Z) (unit : bool) : Prop := d = if unit then 132 else 131.

(** op(A) is A or its transpose *)
Definition op (tr : bool) (A : Z -> Z -> R) (i j : Z) : R := if tr then A j i else A i j.

(** The triangular matrix of which A stores the upper or the lower triangle *)
Definition tri_mat (up unit : bool) (A : Z -> Z -> R) (i j : Z) : R :=
  if i =? j then if unit then 1%R else A i j
  else if (if up then i <? j else j <? i) then A i j else 0%R.

(** The memory contains the selected triangle of the matrix A (but its diagonal if it is made of ones) *)
Definition has_tri {N : Num} (M : Z -> option N) (a ld n : Z) (up unit : bool) (A : Z -> Z -> N) : Prop :=
  forall i j, 0 <= i < n -> 0 <= j < n -> (if up then i <= j else j <= i) -> (unit = true -> i <> j) ->
    M (entry a ld i j) = Some (A i j).

(** The symmetric matrix of which A stores the upper or the lower triangle *)
Definition sym_mat (up : bool) (A : Z -> Z -> R) (i j : Z) : R :=
  if (if up then i <=? j else j <=? i) then A i j else A j i.

(** The leading minor of order [m] of A is positive definite *)
Definition pos_def (m : Z) (A : Z -> Z -> R) : Prop :=
  forall v : Z -> R, (exists i, 0 <= i < m /\ v i <> 0%R) ->
    (0 < sumz 0 m (fun i => sumz 0 m (fun j => v i * A i j * v j)))%R.
