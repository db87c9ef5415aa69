(** * Properties of the linear algebra routines of linalg.c (C39 to C42)

    A memory is a partial map from addresses to numbers; a routine gives [None] when it accesses an address which is not
    in the memory.  The theorems only assume that the memory contains the elements of the vectors and matrices given to the
    routine, hence they also state that no other address is accessed.  See LaSpec.v for the vocabulary. *)
From Coq Require Import ZArith Reals List Bool Lia Lra.
From Flocq Require Import Core.
From Verif Require Import Base Num NumFacts OrdFacts LaModel LaLoops LaSpec LaMem LaBlas1 LaBlas1R LaBlas2 LaBlas3
  LaTri LaTri2 LaChol.
Import ListNotations.
Local Open Scope Z_scope.

(** ** C39: vectors *)
Section Any.
Context {N : Num}.

Theorem C39_copy : forall n x incx y incy (M : Z -> option N) X Y,
  has_vec M x n incx X -> has_vec M y n incy Y -> incy <> 0 ->
  (forall i j, 0 <= i < j -> j < n -> elt y n incy i <> elt x n incx j) ->
  exists M', copy n x incx y incy M = Some M' /\ has_vec M' y n incy X /\ only_vec M M' y n incy.
Proof. exact copy_spec. Qed.

Theorem C39_swap : forall n x incx y incy (M : Z -> option N) X Y,
  has_vec M x n incx X -> has_vec M y n incy Y -> incx <> 0 -> incy <> 0 ->
  vec_apart x n incx y n incy ->
  exists M', swap n x incx y incy M = Some M' /\ has_vec M' x n incx Y /\ has_vec M' y n incy X /\
    (forall p, (forall i, 0 <= i < n -> p <> elt x n incx i /\ p <> elt y n incy i) -> M' p = M p).
Proof. exact swap_spec. Qed.

Theorem C39_axpy : forall n a x incx y incy (M : Z -> option N) X Y,
  has_vec M x n incx X -> has_vec M y n incy Y -> incy <> 0 ->
  (forall i j, 0 <= i < j -> j < n -> elt y n incy i <> elt x n incx j) ->
  exists M', axpy n a x incx y incy M = Some M' /\
    has_vec M' y n incy (fun i => axpy_elt a (X i) (Y i)) /\ only_vec M M' y n incy.
Proof. exact axpy_spec. Qed.

Theorem C39_scal : forall n a x incx (M : Z -> option N) X, 1 <= incx ->
  has_vec M x n incx X ->
  exists M', scal n a x incx M = Some M' /\ has_vec M' x n incx (fun i => scal_elt a (X i)) /\ only_vec M M' x n incx.
Proof. exact scal_spec. Qed.

Theorem C39_zero : forall n x incx (M : Z -> option N) X, 1 <= incx ->
  has_vec M x n incx X ->
  exists M', zero n x incx M = Some M' /\ has_vec M' x n incx (fun _ => nZ 0) /\ only_vec M M' x n incx.
Proof. exact zero_spec. Qed.

(** the first index of the largest absolute value, counted from 1; the hypothesis excludes NaN *)
Theorem C39_iamax : forall (O : OrdLaws N) n x incx (M : Z -> option N) X, 1 <= n -> 1 <= incx ->
  has_vec M x n incx X ->
  (forall i, 0 <= i < n -> neq (nabs (X i)) (nabs (X i)) = true) ->
  exists k, iamax n x incx M = Some (k + 1) /\ 0 <= k < n /\
    (forall i, 0 <= i < n -> nle (nabs (X i)) (nabs (X k)) = true) /\
    (forall i, 0 <= i < k -> nlt (nabs (X i)) (nabs (X k)) = true).
Proof. exact iamax_spec. Qed.

(** increments which are not positive for the routines with a single vector *)
Theorem C39_bad_increment : forall n a x incx (M : Z -> option N), incx < 1 ->
  scal n a x incx M = Some M /\ zero n x incx M = Some M /\ iamax n x incx M = Some 0 /\
  asum n x incx M = Some (nZ 0) /\ sum n x incx M = Some (nZ 0) /\ nrm2 n x incx M = Some (nZ 0) /\
  amax n x incx M = Some (nZ 0).
Proof.
  intros n a x incx M Hi. split; [apply scal_nothing; lia|]. split.
  { unfold zero. destruct (1 <=? n); [|reflexivity]. destruct (Z.eqb_spec incx 1); [lia|].
    destruct (Z.ltb_spec 1 incx); [lia|reflexivity]. }
  split; [apply iamax_empty; lia|].
  unfold asum, sum, sum_by, nrm2, amax.
  destruct (Z.ltb_spec incx 1); [|lia]. rewrite Bool.orb_true_r. repeat split; reflexivity.
Qed.
End Any.

Section Exact.
Variables H I : R.
Notation NR := (NumR H I).
Notation mem := (Z -> option NR).

Theorem C39_exact_elements : forall a v w : NR, axpy_elt a v w = (a * v + w)%R /\ scal_elt a v = (a * v)%R.
Proof. intros a v w. split; [rewrite axpy_elt_exact; rring|apply scal_elt_exact]. Qed.

Theorem C39_dot : forall n x incx y incy (M : mem) (X Y : Z -> R),
  has_vec (N := NR) M x n incx X -> has_vec (N := NR) M y n incy Y ->
  dot (N := NR) n x incx y incy M = Some (sumz 0 n (fun i => X i * Y i)%R).
Proof. exact (dot_spec H I). Qed.

Theorem C39_sums : forall n x incx (M : mem) (X : Z -> R), 1 <= incx -> has_vec (N := NR) M x n incx X ->
  asum (N := NR) n x incx M = Some (sumz 0 n (fun i => Rabs (X i))) /\
  sum (N := NR) n x incx M = Some (sumz 0 n X) /\
  nrm2 (N := NR) n x incx M = Some (sqrt (sumz 0 n (fun i => X i * X i)%R)).
Proof.
  intros n x incx M X Hi HX. split; [|split].
  - exact (sum_by_spec H I Rabs n x incx M X Hi HX).
  - exact (sum_by_spec H I (fun v => v) n x incx M X Hi HX).
  - exact (nrm2_spec H I n x incx M X Hi HX).
Qed.

Theorem C39_amax : forall n x incx (M : mem) (X : Z -> R), 1 <= n -> 1 <= incx -> has_vec (N := NR) M x n incx X ->
  exists v : R, amax (N := NR) n x incx M = Some v /\ (forall i, 0 <= i < n -> (Rabs (X i) <= v)%R) /\
    exists i, 0 <= i < n /\ v = Rabs (X i).
Proof. exact (amax_spec H I). Qed.

(** ** C40: matrices *)

Theorem C40_gemv : forall trans (tr : bool) m n (alpha : R) a lda x incx (beta : R) y incy (A : Z -> Z -> R) (X Y : Z -> R) (M : mem),
  transp trans tr -> 0 < m -> 0 < n -> m <= lda -> incx <> 0 -> incy <> 0 ->
  has_mat (N := NR) M a lda m n A ->
  has_vec (N := NR) M x (if tr then m else n) incx X -> has_vec (N := NR) M y (if tr then n else m) incy Y ->
  vec_mat_apart y (if tr then n else m) incy a lda m n ->
  vec_apart y (if tr then n else m) incy x (if tr then m else n) incx ->
  exists M', gemv (N := NR) trans m n alpha a lda x incx beta y incy M = Some (0, M') /\
    has_vec (N := NR) M' y (if tr then n else m) incy
      (fun i => alpha * sumz 0 (if tr then m else n) (fun l => op tr A i l * X l) + beta * Y i)%R /\
    only_vec M M' y (if tr then n else m) incy.
Proof.
  intros trans tr m n alpha a lda x incx beta y incy A X Y M Ht Hm Hn Hl Hix Hiy HA HX HY Hap1 Hap2.
  destruct tr; red in Ht.
  - apply (gemv_t_spec H I); try assumption; try lia.
  - subst trans. apply (gemv_n_spec H I); try assumption; try lia.
Qed.

(** As in the reference BLAS, y is left unchanged when A is empty, even with beta <> 1. *)
Theorem C40_gemv_empty : forall trans (tr : bool) m n (alpha : R) a lda x incx (beta : R) y incy (M : mem),
  transp trans tr -> 0 <= m -> 0 <= n -> m = 0 \/ n = 0 -> 1 <= lda -> m <= lda -> incx <> 0 -> incy <> 0 ->
  gemv (N := NR) trans m n alpha a lda x incx beta y incy M = Some (0, M).
Proof.
  intros trans tr m n alpha a lda x incx beta y incy M Ht Hm Hn Hz Hl Hl' Hix Hiy.
  unfold gemv. apply transp_spec in Ht. destruct Ht as [T1 T2]. rewrite T2. cbv zeta.
  destruct (Z.ltb_spec m 0); [lia|]. destruct (Z.ltb_spec n 0); [lia|].
  destruct (Z.ltb_spec lda m); [lia|]. destruct (Z.ltb_spec lda 1); [lia|]. cbn [orb].
  destruct (Z.eqb_spec incx 0); [contradiction|]. destruct (Z.eqb_spec incy 0); [contradiction|].
  destruct (Z.eqb_spec m 0); [reflexivity|]. destruct (Z.eqb_spec n 0); [reflexivity|lia].
Qed.

Theorem C40_gemm : forall transa transb (ta tb : bool) m n k (alpha : R) a lda b ldb (beta : R) c ldc
    (A B C : Z -> Z -> R) (M : mem),
  transp transa ta -> transp transb tb -> 0 <= m -> 0 <= n -> 0 <= k ->
  1 <= lda -> (if ta then k else m) <= lda -> 1 <= ldb -> (if tb then n else k) <= ldb -> 1 <= ldc -> m <= ldc ->
  has_mat (N := NR) M a lda (if ta then k else m) (if ta then m else k) A ->
  has_mat (N := NR) M b ldb (if tb then n else k) (if tb then k else n) B ->
  has_mat (N := NR) M c ldc m n C ->
  mat_apart c ldc m n a lda (if ta then k else m) (if ta then m else k) ->
  mat_apart c ldc m n b ldb (if tb then n else k) (if tb then k else n) ->
  exists M', gemm (N := NR) transa transb m n k alpha a lda b ldb beta c ldc M = Some (0, M') /\
    has_mat (N := NR) M' c ldc m n (fun i j => alpha * sumz 0 k (fun l => op ta A i l * op tb B l j) + beta * C i j)%R /\
    only_mat M M' c ldc (fun i j => 0 <= i < m /\ 0 <= j < n).
Proof. exact (gemm_spec H I). Qed.

(** What is missing: OPK_SYRK reads A with the leading dimension of C (see [C40_syrk_refuted]), so that the result is the
    documented one only if both are the same. *)
Theorem C40_syrk_partial : forall uplo trans (up tr : bool) n k (alpha : R) a lda (beta : R) c ldc
    (A C : Z -> Z -> R) (M : mem),
  uplo_arg uplo up -> transp trans tr -> 0 <= n -> 0 <= k ->
  1 <= lda -> (if tr then k else n) <= lda -> 1 <= ldc -> n <= ldc ->
  lda = ldc ->
  has_mat (N := NR) M a lda (if tr then k else n) (if tr then n else k) A ->
  has_tri (N := NR) M c ldc n up false C ->
  mat_apart c ldc n n a lda (if tr then k else n) (if tr then n else k) ->
  exists M', syrk (N := NR) uplo trans n k alpha a lda beta c ldc M = Some (0, M') /\
    has_tri (N := NR) M' c ldc n up false (fun i j => alpha * sumz 0 k (fun l => op tr A i l * op tr A j l) + beta * C i j)%R /\
    only_mat M M' c ldc (fun i j => 0 <= i < n /\ 0 <= j < n /\ if up then i <= j else j <= i).
Proof.
  intros uplo trans up tr n k alpha a lda beta c ldc A C M Hu Ht Hn Hk Hl1 Hl2 Hl3 Hl4 El HA HC Hap. subst ldc.
  destruct (syrk_spec H I uplo trans up tr n k alpha a lda beta c lda A C M) as [M' [E [A1 B1]]]; try assumption.
  - intros i j Hi Hj Hij. apply HC; try assumption. discriminate.
  - exists M'. split; [exact E|]. split; [|exact B1]. intros i j Hi Hj Hij _. apply A1; assumption.
Qed.

(** The full statement of C40 is false for OPK_SYRK: with valid arguments, an address outside of the arrays is read. *)
Theorem C40_syrk_refuted : exists n k a lda c ldc (A C : Z -> Z -> R) (M : mem),
  1 <= n /\ 1 <= k /\ n <= lda /\ n <= ldc /\
  has_mat (N := NR) M a lda n k A /\ has_mat (N := NR) M c ldc n n C /\ mat_apart c ldc n n a lda n k /\
  syrk (N := NR) UPPER NO_TRANS n k 1%R a lda 0%R c ldc M = None.
Proof.
  exists 1, 2, 0, 1, 10, 2, (fun _ _ => 1%R), (fun _ _ => 1%R),
    (fun p => if (p =? 0) || (p =? 1) || (p =? 10) then Some 1%R else None).
  repeat (split; [lia|]). split.
  { intros i j Hi Hj. assert (i = 0) by lia. assert (j = 0 \/ j = 1) as [->| ->] by lia; subst i; reflexivity. }
  split.
  { intros i j Hi Hj. assert (i = 0) by lia. assert (j = 0) by lia. subst. reflexivity. }
  split.
  { intros i j k l Hi Hj Hk Hl. unfold entry. lia. }
  unfold syrk, UPPER, NO_TRANS, ZERO, ONE. nrg. cbn [Z.eqb Pos.eqb orb negb Z.ltb Z.compare Pos.compare Pos.compare_cont andb].
  rewrite (Req_bool_false 0 1) by lra. cbn [andb orb]. rewrite (Req_bool_false 1 0) by lra.
  unfold for_up. change (Z.to_nat (1 - 0)) with 1%nat. cbn [iter]. unfold scale_col, ZERO, ONE. nrg.
  rewrite (Req_bool_true 0 0) by reflexivity. unfold for_up. change (Z.to_nat (0 + 1 - 0)) with 1%nat. cbn [iter].
  unfold zero_cell, store, ZERO. cbn [Z.eqb Z.add Z.mul orb Pos.eqb]. change (Z.to_nat (2 - 0)) with 2%nat. cbn [iter].
  cbn [Z.eqb Z.add Z.mul orb Pos.eqb negb]. rewrite (Req_bool_false 1 0) by lra. cbn [negb].
  unfold add_cell, store. cbn [Z.eqb Z.add Z.mul orb Pos.eqb negb Pos.add Pos.mul]. reflexivity.
Qed.

(** Non-zero result k means invalid k-th argument: the documented code of OPK_GEMM is not the right one if [transb] is
    invalid. *)
Theorem C40_gemm_code_refuted : forall m n k (alpha : R) a lda b ldb (beta : R) c ldc (M : mem),
  gemm (N := NR) 111 0 m n k alpha a lda b ldb beta c ldc M = Some (1, M).
Proof. reflexivity. Qed.

(** ** C41: triangular matrices *)

Theorem C41_trmv : forall uplo trans diag (up tr unit : bool) n a lda x incx (A : Z -> Z -> R) (X : Z -> R) (M : mem),
  uplo_arg uplo up -> transp trans tr -> diag_arg diag unit -> 0 <= n -> 1 <= lda -> n <= lda -> incx <> 0 ->
  has_tri (N := NR) M a lda n up unit A -> has_vec (N := NR) M x n incx X -> vec_mat_apart x n incx a lda n n ->
  exists M', trmv (N := NR) uplo trans diag n a lda x incx M = Some (0, M') /\
    has_vec (N := NR) M' x n incx (fun i => sumz 0 n (fun l => op tr (tri_mat up unit A) i l * X l)%R) /\
    only_vec M M' x n incx.
Proof. exact (trmv_spec H I). Qed.

(** The solution computed by OPK_TRSV is the only one *)
Theorem C41_trsv : forall uplo trans diag (up tr unit : bool) n a lda x incx (A : Z -> Z -> R) (B : Z -> R) (M : mem),
  uplo_arg uplo up -> transp trans tr -> diag_arg diag unit -> 0 <= n -> 1 <= lda -> n <= lda -> incx <> 0 ->
  has_tri (N := NR) M a lda n up unit A -> has_vec (N := NR) M x n incx B -> vec_mat_apart x n incx a lda n n ->
  (unit = true \/ forall i, 0 <= i < n -> A i i <> 0%R) ->
  exists M' X, trsv (N := NR) uplo trans diag n a lda x incx M = Some (0, M') /\
    has_vec (N := NR) M' x n incx X /\ only_vec M M' x n incx /\
    (forall i, 0 <= i < n -> sumz 0 n (fun l => op tr (tri_mat up unit A) i l * X l)%R = B i) /\
    (forall Y, (forall i, 0 <= i < n -> sumz 0 n (fun l => op tr (tri_mat up unit A) i l * Y l)%R = B i) ->
       forall i, 0 <= i < n -> Y i = X i).
Proof.
  intros uplo trans diag up tr unit n a lda x incx A B M Hu Ht Hd Hn Hl Hl' Hi HA HB Hap HD.
  destruct (trsv_spec H I uplo trans diag up tr unit n a lda x incx A B M) as [M' [X [E [V [F S]]]]]; try assumption.
  exists M', X. split; [exact E|]. split; [exact V|]. split; [exact F|]. split; [exact S|].
  intros Y HY. apply (tri_unique n up unit tr A Y X Hn HD). intros i Hir. rewrite HY, S by exact Hir. reflexivity.
Qed.

(** OPK_TRMV after OPK_TRSV gives the right hand side back, and OPK_TRSV after OPK_TRMV gives the vector back *)
Theorem C41_round_trip : forall uplo trans diag (up tr unit : bool) n a lda x incx (A : Z -> Z -> R) (B : Z -> R) (M : mem),
  uplo_arg uplo up -> transp trans tr -> diag_arg diag unit -> 0 <= n -> 1 <= lda -> n <= lda -> incx <> 0 ->
  has_tri (N := NR) M a lda n up unit A -> has_vec (N := NR) M x n incx B -> vec_mat_apart x n incx a lda n n ->
  (unit = true \/ forall i, 0 <= i < n -> A i i <> 0%R) ->
  exists M1 M2 M3 M4,
    trsv (N := NR) uplo trans diag n a lda x incx M = Some (0, M1) /\
    trmv (N := NR) uplo trans diag n a lda x incx M1 = Some (0, M2) /\ (forall p, M2 p = M p) /\
    trmv (N := NR) uplo trans diag n a lda x incx M = Some (0, M3) /\
    trsv (N := NR) uplo trans diag n a lda x incx M3 = Some (0, M4) /\ (forall p, M4 p = M p).
Proof.
  intros uplo trans diag up tr unit n a lda x incx A B M Hu Ht Hd Hn Hl Hl' Hi HA HB Hap HD.
  assert (Keep : forall M' : mem, only_vec M M' x n incx -> has_tri (N := NR) M' a lda n up unit A).
  { intros M' F i j Hir Hjr Hij Hd'. rewrite F; [apply HA; assumption|]. intros k Hk. apply not_eq_sym, Hap; assumption. }
  assert (Back : forall (M' : mem) (X : Z -> R), only_vec M M' x n incx -> has_vec (N := NR) M' x n incx X ->
            (forall i, 0 <= i < n -> X i = B i) -> forall p, M' p = M p).
  { intros M' X F V E p.
    destruct (Z_le_gt_dec n 0) as [Hz|Hz]; [apply F; intros; lia|].
    assert (D : (exists i, 0 <= i < n /\ p = elt x n incx i) \/ (forall i, 0 <= i < n -> p <> elt x n incx i)).
    { assert (G : forall k : nat, (exists i, 0 <= i < Z.of_nat k /\ p = elt x n incx i) \/
                             (forall i, 0 <= i < Z.of_nat k -> p <> elt x n incx i)).
      { induction k as [|k IH]; [right; intros; lia|]. destruct IH as [[i [Hir Ei]]|Hno].
        - left. exists i. split; [lia|exact Ei].
        - destruct (Z.eq_dec p (elt x n incx (Z.of_nat k))) as [Ek|Ek].
          + left. exists (Z.of_nat k). split; [lia|exact Ek].
          + right. intros i Hir. destruct (Z.eq_dec i (Z.of_nat k)) as [->|]; [exact Ek|apply Hno; lia]. }
      specialize (G (Z.to_nat n)). rewrite Z2Nat.id in G by lia. exact G. }
    destruct D as [[i [Hir ->]]|Hno]; [|apply F; exact Hno].
    rewrite (V i Hir), (HB i Hir), (E i Hir). reflexivity. }
  destruct (trsv_spec H I uplo trans diag up tr unit n a lda x incx A B M) as [M1 [X [E1 [V1 [F1 S1]]]]]; try assumption.
  destruct (trmv_spec H I uplo trans diag up tr unit n a lda x incx A X M1) as [M2 [E2 [V2 F2]]]; try assumption.
  { apply Keep. exact F1. }
  destruct (trmv_spec H I uplo trans diag up tr unit n a lda x incx A B M) as [M3 [E3 [V3 F3]]]; try assumption.
  destruct (trsv_spec H I uplo trans diag up tr unit n a lda x incx A _ M3 Hu Ht Hd Hn Hl Hl' Hi (Keep M3 F3) V3 Hap HD)
    as [M4 [Y [E4 [V4 [F4 S4]]]]].
  exists M1, M2, M3, M4. split; [exact E1|]. split; [exact E2|]. split.
  { apply (Back M2 _ ltac:(intros p Hp; rewrite F2, F1 by exact Hp; reflexivity) V2). exact S1. }
  split; [exact E3|]. split; [exact E4|].
  apply (Back M4 Y ltac:(intros p Hp; rewrite F4, F3 by exact Hp; reflexivity) V4).
  apply (tri_unique n up unit tr A Y B Hn HD). exact S4.
Qed.

(** ** C42: Cholesky factorization *)

(** If 0 is returned: the selected triangle contains a factor U with U'U = A, with positive diagonal (for the lower
    triangle, L with LL' = A); A is positive definite.  Otherwise the returned value is the order of the first leading
    minor which is not positive definite.  In both cases, the entries which are not in the selected triangle are neither
    read nor modified. *)
Theorem C42_potf2 : forall uplo (up : bool) n a lda (A : Z -> Z -> R) (M : mem),
  uplo_arg uplo up -> 0 <= n -> 1 <= lda -> n <= lda ->
  has_tri (N := NR) M a lda n up false A ->
  exists r M', potf2 (N := NR) uplo n a lda M = Some (r, M') /\
    only_mat M M' a lda (fun i j => 0 <= i < n /\ 0 <= j < n /\ if up then i <= j else j <= i) /\
    (r = 0 /\ (exists F : Z -> Z -> R,
         has_tri (N := NR) M' a lda n up false F /\
         (forall i, 0 <= i < n -> (0 < F i i)%R) /\
         (forall i j, 0 <= i < n -> 0 <= j < n ->
            sumz 0 n (fun l => if up then tri_mat up false F l i * tri_mat up false F l j
                               else tri_mat up false F i l * tri_mat up false F j l)%R
            = sym_mat up A i j)) /\
       pos_def n (sym_mat up A)
     \/ 1 <= r <= n /\ (forall k, 0 <= k < r -> pos_def k (sym_mat up A)) /\ ~ pos_def r (sym_mat up A)).
Proof.
  intros uplo up n a lda A M Hu Hn Hl1 Hl HA.
  destruct (potf2_inv H I uplo up n a lda A M Hu Hn Hl1 Hl HA) as [r [M' [E P]]].
  exists r, M'. split; [exact E|].
  assert (Fr : frame_u H I up n a lda M M' ->
             only_mat M M' a lda (fun i j => 0 <= i < n /\ 0 <= j < n /\ if up then i <= j else j <= i)).
  { intros F q Hq. apply F. intros k i Hk Hi. unfold uaddr. destruct up; apply Hq; lia. }
  (* the factor as an upper triangular matrix *)
  set (ut := fun (F : Z -> Z -> R) l i => if l <=? i then F l i else 0%R).
  assert (Gm : forall m (F : Z -> Z -> R), 0 <= m <= n ->
     (forall k i, 0 <= k < m -> k <= i < n -> sumz 0 (k + 1) (fun l => F l k * F l i)%R = uval up A k i) ->
     forall i j, 0 <= i < m -> 0 <= j < n -> sumz 0 m (fun l => ut F l i * ut F l j)%R = sym_mat up A i j).
  { intros m F Hm HF.
    assert (G1 : forall i j, 0 <= i < m -> i <= j < n -> sumz 0 m (fun l => ut F l i * ut F l j)%R = uval up A i j).
    { intros i j Hi Hj. rewrite (sumz_split 0 (i + 1) m) by lia.
      rewrite (sumz_zero (i + 1) m) by (intros l Hlr; unfold ut; destruct (Z.leb_spec l i); [lia|ring]).
      rewrite <- (HF i j Hi Hj). rewrite Rplus_0_r. apply sumz_ext. intros l Hlr. unfold ut.
      destruct (Z.leb_spec l i); [|lia]. destruct (Z.leb_spec l j); [|lia]. reflexivity. }
    assert (G2 : forall i j, 0 <= i < m -> 0 <= j < i -> sumz 0 m (fun l => ut F l i * ut F l j)%R = uval up A j i).
    { intros i j Hi Hj. rewrite <- (G1 j i) by lia. apply sumz_ext. intros l _. ring. }
    intros i j Hi Hj. unfold sym_mat.
    destruct (Z_le_gt_dec i j) as [Hij|Hij].
    - rewrite (G1 i j) by lia. unfold uval. destruct up.
      + destruct (Z.leb_spec i j); [reflexivity|lia].
      + destruct (Z.leb_spec j i); [assert (i = j) by lia; subst; reflexivity|reflexivity].
    - rewrite (G2 i j) by lia. unfold uval. destruct up.
      + destruct (Z.leb_spec i j); [lia|reflexivity].
      + destruct (Z.leb_spec j i); [reflexivity|lia]. }
  assert (Pd : forall m (F : Z -> Z -> R), 0 <= m <= n ->
     (forall k i, 0 <= k < m -> k <= i < n -> sumz 0 (k + 1) (fun l => F l k * F l i)%R = uval up A k i) ->
     (forall k, 0 <= k < m -> (0 < F k k)%R) -> pos_def m (sym_mat up A)).
  { intros m F Hm HF Hp. apply (factor_pos_def m (sym_mat up A) (ut F)); [lia| | |].
    - intros l i Hlr Hi Hlt. unfold ut. destruct (Z.leb_spec l i); [lia|reflexivity].
    - intros l Hlr. unfold ut. rewrite Z.leb_refl. specialize (Hp l Hlr). lra.
    - intros i k Hi Hk. apply Gm; try assumption; lia. }
  destruct P as [[-> [F [I1 [I2 [I3 [I4 I5]]]]]]|[Hr [[F [S1 [S2 S3]]] S4]]].
  - split; [apply Fr; exact I5|]. left. split; [reflexivity|]. split; [|apply (Pd n F); try assumption; lia].
    exists (fun i j => if up then F i j else F j i). split; [|split].
    + intros i j Hi Hj Hij _. destruct up; [apply (I1 i j); lia|apply (I1 j i); lia].
    + intros i Hi. destruct up; apply I4; exact Hi.
    + intros i j Hi Hj. rewrite <- (Gm n F ltac:(lia) I3 i j Hi Hj). apply sumz_ext. intros l Hlr.
      assert (Et : forall p q, (if up then tri_mat up false (fun i j => if up then F i j else F j i) p q
                                else tri_mat up false (fun i j => if up then F i j else F j i) q p) = ut F p q).
      { intros p q. unfold tri_mat, ut. destruct up.
        - destruct (Z.eqb_spec p q) as [->|]; [rewrite Z.leb_refl; reflexivity|].
          destruct (Z.ltb_spec p q), (Z.leb_spec p q); lia || reflexivity.
        - destruct (Z.eqb_spec q p) as [->|]; [rewrite Z.leb_refl; reflexivity|].
          destruct (Z.ltb_spec p q), (Z.leb_spec p q); lia || reflexivity. }
      rewrite <- (Et l i), <- (Et l j). destruct up; reflexivity.
  - split; [apply Fr; exact S4|]. right. split; [exact Hr|]. split.
    + intros k Hk. apply (Pd k F); [lia| |].
      * intros k' i Hk' Hi. apply S1; lia.
      * intros k' Hk'. apply S2. lia.
    + replace r with (r - 1 + 1) by lia. apply (pivot_not_pos_def (r - 1) (sym_mat up A) (ut F)).
      * lia.
      * intros l i Hlr Hi. unfold ut. destruct (Z.leb_spec l i); [lia|reflexivity].
      * intros l Hlr. unfold ut. rewrite Z.leb_refl. specialize (S2 l Hlr). lra.
      * intros i k Hi Hk. apply (Gm (r - 1) F); try assumption; lia.
      * intros i k _ _. unfold sym_mat. destruct up.
        -- destruct (Z.leb_spec i k), (Z.leb_spec k i); try lia; try reflexivity. assert (i = k) by lia. subst. reflexivity.
        -- destruct (Z.leb_spec i k), (Z.leb_spec k i); try lia; try reflexivity. assert (i = k) by lia. subst. reflexivity.
      * replace (sym_mat up A (r - 1) (r - 1)) with (uval up A (r - 1) (r - 1))
          by (unfold sym_mat, uval; destruct up; rewrite Z.leb_refl; reflexivity).
        rewrite (sumz_ext 0 (r - 1) _ (fun l => F l (r - 1)%Z * F l (r - 1)%Z)%R); [exact S3|].
        intros l Hlr. unfold ut. destruct (Z.leb_spec l (r - 1)); [reflexivity|lia].
Qed.

(** In particular, 0 is returned if and only if the matrix is positive definite *)
Theorem C42_decides : forall uplo (up : bool) n a lda (A : Z -> Z -> R) (M : mem),
  uplo_arg uplo up -> 0 <= n -> 1 <= lda -> n <= lda ->
  has_tri (N := NR) M a lda n up false A ->
  (pos_def n (sym_mat up A) <-> exists M', potf2 (N := NR) uplo n a lda M = Some (0, M')).
Proof.
  intros uplo up n a lda A M Hu Hn Hl1 Hl HA.
  destruct (C42_potf2 uplo up n a lda A M Hu Hn Hl1 Hl HA) as [r [M' [E [_ P]]]]. split.
  - intros PD. destruct P as [[-> _]|[Hr [_ Hno]]]; [exists M'; exact E|]. exfalso. apply Hno.
    intros v [i [Hi Hv]]. set (w := fun k => if k <? r then v k else 0%R).
    assert (Q : (0 < sumz 0 n (fun i => sumz 0 n (fun j => w i * sym_mat up A i j * w j)))%R).
    { apply PD. exists i. split; [lia|]. unfold w. destruct (Z.ltb_spec i r); [exact Hv|lia]. }
    assert (E2 : sumz 0 n (fun i => sumz 0 n (fun j => w i * sym_mat up A i j * w j))%R
               = sumz 0 r (fun i => sumz 0 r (fun j => v i * sym_mat up A i j * v j))%R).
    { rewrite (sumz_split 0 r n) by lia. rewrite (sumz_zero r n).
      - rewrite Rplus_0_r. apply sumz_ext. intros p Hp. rewrite (sumz_split 0 r n) by lia. rewrite (sumz_zero r n).
        + rewrite Rplus_0_r. apply sumz_ext. intros q Hq. unfold w.
          destruct (Z.ltb_spec p r); [|lia]. destruct (Z.ltb_spec q r); [reflexivity|lia].
        + intros q Hq. unfold w. destruct (Z.ltb_spec q r); [lia|]. ring.
      - intros p Hp. apply sumz_zero. intros q Hq. unfold w. destruct (Z.ltb_spec p r); [lia|]. ring. }
    rewrite E2 in Q. exact Q.
  - intros [M'' E'']. rewrite E in E''. injection E'' as -> _. destruct P as [[_ [_ PD]]|[Hr _]]; [exact PD|lia].
Qed.

End Exact.

(** ** Examples

    The memory [win lo hi f] has the addresses from [lo] to [hi - 1] only. *)
Definition win {N : Num} (lo hi : Z) (f : Z -> N) : Z -> option N :=
  fun p => if (lo <=? p) && (p <? hi) then Some (f p) else None.

Lemma win_in {N : Num} : forall lo hi (f : Z -> N) p, lo <= p < hi -> win lo hi f p = Some (f p).
Proof.
  intros lo hi f p Hp. unfold win. destruct (Z.leb_spec lo p); [|lia]. destruct (Z.ltb_spec p hi); [reflexivity|lia].
Qed.

Ltac in_win := unfold has_vec, has_mat, has_tri, elt, entry; intros;
  cbn [Z.ltb Z.compare]; refine (eq_trans (win_in _ _ _ _ _) eq_refl); lia.
Ltac apart := unfold vec_apart, mat_apart, vec_mat_apart, elt, entry; intros; cbn [Z.ltb Z.compare]; lia.

(** Result codes and contents in double precision *)
Definition shows (n : nat) (p : Z) (l : list Z) (M : option (Z -> option NumD)) : bool :=
  match M with
  | Some M => forallb (fun i => match M (p + Z.of_nat i), nth_error l i with
                                | Some v, Some z => (v =? nZ z)%num | None, None => true | _, _ => false end) (seq 0 n)
  | None => false
  end.
Definition code0 {A : Type} (r : option (Z * A)) : option A :=
  match r with Some (0, m) => Some m | _ => None end.

(** Vectors with increments 2 and -1 in the same memory of 11 cells: y := 3 x + y for 4 elements, and with 7 elements and
    unit increments, in the unrolled loop. *)
Example C39_example : exists M' M'',
  axpy (N := NumD) 4 (nZ 3) 0 2 7 (-1) (win 0 11 (fun p => nZ p)) = Some M' /\
    has_vec M' 7 4 (-1) (fun i => axpy_elt (nZ 3) (nZ (elt 0 4 2 i)) (nZ (elt 7 4 (-1) i))) /\
  axpy (N := NumD) 7 (nZ 3) 0 1 7 1 (win 0 14 (fun p => nZ p)) = Some M'' /\
    has_vec M'' 7 7 1 (fun i => axpy_elt (nZ 3) (nZ (elt 0 7 1 i)) (nZ (elt 7 7 1 i))).
Proof.
  destruct (C39_axpy (N := NumD) 4 (nZ 3) 0 2 7 (-1) (win 0 11 (fun p => nZ p))
      (fun i => nZ (elt 0 4 2 i)) (fun i => nZ (elt 7 4 (-1) i))) as [M1 [A1 [B1 _]]];
    [in_win|in_win|lia|apart|].
  destruct (C39_axpy (N := NumD) 7 (nZ 3) 0 1 7 1 (win 0 14 (fun p => nZ p))
      (fun i => nZ (elt 0 7 1 i)) (fun i => nZ (elt 7 7 1 i))) as [M2 [A2 [B2 _]]];
    [in_win|in_win|lia|apart|].
  exists M1, M2. repeat split; assumption.
Qed.

Example C39_run :
  shows 12 0 [0; 1; 2; 3; 4; 5; 6; 25; 20; 15; 10] (axpy (N := NumD) 4 (nZ 3) 0 2 7 (-1) (win 0 11 (fun p => nZ p))) = true /\
  shows 15 0 [0; 1; 2; 3; 4; 5; 6; 7; 11; 15; 19; 23; 27; 31] (axpy (N := NumD) 7 (nZ 3) 0 1 7 1 (win 0 14 (fun p => nZ p))) = true.
Proof. split; vm_compute; reflexivity. Qed.

(** 3 elements with increment 2: -9, -3, 3 *)
Example C39_iamax_example : exists k, iamax (N := NumD) 3 1 2 (win 1 6 (fun p => nZ (3 * (p - 4)))) = Some (k + 1) /\ k = 0.
Proof.
  destruct (C39_iamax OrdD 3 1 2 (win 1 6 (fun p => nZ (3 * (p - 4)) : NumD)) (fun i => nZ (3 * (elt 1 3 2 i - 4)))) as [k [E [Hk _]]];
    [lia|lia|in_win| |].
  - intros i Hi. assert (i = 0 \/ i = 1 \/ i = 2) as [->|[->| ->]] by lia; vm_compute; reflexivity.
  - exists k. split; [exact E|]. assert (G : iamax (N := NumD) 3 1 2 (win 1 6 (fun p => nZ (3 * (p - 4)))) = Some 1) by (vm_compute; reflexivity).
    rewrite G in E. injection E as E. lia.
Qed.

(** A is 2 x 2 with leading dimension 3, B is 2 x 2 with leading dimension 2, transposed, and C is 2 x 2 with leading
    dimension 4. *)
Example C40_example : forall H I : R, exists M',
  gemm (N := NumR H I) 111 112 2 2 2 2%R 0 3 5 2 3%R 10 4 (win (N := NumR H I) 0 16 (fun p => IZR p)) = Some (0, M') /\
  has_mat (N := NumR H I) M' 10 4 2 2 (fun i j => 2 * sumz 0 2 (fun l => IZR (entry 0 3 i l) * IZR (entry 5 2 j l)) + 3 * IZR (entry 10 4 i j))%R.
Proof.
  intros H I.
  destruct (C40_gemm H I 111 112 false true 2 2 2 2%R 0 3 5 2 3%R 10 4 (fun i j => IZR (entry 0 3 i j))
    (fun i j => IZR (entry 5 2 i j)) (fun i j => IZR (entry 10 4 i j)) (win (N := NumR H I) 0 16 (fun p => IZR p))) as [M' [E [B _]]];
    try lia; try in_win; try apart.
  - reflexivity.
  - left. reflexivity.
  - exists M'. split; [exact E|]. exact B.
Qed.

Example C40_run : shows 16 0 [0; 1; 2; 3; 4; 5; 6; 7; 8; 9; 72; 99; 12; 13; 90; 121]
  (code0 (gemm (N := NumD) 111 112 2 2 2 (nZ 2) 0 3 5 2 (nZ 3) 10 4 (win 0 16 (fun p => nZ p)))) = true.
Proof. vm_compute. reflexivity. Qed.

(** A system of order 3 with leading dimension 4, the transpose of the lower triangle, and a vector with increment -2 *)
Example C41_example : forall H I : R, exists M' X,
  trsv (N := NumR H I) 122 112 131 3 1 4 20 (-2) (win (N := NumR H I) 1 25 (fun p => IZR p)) = Some (0, M') /\ has_vec (N := NumR H I) M' 20 3 (-2) X /\
  forall i, 0 <= i < 3 -> sumz 0 3 (fun l => op true (tri_mat false false (fun i j => IZR (entry 1 4 i j))) i l * X l)%R = IZR (elt 20 3 (-2) i).
Proof.
  intros H I.
  destruct (C41_trsv H I 122 112 131 false true false 3 1 4 20 (-2) (fun i j => IZR (entry 1 4 i j)) (fun i => IZR (elt 20 3 (-2) i))
    (win (N := NumR H I) 1 25 (fun p => IZR p))) as [M' [X [E [B [_ [S _]]]]]];
    try lia; try reflexivity; try in_win; try apart.
  - left. reflexivity.
  - right. intros i Hi. unfold entry. apply not_0_IZR. lia.
  - exists M', X. split; [exact E|]. split; [exact B|exact S].
Qed.

(** The upper triangle of (4 2 2; 2 5 3; 2 3 6) has the factor (2 1 1; 0 2 1; 0 0 2); with 1 as the last diagonal element,
    the order of the first minor which is not positive definite is 3.  The cells under the diagonal do not exist. *)
Definition chol_cells {N : Num} (d : Z) : Z -> option N :=
  fun p => match p with 0 => Some (nZ 4) | 3 => Some (nZ 2) | 4 => Some (nZ 5) | 6 => Some (nZ 2) | 7 => Some (nZ 3)
           | 8 => Some (nZ d) | _ => None end.

Example C42_example : forall H I : R, exists r M', potf2 (N := NumR H I) 121 3 0 3 (chol_cells 6) = Some (r, M').
Proof.
  intros H I.
  destruct (C42_potf2 H I 121 true 3 0 3
    (fun i j => IZR (match i + 3 * j with 0 => 4 | 4 => 5 | 7 => 3 | 8 => 6 | _ => 2 end)) (chol_cells 6)) as [r [M' [E _]]];
    try lia; try reflexivity.
  - intros i j Hi Hj Hij _. unfold entry.
    assert (i = 0 \/ i = 1 \/ i = 2) as [->|[->| ->]] by lia; assert (j = 0 \/ j = 1 \/ j = 2) as [->|[->| ->]] by lia;
      try lia; reflexivity.
  - exists r, M'. exact E.
Qed.

Example C42_run :
  (match potf2 (N := NumD) 121 3 0 3 (chol_cells 6) with
  | Some (r, M) => (r =? 0) && forallb (fun c => match M (fst c) with Some v => (v =? nZ (snd c))%num | None => false end)
                     [(0, 2); (3, 1); (4, 2); (6, 1); (7, 1); (8, 2)]
  | None => false
  end) = true /\
  (match potf2 (N := NumD) 121 3 0 3 (chol_cells 1) with Some (r, _) => r =? 3 | None => false end) = true.
Proof. split; vm_compute; reflexivity. Qed.

Print Assumptions C39_copy.
Print Assumptions C39_swap.
Print Assumptions C39_axpy.
Print Assumptions C39_iamax.
Print Assumptions C39_sums.
Print Assumptions C40_gemv.
Print Assumptions C40_gemm.
Print Assumptions C40_syrk_partial.
Print Assumptions C40_syrk_refuted.
Print Assumptions C41_trsv.
Print Assumptions C41_round_trip.
Print Assumptions C42_potf2.
Print Assumptions C42_decides.
