(** * Proofs about OPK_GEMV, OPK_GEMM and OPK_SYRK of linalg.c in exact arithmetic *)
From Coq Require Import ZArith Reals List Bool Lia Lra.
From Flocq Require Import Core.
From Verif Require Import Base Num NumFacts OrdFacts LaModel LaLoops LaSpec LaMem LaBlas1 LaBlas1R.
Local Open Scope Z_scope.

Ltac nrg := cbn [nadd nsub nmul ndiv nopp nabs nsqrt nlt nle neq nZ NumR].
Ltac rring := match goal with |- @eq _ ?a ?b => change (@eq R a b) end; ring.

Section Exact.
Variables H I : R.
Notation NR := (NumR H I).
Notation mem := (Z -> option NR).

(** ** Building blocks *)

(** c(i) += temp*src(i) for lo <= i < hi *)
Lemma col_up : forall lo hi (c src : Z -> Z) (temp : R) (Y V : Z -> R) (M : mem), lo <= hi ->
  (forall i j, lo <= i < hi -> lo <= j < hi -> c i = c j -> i = j) ->
  (forall i j, lo <= i < hi -> lo <= j < hi -> c i <> src j) ->
  (forall i, lo <= i < hi -> M (c i) = Some (Y i)) -> (forall i, lo <= i < hi -> M (src i) = Some (V i)) ->
  exists M', for_up lo hi (fun i M => do v <- M (src i); add_cell (c i) (nmul (n := NR) temp v) M) M = Some M' /\
    (forall i, lo <= i < hi -> M' (c i) = Some (Y i + temp * V i)%R) /\
    (forall q, (forall i, lo <= i < hi -> q <> c i) -> M' q = M q).
Proof.
  intros lo hi c src temp Y V M Hle Hinj Hap HY HV.
  apply (map_up (N := NR) lo hi c (fun i => Y i + temp * V i)%R); [exact Hle|exact Hinj|].
  intros j M1 Hj Hs.
  assert (Ev : M1 (src j) = Some (V j)).
  { rewrite Hs; [apply HV; exact Hj|]. intros i Hi. apply not_eq_sym, Hap; lia. }
  assert (Ey : M1 (c j) = Some (Y j)).
  { rewrite Hs; [apply HY; exact Hj|]. intros i Hi E. apply Hinj in E; lia. }
  rewrite Ev. unfold add_cell. rewrite Ey. exact (store_ok M1 (c j) _ _ Ey).
Qed.

Lemma col_down : forall hi lo (c src : Z -> Z) (temp : R) (Y V : Z -> R) (M : mem), lo <= hi + 1 ->
  (forall i j, lo <= i <= hi -> lo <= j <= hi -> c i = c j -> i = j) ->
  (forall i j, lo <= i <= hi -> lo <= j <= hi -> c i <> src j) ->
  (forall i, lo <= i <= hi -> M (c i) = Some (Y i)) -> (forall i, lo <= i <= hi -> M (src i) = Some (V i)) ->
  exists M', for_down hi lo (fun i M => do v <- M (src i); add_cell (c i) (nmul (n := NR) temp v) M) M = Some M' /\
    (forall i, lo <= i <= hi -> M' (c i) = Some (Y i + temp * V i)%R) /\
    (forall q, (forall i, lo <= i <= hi -> q <> c i) -> M' q = M q).
Proof.
  intros hi lo c src temp Y V M Hle Hinj Hap HY HV.
  apply (map_down (N := NR) hi lo c (fun i => Y i + temp * V i)%R); [exact Hle|exact Hinj|].
  intros j M1 Hj Hs.
  assert (Ev : M1 (src j) = Some (V j)).
  { rewrite Hs; [apply HV; exact Hj|]. intros i Hi. apply not_eq_sym, Hap; lia. }
  assert (Ey : M1 (c j) = Some (Y j)).
  { rewrite Hs; [apply HY; exact Hj|]. intros i Hi E. apply Hinj in E; lia. }
  rewrite Ev. unfold add_cell. rewrite Ey. exact (store_ok M1 (c j) _ _ Ey).
Qed.

(** c(i) += alpha*b(l)*a(i,l) for 0 <= l < k, skipping the zeros of b *)
Lemma cols_acc : forall k lo hi (c b : Z -> Z) (a : Z -> Z -> Z) (alpha : R) (Y B : Z -> R) (A : Z -> Z -> R) (M : mem),
  0 <= k -> lo <= hi ->
  (forall i j, lo <= i < hi -> lo <= j < hi -> c i = c j -> i = j) ->
  (forall i j l, lo <= i < hi -> lo <= j < hi -> 0 <= l < k -> c i <> a j l) ->
  (forall i l, lo <= i < hi -> 0 <= l < k -> c i <> b l) ->
  (forall i, lo <= i < hi -> M (c i) = Some (Y i)) ->
  (forall i l, lo <= i < hi -> 0 <= l < k -> M (a i l) = Some (A i l)) ->
  (forall l, 0 <= l < k -> M (b l) = Some (B l)) ->
  exists M', for_up 0 k (fun l M =>
      do bl <- M (b l);
      if negb (bl =? @ZERO NR)%num then
        let temp := nmul (n := NR) alpha bl in
        for_up lo hi (fun i M => do v <- M (a i l); add_cell (c i) (temp * v)%num M) M
      else Some M) M = Some M' /\
    (forall i, lo <= i < hi -> M' (c i) = Some (Y i + alpha * sumz 0 k (fun l => A i l * B l))%R) /\
    (forall q, (forall i, lo <= i < hi -> q <> c i) -> M' q = M q).
Proof.
  intros k lo hi c b a alpha Y B A M Hk Hle Hinj Ha Hb HY HA HB.
  apply (for_up_inv (fun l M' =>
    (forall i, lo <= i < hi -> M' (c i) = Some (Y i + alpha * sumz 0 l (fun l => A i l * B l))%R) /\
    (forall q, (forall i, lo <= i < hi -> q <> c i) -> M' q = M q))); [exact Hk| |].
  - split; [|reflexivity]. intros i Hi. rewrite HY by exact Hi. rewrite sumz_empty by lia. f_equal.
    cbn [num NumR]. ring.
  - intros l M1 Hl [H1 H2].
    rewrite (H2 (b l)) by (intros i Hi; apply not_eq_sym, Hb; lia). rewrite (HB l Hl).
    unfold ZERO. nr. cbv zeta. destruct (Req_bool_spec (B l) 0) as [Z0|Z0]; cbn [negb].
    + exists M1. split; [reflexivity|]. split; [|exact H2].
      intros i Hi. rewrite (H1 i Hi). rewrite sumz_right by lia. rewrite Z0. f_equal. ring.
    + destruct (col_up lo hi c (fun i => a i l) (alpha * B l)%R
                  (fun i => Y i + alpha * sumz 0 l (fun l => A i l * B l))%R (fun i => A i l) M1) as [M2 [E2 [A2 B2]]].
      * exact Hle.
      * exact Hinj.
      * intros; apply Ha; assumption.
      * exact H1.
      * intros i Hi. rewrite H2; [apply HA; assumption|]. intros i' Hi'. apply not_eq_sym. apply Ha; assumption.
      * exists M2. split; [exact E2|]. split.
        -- intros i Hi. rewrite (A2 i Hi). rewrite sumz_right by lia. f_equal. ring.
        -- intros q Hq. rewrite B2 by exact Hq. apply H2. exact Hq.
Qed.

(** the columns 0 <= j < n of C, in rows lo(j) <= i < hi(j), one after the other *)
Lemma cols_up : forall n (lo hi : Z -> Z) (c : Z -> Z -> Z) (F : Z -> Z -> R) (body : Z -> mem -> option mem) (M0 : mem),
  0 <= n ->
  (forall i j i' j', 0 <= j < n -> 0 <= j' < n -> lo j <= i < hi j -> lo j' <= i' < hi j' ->
     c i j = c i' j' -> i = i' /\ j = j') ->
  (forall j M, 0 <= j < n ->
     (forall q, (forall i j', 0 <= j' < j -> lo j' <= i < hi j' -> q <> c i j') -> M q = M0 q) ->
     exists M', body j M = Some M' /\ (forall i, lo j <= i < hi j -> M' (c i j) = Some (F i j)) /\
       (forall q, (forall i, lo j <= i < hi j -> q <> c i j) -> M' q = M q)) ->
  exists M', for_up 0 n body M0 = Some M' /\
    (forall i j, 0 <= j < n -> lo j <= i < hi j -> M' (c i j) = Some (F i j)) /\
    (forall q, (forall i j, 0 <= j < n -> lo j <= i < hi j -> q <> c i j) -> M' q = M0 q).
Proof.
  intros n lo hi c F body M0 Hn Hinj Hb.
  apply (for_up_inv (fun j M' =>
    (forall i j', 0 <= j' < j -> lo j' <= i < hi j' -> M' (c i j') = Some (F i j')) /\
    (forall q, (forall i j', 0 <= j' < j -> lo j' <= i < hi j' -> q <> c i j') -> M' q = M0 q))); [exact Hn| |].
  - split; [intros; lia|reflexivity].
  - intros j M Hj [H1 H2]. destruct (Hb j M Hj H2) as [M' [E [H3 H4]]].
    exists M'. split; [exact E|]. split.
    + intros i j' Hj' Hi. destruct (Z.eq_dec j' j) as [->|Hne]; [apply H3; exact Hi|].
      rewrite H4; [apply H1; [lia|exact Hi]|].
      intros i' Hi' Ec. apply Hinj in Ec; [lia|lia|lia|exact Hi|exact Hi'].
    + intros q Hq. rewrite H4 by (intros i Hi; apply Hq; [lia|exact Hi]). apply H2.
      intros i j' Hj' Hi. apply Hq; [lia|exact Hi].
Qed.

(** c(i) = beta*c(i) *)
Lemma mul_up : forall lo hi (c : Z -> Z) (beta : R) (Y : Z -> R) (M : mem), lo <= hi ->
  (forall i j, lo <= i < hi -> lo <= j < hi -> c i = c j -> i = j) ->
  (forall i, lo <= i < hi -> M (c i) = Some (Y i)) ->
  exists M', for_up lo hi (fun i => mul_cell (N := NR) (c i) beta) M = Some M' /\
    (forall i, lo <= i < hi -> M' (c i) = Some (beta * Y i)%R) /\
    (forall q, (forall i, lo <= i < hi -> q <> c i) -> M' q = M q).
Proof.
  intros lo hi c beta Y M Hle Hinj HY.
  apply (map_up (N := NR) lo hi c (fun i => beta * Y i)%R); [exact Hle|exact Hinj|].
  intros j M1 Hj Hs.
  assert (Ey : M1 (c j) = Some (Y j)).
  { rewrite Hs; [apply HY; exact Hj|]. intros i Hi E. apply Hinj in E; lia. }
  unfold mul_cell. rewrite Ey. destruct (store_ok M1 (c j) _ (nmul (n := NR) (Y j) beta) Ey) as [M2 [E2 [A2 B2]]].
  exists M2. split; [exact E2|]. split; [|exact B2]. rewrite A2. f_equal. nr. ring.
Qed.

Lemma zero_up : forall lo hi (c : Z -> Z) (Y : Z -> R) (M : mem), lo <= hi ->
  (forall i j, lo <= i < hi -> lo <= j < hi -> c i = c j -> i = j) ->
  (forall i, lo <= i < hi -> M (c i) = Some (Y i)) ->
  exists M', for_up lo hi (fun i => zero_cell (N := NR) (c i)) M = Some M' /\
    (forall i, lo <= i < hi -> M' (c i) = Some (0 * Y i)%R) /\
    (forall q, (forall i, lo <= i < hi -> q <> c i) -> M' q = M q).
Proof.
  intros lo hi c Y M Hle Hinj HY.
  apply (map_up (N := NR) lo hi c (fun i => 0 * Y i)%R); [exact Hle|exact Hinj|].
  intros j M1 Hj Hs.
  assert (Ey : M1 (c j) = Some (Y j)).
  { rewrite Hs; [apply HY; exact Hj|]. intros i Hi E. apply Hinj in E; lia. }
  unfold zero_cell. destruct (store_ok M1 (c j) _ (@ZERO NR) Ey) as [M2 [E2 [A2 B2]]].
  exists M2. split; [exact E2|]. split; [|exact B2]. rewrite A2. f_equal. unfold ZERO. nr. ring.
Qed.

Lemma scale_col_ok : forall (c : Z -> Z -> Z) lo hi j (beta : R) (Y : Z -> R) (M : mem), lo <= hi ->
  (forall i i', lo <= i < hi -> lo <= i' < hi -> c i j = c i' j -> i = i') ->
  (forall i, lo <= i < hi -> M (c i j) = Some (Y i)) ->
  exists M', scale_col (N := NR) c lo hi j beta M = Some M' /\
    (forall i, lo <= i < hi -> M' (c i j) = Some (beta * Y i)%R) /\
    (forall q, (forall i, lo <= i < hi -> q <> c i j) -> M' q = M q).
Proof.
  intros c lo hi j beta Y M Hle Hinj HY. unfold scale_col, ZERO, ONE. nr.
  destruct (Req_bool_spec beta 0) as [->|].
  { apply (zero_up lo hi (fun i => c i j) Y M Hle Hinj HY). }
  destruct (Req_bool_spec beta 1) as [->|]; cbn [negb].
  { exists M. split; [reflexivity|]. split; [|reflexivity]. intros i Hi. rewrite HY by exact Hi. f_equal. ring. }
  apply (mul_up lo hi (fun i => c i j) beta Y M Hle Hinj HY).
Qed.

(** sum of products *)
Lemma dot_up : forall k (p q : Z -> Z) (V W : Z -> R) (M : mem), 0 <= k ->
  (forall l, 0 <= l < k -> M (p l) = Some (V l)) -> (forall l, 0 <= l < k -> M (q l) = Some (W l)) ->
  for_up 0 k (fun l temp => do v <- M (p l); do w <- M (q l); Some (temp + v * w)%num) (@ZERO NR)
  = Some (sumz 0 k (fun l => V l * W l)%R).
Proof.
  intros k p q V W M Hk HV HW. apply (sum_up H I k); [exact Hk|].
  intros j t Hj. rewrite (HV j Hj), (HW j Hj). reflexivity.
Qed.

Lemma set_cell_ok : forall c (alpha temp beta Y : R) (M : mem), M c = Some Y ->
  exists M', set_cell (N := NR) c alpha temp beta M = Some M' /\ M' c = Some (alpha * temp + beta * Y)%R /\
    (forall q, q <> c -> M' q = M q).
Proof.
  intros c alpha temp beta Y M HY. unfold set_cell, ZERO. nr.
  destruct (Req_bool_spec beta 0) as [->|].
  - destruct (store_ok (N := NR) M c _ (alpha * temp)%R HY) as [M2 [E2 [A2 B2]]]. exists M2. split; [exact E2|].
    split; [|exact B2]. rewrite A2. f_equal. ring.
  - rewrite HY. exact (store_ok (N := NR) M c _ _ HY).
Qed.

(** ** GEMV *)

Lemma gemv_beta_ok : forall leny (beta : R) y_ incy (Y : Z -> R) (M : mem), 0 <= leny -> incy <> 0 ->
  has_vec M y_ leny incy Y ->
  exists M', gemv_beta (N := NR) leny beta (fun a1 => y_ + a1) incy (start0 leny incy) M = Some M' /\
    has_vec M' y_ leny incy (fun i => beta * Y i)%R /\ only_vec M M' y_ leny incy.
Proof.
  intros leny beta y_ incy Y M Hn Hi HY. unfold gemv_beta, ZERO, ONE. nr.
  destruct (Req_bool_spec beta 1) as [->|]; cbn [negb].
  { exists M. split; [reflexivity|]. split; [|intros p _; reflexivity]. intros i Hir. rewrite HY by exact Hir. f_equal. ring. }
  assert (Inj : forall i j, 0 <= i < leny -> 0 <= j < leny -> elt y_ leny incy i = elt y_ leny incy j -> i = j).
  { intros i j _ _ E. exact (elt_inj y_ leny incy i j Hi E). }
  assert (Run : forall cell : Z -> mem -> option mem,
    (if incy =? 1 then for_up 0 leny (fun i => cell (y_ + i)) M
     else do (M, _) <- for_up 0 leny (fun _ '(M, iy) => do M <- cell (y_ + iy) M; Some (M, (iy + incy)%Z)) (M, start0 leny incy);
          Some M)
    = for_up 0 leny (fun i => cell (elt y_ leny incy i)) M).
  { intros cell. destruct (Z.eqb_spec incy 1) as [->|].
    - apply for_up_ext. intros. rewrite elt_1. reflexivity.
    - refine (eq_trans (for_up_run 0 leny _ (fun j ix M => cell (y_ + ix) M) (fun j => start0 leny incy + j * incy)
                          M (start0 leny incy) incy _ _) _).
      + reflexivity.
      + intros; lia.
      + apply for_up_ext. intros. rewrite elt_affine. reflexivity. }
  destruct (Req_bool_spec beta 0) as [->|].
  - destruct (zero_up 0 leny (elt y_ leny incy) Y M Hn Inj HY) as [M' [E [A1 B1]]].
    exists M'. split; [|split; assumption]. specialize (Run (zero_cell (N := NR))).
    destruct (incy =? 1); exact (eq_trans Run E).
  - destruct (mul_up 0 leny (elt y_ leny incy) beta Y M Hn Inj HY) as [M' [E [A1 B1]]].
    exists M'. split; [|split; assumption]. specialize (Run (fun p => mul_cell (N := NR) p beta)).
    destruct (incy =? 1); exact (eq_trans Run E).
Qed.

Lemma gemv_n_ok : forall m n (alpha : R) (a : Z -> Z -> Z) x_ incx y_ incy (A : Z -> Z -> R) (X Y : Z -> R) (M : mem), 0 <= m -> 0 <= n ->
  incy <> 0 ->
  (forall i j, 0 <= i < m -> 0 <= j < n -> M (a i j) = Some (A i j)) ->
  has_vec M x_ n incx X -> has_vec M y_ m incy Y ->
  (forall k i j, 0 <= k < m -> 0 <= i < m -> 0 <= j < n -> elt y_ m incy k <> a i j) ->
  vec_apart y_ m incy x_ n incx ->
  exists M', gemv_n (N := NR) m n alpha a (fun a1 => x_ + a1) incx (start0 n incx) (fun a1 => y_ + a1) incy (start0 m incy) M
             = Some M' /\
    has_vec M' y_ m incy (fun i => Y i + alpha * sumz 0 n (fun j => A i j * X j))%R /\ only_vec M M' y_ m incy.
Proof.
  intros m n alpha a x_ incx y_ incy A X Y M Hm Hn Hi HA HX HY Hya Hyx.
  destruct (cols_acc n 0 m (elt y_ m incy) (elt x_ n incx) a alpha Y X A M Hn Hm) as [M' [E [A1 B1]]].
  - intros i j _ _ E. exact (elt_inj y_ m incy i j Hi E).
  - intros i j l Hi' Hj Hl. apply Hya; assumption.
  - intros i l Hi' Hl. apply Hyx; assumption.
  - exact HY.
  - exact HA.
  - exact HX.
  - exists M'. split; [|split; assumption]. refine (eq_trans _ E). clear. unfold gemv_n.
    destruct (Z.eqb_spec incy 1) as [->|].
    + refine (eq_trans (for_up_run 0 n _ (fun j jx M => do xj <- M (x_ + jx);
          (if negb (xj =? @ZERO NR)%num then
             let temp := nmul (n := NR) alpha xj in
             for_up 0 m (fun i M => do v <- M (a i j); add_cell (y_ + i) (temp * v)%num M) M
           else Some M)) (fun j => start0 n incx + j * incx) M (start0 n incx) incx _ _) _).
      * intros j M1 jx. destruct (M1 (x_ + jx)); reflexivity.
      * intros; lia.
      * apply for_up_ext. intros j M1 Hj. rewrite elt_affine. destruct (M1 _) as [xj|]; [|reflexivity].
        destruct (negb _); [|reflexivity]. cbv zeta. apply for_up_ext. intros. rewrite elt_1. reflexivity.
    + refine (eq_trans (for_up_run 0 n _ (fun j jx M => do xj <- M (x_ + jx);
          (if negb (xj =? @ZERO NR)%num then
             let temp := nmul (n := NR) alpha xj in
             do (M, _) <- for_up 0 m (fun i '(M, iy) =>
                            do v <- M (a i j);
                            do M <- add_cell (y_ + iy) (temp * v)%num M;
                            Some (M, (iy + incy)%Z)) (M, start0 m incy);
             Some M
           else Some M)) (fun j => start0 n incx + j * incx) M (start0 n incx) incx _ _) _).
      * intros j M1 jx. destruct (M1 (x_ + jx)); reflexivity.
      * intros; lia.
      * apply for_up_ext. intros j M1 Hj. rewrite (elt_affine x_). destruct (M1 _) as [xj|]; [|reflexivity].
        destruct (negb _); [|reflexivity]. cbv zeta.
        refine (eq_trans (for_up_run 0 m _ (fun i iy M => do v <- M (a i j); add_cell (y_ + iy) (nmul (n := NR) (nmul (n := NR) alpha xj) v) M)
                 (fun i => start0 m incy + i * incy) M1 (start0 m incy) incy _ _) _).
        -- intros i M2 iy. destruct (M2 (a i j)); reflexivity.
        -- intros; lia.
        -- apply for_up_ext. intros. rewrite elt_affine. reflexivity.
Qed.

Lemma gemv_t_ok : forall m n (alpha : R) (a : Z -> Z -> Z) x_ incx y_ incy (A : Z -> Z -> R) (X Y : Z -> R) (M : mem), 0 <= m -> 0 <= n ->
  incy <> 0 ->
  (forall i j, 0 <= i < m -> 0 <= j < n -> M (a i j) = Some (A i j)) ->
  has_vec M x_ m incx X -> has_vec M y_ n incy Y ->
  (forall k i j, 0 <= k < n -> 0 <= i < m -> 0 <= j < n -> elt y_ n incy k <> a i j) ->
  vec_apart y_ n incy x_ m incx ->
  exists M', gemv_t (N := NR) m n alpha a (fun a1 => x_ + a1) incx (start0 m incx) (fun a1 => y_ + a1) incy (start0 n incy) M
             = Some M' /\
    has_vec M' y_ n incy (fun j => Y j + alpha * sumz 0 m (fun i => A i j * X i))%R /\ only_vec M M' y_ n incy.
Proof.
  intros m n alpha a x_ incx y_ incy A X Y M Hm Hn Hi HA HX HY Hya Hyx.
  destruct (map_up (N := NR) 0 n (elt y_ n incy) (fun j => Y j + alpha * sumz 0 m (fun i => A i j * X i))%R
     (fun j M => do temp <- for_up 0 m (fun i temp => do v <- M (a i j); do w <- M (elt x_ m incx i); Some (temp + v * w)%num) (@ZERO NR);
                 add_cell (elt y_ n incy j) (nmul (n := NR) alpha temp) M) M Hn) as [M' [E [A1 B1]]].
  - intros i j _ _ E. exact (elt_inj y_ n incy i j Hi E).
  - intros j M1 Hj Hs.
    rewrite (dot_up m (fun i => a i j) (elt x_ m incx) (fun i => A i j) X M1 Hm).
    + assert (Ey : M1 (elt y_ n incy j) = Some (Y j)).
      { rewrite Hs; [apply HY; exact Hj|]. intros i Hi' E. apply elt_inj in E; lia. }
      unfold add_cell. rewrite Ey. exact (store_ok M1 _ _ _ Ey).
    + intros i Hi'. rewrite Hs; [apply HA; assumption|]. intros k Hk. apply not_eq_sym, Hya; lia.
    + intros i Hi'. rewrite Hs; [apply HX; assumption|]. intros k Hk. apply not_eq_sym, Hyx; lia.
  - exists M'. split; [|split; assumption]. refine (eq_trans _ E). clear. unfold gemv_t.
    destruct (Z.eqb_spec incx 1) as [->|].
    + refine (eq_trans (for_up_run 0 n _ (fun j jy M => 
          do temp <- for_up 0 m (fun i temp => do v <- M (a i j); do w <- M (x_ + i); Some (temp + v * w)%num) (@ZERO NR);
          add_cell (y_ + jy) (nmul (n := NR) alpha temp) M) (fun j => start0 n incy + j * incy) M (start0 n incy) incy _ _) _).
      * intros j M1 jx. destruct (for_up 0 m _ _); reflexivity.
      * intros; lia.
      * apply for_up_ext. intros j M1 Hj. rewrite elt_affine.
        match goal with |- match ?l with _ => _ end = match ?r with _ => _ end => replace r with l; [reflexivity|] end.
        apply for_up_ext. intros. rewrite elt_1. reflexivity.
    + refine (eq_trans (for_up_run 0 n _ (fun j jy M => 
          do temp <- (do (temp, _) <- for_up 0 m (fun i '(temp, ix) =>
                         do v <- M (a i j); do w <- M (x_ + ix);
                         Some ((temp + v * w)%num, (ix + incx)%Z)) (@ZERO NR, start0 m incx); Some temp);
          add_cell (y_ + jy) (nmul (n := NR) alpha temp) M) (fun j => start0 n incy + j * incy) M (start0 n incy) incy _ _) _).
      * intros j M1 jx. destruct (for_up 0 m _ _) as [[? ?]|]; reflexivity.
      * intros; lia.
      * apply for_up_ext. intros j M1 Hj. rewrite (elt_affine y_).
        match goal with |- match ?l with _ => _ end = match ?r with _ => _ end => replace r with l; [reflexivity|] end.
        refine (eq_trans (for_up_run 0 m _ (fun i ix temp => do v <- M1 (a i j); do w <- M1 (x_ + ix); Some (nadd (n := NR) temp (v * w))%num)
                 (fun i => start0 m incx + i * incx) (@ZERO NR) (start0 m incx) incx _ _) _).
        -- intros i t ix. destruct (M1 (a i j)); [|reflexivity]. destruct (M1 (x_ + ix)); reflexivity.
        -- intros; lia.
        -- apply for_up_ext. intros. rewrite elt_affine. reflexivity.
Qed.

Lemma has_mat_gemv : forall a_ lda rows cols (A : Z -> Z -> R) (M : mem), has_mat M a_ lda rows cols A ->
  forall i j, 0 <= i < rows -> 0 <= j < cols -> M (a_ + (j * lda + i)) = Some (A i j).
Proof. intros a_ lda rows cols A M HA i j Hi Hj. refine (eq_trans _ (HA i j Hi Hj)). unfold entry. f_equal. lia. Qed.

Lemma gemv_n_spec : forall m n (alpha : R) a lda x incx (beta : R) y incy (A : Z -> Z -> R) (X Y : Z -> R) (M : mem),
  0 <= m -> 0 <= n -> 1 <= lda -> m <= lda -> incx <> 0 -> incy <> 0 ->
  (0 < m /\ 0 < n \/ beta = 1%R) ->
  has_mat M a lda m n A -> has_vec M x n incx X -> has_vec M y m incy Y ->
  vec_mat_apart y m incy a lda m n -> vec_apart y m incy x n incx ->
  exists M', gemv (N := NR) NO_TRANS m n alpha a lda x incx beta y incy M = Some (0, M') /\
    has_vec M' y m incy (fun i => alpha * sumz 0 n (fun j => A i j * X j) + beta * Y i)%R /\ only_vec M M' y m incy.
Proof.
  intros m n alpha a lda x incx beta y incy A X Y M Hm Hn Hl1 Hl Hix Hiy Hq HA HX HY Hya Hyx.
  unfold gemv. rewrite Z.eqb_refl. cbn [orb negb]. cbv zeta.
  destruct (Z.ltb_spec m 0); [lia|]. destruct (Z.ltb_spec n 0); [lia|].
  destruct (Z.ltb_spec lda m); [lia|]. destruct (Z.ltb_spec lda 1); [lia|]. cbn [orb].
  destruct (Z.eqb_spec incx 0); [contradiction|]. destruct (Z.eqb_spec incy 0); [contradiction|].
  unfold ZERO, ONE. nrg.
  assert (Quick : (m = 0 \/ n = 0 \/ alpha = 0%R) -> beta = 1%R \/ m = 0 ->
    exists M', Some (0, M) = Some (0, M') /\
      has_vec M' y m incy (fun i => alpha * sumz 0 n (fun j => A i j * X j) + beta * Y i)%R /\ only_vec M M' y m incy).
  { intros Hz Hb. exists M. split; [reflexivity|]. split; [|intros p _; reflexivity].
    intros i Hi. rewrite HY by exact Hi. f_equal. destruct Hb as [->|Hb]; [|lia].
    destruct Hz as [Hz|[Hz|Hz]]; [lia| |].
    - rewrite sumz_empty by lia. rring.
    - rewrite Hz. rring. }
  destruct (Z.eqb_spec m 0); [apply Quick; auto|].
  destruct (Z.eqb_spec n 0); [apply Quick; [auto|]; destruct Hq as [[? ?]|Hq]; [lia|left; exact Hq]|].
  destruct (Req_bool_spec alpha 0) as [Ha|Ha]; cbn [andb orb].
  - destruct (Req_bool_spec beta 1) as [Hb|Hb]; [apply Quick; auto|].
    destruct (gemv_beta_ok m beta y incy Y M Hm Hiy HY) as [M1 [E1 [V1 F1]]]. cbn [negb].
    exists M1. split; [exact (f_equal (fun o => do M <- o; Some (0, M)) E1)|]. split; [|exact F1].
    intros i Hi. rewrite (V1 i Hi). f_equal. rewrite Ha. rring.
  - destruct (gemv_beta_ok m beta y incy Y M Hm Hiy HY) as [M1 [E1 [V1 F1]]]. cbn [negb].
    destruct (gemv_n_ok m n alpha (fun a1 a2 => a + (a2 * lda + a1)) x incx y incy A X (fun i => beta * Y i)%R M1)
      as [M2 [E2 [V2 F2]]]; try assumption.
    + intros i j Hi Hj. rewrite F1; [apply (has_mat_gemv a lda m n A M HA); assumption|].
      intros k Hk. apply not_eq_sym. replace (a + (j * lda + i)) with (entry a lda i j) by (unfold entry; lia).
      apply Hya; assumption.
    + intros i Hi. rewrite F1; [apply HX; exact Hi|]. intros k Hk. apply not_eq_sym. apply Hyx; assumption.
    + intros k i j Hk Hi Hj. replace (a + (j * lda + i)) with (entry a lda i j) by (unfold entry; lia).
      apply Hya; assumption.
    + exists M2. split.
      * refine (eq_trans (f_equal (fun o => do M <- o;
          do M <- gemv_n (N := NR) m n alpha (fun a1 a2 => a + (a2 * lda + a1)) (fun a1 => x + a1) incx (start0 n incx)
                    (fun a1 => y + a1) incy (start0 m incy) M; Some (0, M)) E1) _).
        exact (f_equal (fun o => do M <- o; Some (0, M)) E2).
      * split; [|intros p Hp; rewrite (F2 p Hp); apply F1; exact Hp].
        intros i Hi. rewrite (V2 i Hi). f_equal. rring.
Qed.

Lemma gemv_t_spec : forall trans m n (alpha : R) a lda x incx (beta : R) y incy (A : Z -> Z -> R) (X Y : Z -> R) (M : mem),
  trans = TRANS \/ trans = CONJ_TRANS ->
  0 <= m -> 0 <= n -> 1 <= lda -> m <= lda -> incx <> 0 -> incy <> 0 ->
  (0 < m /\ 0 < n \/ beta = 1%R) ->
  has_mat M a lda m n A -> has_vec M x m incx X -> has_vec M y n incy Y ->
  vec_mat_apart y n incy a lda m n -> vec_apart y n incy x m incx ->
  exists M', gemv (N := NR) trans m n alpha a lda x incx beta y incy M = Some (0, M') /\
    has_vec M' y n incy (fun j => alpha * sumz 0 m (fun i => A i j * X i) + beta * Y j)%R /\ only_vec M M' y n incy.
Proof.
  intros trans m n alpha a lda x incx beta y incy A X Y M Ht Hm Hn Hl1 Hl Hix Hiy Hq HA HX HY Hya Hyx.
  unfold gemv.
  assert (Et : (trans =? NO_TRANS) = false /\ negb (false || (trans =? TRANS) || (trans =? CONJ_TRANS)) = false).
  { destruct Ht as [->| ->]; split; reflexivity. }
  destruct Et as [Et1 Et2]. rewrite Et1, Et2. clear Et1 Et2 Ht trans. cbv zeta.
  destruct (Z.ltb_spec m 0); [lia|]. destruct (Z.ltb_spec n 0); [lia|].
  destruct (Z.ltb_spec lda m); [lia|]. destruct (Z.ltb_spec lda 1); [lia|]. cbn [orb].
  destruct (Z.eqb_spec incx 0); [contradiction|]. destruct (Z.eqb_spec incy 0); [contradiction|].
  unfold ZERO, ONE. nrg.
  assert (Quick : (m = 0 \/ n = 0 \/ alpha = 0%R) -> beta = 1%R \/ n = 0 ->
    exists M', Some (0, M) = Some (0, M') /\
      has_vec M' y n incy (fun j => alpha * sumz 0 m (fun i => A i j * X i) + beta * Y j)%R /\ only_vec M M' y n incy).
  { intros Hz Hb. exists M. split; [reflexivity|]. split; [|intros p _; reflexivity].
    intros i Hi. rewrite HY by exact Hi. f_equal. destruct Hb as [->|Hb]; [|lia].
    destruct Hz as [Hz|[Hz|Hz]]; [|lia|].
    - rewrite sumz_empty by lia. rring.
    - rewrite Hz. rring. }
  destruct (Z.eqb_spec m 0); [apply Quick; [auto|]; destruct Hq as [[? ?]|Hq]; [lia|left; exact Hq]|].
  destruct (Z.eqb_spec n 0); [apply Quick; auto|].
  destruct (Req_bool_spec alpha 0) as [Ha|Ha]; cbn [andb orb].
  - destruct (Req_bool_spec beta 1) as [Hb|Hb]; [apply Quick; auto|].
    destruct (gemv_beta_ok n beta y incy Y M Hn Hiy HY) as [M1 [E1 [V1 F1]]]. cbn [negb].
    exists M1. split; [exact (f_equal (fun o => do M <- o; Some (0, M)) E1)|]. split; [|exact F1].
    intros i Hi. rewrite (V1 i Hi). f_equal. rewrite Ha. rring.
  - destruct (gemv_beta_ok n beta y incy Y M Hn Hiy HY) as [M1 [E1 [V1 F1]]]. cbn [negb].
    destruct (gemv_t_ok m n alpha (fun a1 a2 => a + (a2 * lda + a1)) x incx y incy A X (fun i => beta * Y i)%R M1)
      as [M2 [E2 [V2 F2]]]; try assumption.
    + intros i j Hi Hj. rewrite F1; [apply (has_mat_gemv a lda m n A M HA); assumption|].
      intros k Hk. apply not_eq_sym. replace (a + (j * lda + i)) with (entry a lda i j) by (unfold entry; lia).
      apply Hya; assumption.
    + intros i Hi. rewrite F1; [apply HX; exact Hi|]. intros k Hk. apply not_eq_sym. apply Hyx; assumption.
    + intros k i j Hk Hi Hj. replace (a + (j * lda + i)) with (entry a lda i j) by (unfold entry; lia).
      apply Hya; assumption.
    + exists M2. split.
      * refine (eq_trans (f_equal (fun o => do M <- o;
          do M <- gemv_t (N := NR) m n alpha (fun a1 a2 => a + (a2 * lda + a1)) (fun a1 => x + a1) incx (start0 m incx)
                    (fun a1 => y + a1) incy (start0 n incy) M; Some (0, M)) E1) _).
        exact (f_equal (fun o => do M <- o; Some (0, M)) E2).
      * split; [|intros p Hp; rewrite (F2 p Hp); apply F1; exact Hp].
        intros i Hi. rewrite (V2 i Hi). f_equal. rring.
Qed.

End Exact.
