(** * Proofs about the level 1 routines of linalg.c in exact arithmetic *)
From Coq Require Import ZArith Reals List Bool Lia Lra.
From Flocq Require Import Core.
From Verif Require Import Base Num NumFacts OrdFacts LaModel LaLoops LaSpec LaMem LaBlas1.
Local Open Scope Z_scope.

Ltac nr := cbn [num nadd nsub nmul ndiv nopp nabs nsqrt nlt nle neq nZ NumR] in *.
Ltac zo := change (IZR 0) with 0%R in *; change (IZR 1) with 1%R in *.

Section Exact.
Variables H I : R.
Notation NR := (NumR H I).
Notation mem := (Z -> option NR).

(** ** Sums *)

Lemma sum_up : forall n (op : Z -> NR -> option NR) (f : Z -> R), 0 <= n ->
  (forall j t, 0 <= j < n -> op j t = Some (t + f j)%R) ->
  for_up 0 n op (0%R : NR) = Some (sumz 0 n f).
Proof.
  intros n op f Hn Hop.
  destruct (for_up_inv (fun j t => t = sumz 0 j f) 0 n op 0%R Hn) as [t [E Et]].
  - rewrite sumz_empty by lia. reflexivity.
  - intros j t Hj ->. exists (sumz 0 (j + 1) f). split; [|reflexivity].
    rewrite Hop by exact Hj. rewrite sumz_right by lia. reflexivity.
  - rewrite <- Et. exact E.
Qed.

Lemma sum_unrolled : forall n (op : Z -> NR -> option NR) (f : Z -> R), 0 <= n ->
  (forall j t, 0 <= j < n -> op j t = Some (t + f j)%R) ->
  (do (t0, t1, t2, t3) <- unroll_4b n op (0%R : NR, 0%R : NR, 0%R : NR, 0%R : NR);
   Some ((t0 + t1) + (t2 + t3))%num) = Some (sumz 0 n f).
Proof.
  intros n op f Hn Hop.
  destruct (unroll_4b_inv (fun j (s : NR * NR * NR * NR) => let '(t0, t1, t2, t3) := s in
              ((t0 + t1) + (t2 + t3))%R = sumz 0 j f) n op (0%R : NR, 0%R : NR, 0%R : NR, 0%R : NR) Hn)
    as [[[[t0 t1] t2] t3] [E Et]].
  - rewrite sumz_empty by lia. lra.
  - intros j t0 t1 t2 t3 Hj Hp. exists (t0 + f j)%R. split; [apply Hop; exact Hj|].
    rewrite sumz_right by lia. rewrite <- Hp. cbn [num NumR]. ring.
  - intros j t0 t1 t2 t3 Hj Hp. exists (t1 + f j)%R. split; [apply Hop; exact Hj|].
    rewrite sumz_right by lia. rewrite <- Hp. cbn [num NumR]. ring.
  - intros j t0 t1 t2 t3 Hj Hp. exists (t2 + f j)%R. split; [apply Hop; exact Hj|].
    rewrite sumz_right by lia. rewrite <- Hp. cbn [num NumR]. ring.
  - intros j t0 t1 t2 t3 Hj Hp. exists (t3 + f j)%R. split; [apply Hop; exact Hj|].
    rewrite sumz_right by lia. rewrite <- Hp. cbn [num NumR]. ring.
  - rewrite E. f_equal. exact Et.
Qed.

Lemma dot_spec : forall n x incx y incy (M : mem) X Y,
  has_vec M x n incx X -> has_vec M y n incy Y ->
  dot n x incx y incy M = Some (sumz 0 n (fun i => (X i * Y i)%R)).
Proof.
  intros n x incx y incy M X Y HX HY. unfold dot.
  destruct (Z.leb_spec n 0) as [Hn|Hn]; [rewrite sumz_empty by lia; reflexivity|].
  assert (Op : forall j t, 0 <= j < n ->
            dot_op M x y (start0 n incx + j * incx) (start0 n incy + j * incy) t = Some (t + X j * Y j)%R).
  { intros j t Hj. unfold dot_op.
    specialize (HX j Hj). specialize (HY j Hj). rewrite elt_affine in HX, HY. rewrite HX, HY. reflexivity. }
  destruct (Z.eqb_spec incx 1) as [->|]; destruct (Z.eqb_spec incy 1) as [->|].
  - apply sum_unrolled; [lia|]. intros j t Hj. specialize (Op j t Hj). rewrite !start0_1 in Op.
    replace (0 + j * 1) with j in Op by lia. exact Op.
  - refine (eq_trans (for_up_run 0 n _ (fun j ix t => dot_op M x y j ix t) (fun j => start0 n incy + j * incy) _ _ incy _ _) _).
    + reflexivity.
    + intros; lia.
    + apply sum_up; [lia|]. intros j t Hj. specialize (Op j t Hj). rewrite start0_1 in Op.
      replace (0 + j * 1) with j in Op by lia. exact Op.
  - refine (eq_trans (for_up_run 0 n _ (fun j ix t => dot_op M x y ix j t) (fun j => start0 n incx + j * incx) _ _ incx _ _) _).
    + reflexivity.
    + intros; lia.
    + apply sum_up; [lia|]. intros j t Hj. specialize (Op j t Hj). rewrite start0_1 in Op.
      replace (0 + j * 1) with j in Op by lia. exact Op.
  - refine (eq_trans (for_up_run2 n _ (dot_op M x y) _ (start0 n incx) incx (start0 n incy) incy _) _).
    + reflexivity.
    + apply sum_up; [lia|]. exact Op.
Qed.

Lemma sum_by_spec : forall f n x incx (M : mem) X, 1 <= incx ->
  has_vec M x n incx X -> sum_by f n x incx M = Some (sumz 0 n (fun i => f (X i))).
Proof.
  intros f n x incx M X Hi HX. unfold sum_by.
  destruct (Z.ltb_spec n 1) as [Hn|Hn]; cbn [orb]; [rewrite sumz_empty by lia; reflexivity|].
  destruct (Z.ltb_spec incx 1); [lia|].
  assert (Op : forall j, 0 <= j < n -> M (x + j * incx) = Some (X j)).
  { intros j Hj. specialize (HX j Hj). rewrite elt_pos in HX by lia. exact HX. }
  destruct (Z.eqb_spec incx 1) as [->|].
  - apply sum_unrolled; [lia|]. intros j t Hj. specialize (Op j Hj). replace (x + j * 1) with (x + j) in Op by lia.
    rewrite Op. reflexivity.
  - rewrite for_stride by lia. apply sum_up; [lia|]. intros j t Hj. rewrite (Op j Hj). reflexivity.
Qed.

(** ** Extreme values *)

(** loop of OPK_AMAX and OPK_NRM2 *)
Lemma minmax_up : forall lo n x incx (M : mem) X a0 b0, 0 <= lo <= n -> 1 <= incx ->
  has_vec M x n incx X -> (a0 <= b0)%R ->
  exists a b,
    (if incx =? 1 then for_up lo n (minmax M x) (a0 : NR, b0 : NR)
     else for_up lo n (fun t => minmax M x (t * incx)) (a0 : NR, b0 : NR)) = Some (a, b) /\
    (a <= a0)%R /\ (b0 <= b)%R /\ (forall i, lo <= i < n -> (a <= X i <= b)%R) /\
    (a = a0 \/ exists i, lo <= i < n /\ a = X i) /\ (b = b0 \/ exists i, lo <= i < n /\ b = X i).
Proof.
  intros lo n x incx M X a0 b0 Hn Hi HX Hab.
  set (P := fun (j : Z) (s : NR * NR) => let '(a, b) := s in
    (a <= a0)%R /\ (b0 <= b)%R /\ (forall i, lo <= i < j -> (a <= X i <= b)%R) /\
    (a = a0 \/ exists i, lo <= i < j /\ a = X i) /\ (b = b0 \/ exists i, lo <= i < j /\ b = X i)).
  assert (P0 : P lo (a0, b0)).
  { cbn [P]. split; [lra|]. split; [lra|]. split; [intros; lia|]. auto. }
  assert (Step : forall j a b, lo <= j < n -> P j (a, b) ->
            P (j + 1) (if Rlt_bool (X j) a then X j else a, if Rlt_bool b (X j) then X j else b)).
  { intros j a b Hj [Ha [Hb [Hall [HA HB]]]].
    assert (W : forall c, (exists i, lo <= i < j /\ c = X i) -> exists i, lo <= i < j + 1 /\ c = X i).
    { intros c [i [Hi' E]]. exists i. split; [lia|exact E]. }
    destruct (Rlt_bool_spec (X j) a) as [C1|C1]; destruct (Rlt_bool_spec b (X j)) as [C2|C2]; cbn [P] in *.
    - exfalso. cbn [num NumR] in *. lra.
    - split; [cbn [num NumR] in *; lra|]. split; [exact Hb|]. split.
      + intros i Hi'. destruct (Z.eq_dec i j) as [->|]; [cbn [num NumR] in *; lra|].
        specialize (Hall i ltac:(lia)). cbn [num NumR] in *; lra.
      + split; [right; exists j; split; [lia|reflexivity]|]. destruct HB; auto.
    - split; [exact Ha|]. split; [cbn [num NumR] in *; lra|]. split.
      + intros i Hi'. destruct (Z.eq_dec i j) as [->|]; [cbn [num NumR] in *; lra|].
        specialize (Hall i ltac:(lia)). cbn [num NumR] in *; lra.
      + split; [destruct HA; auto|]. right; exists j; split; [lia|reflexivity].
    - split; [exact Ha|]. split; [exact Hb|]. split.
      + intros i Hi'. destruct (Z.eq_dec i j) as [->|]; [cbn [num NumR] in *; lra|].
        apply Hall; lia.
      + split; [destruct HA; auto|]. destruct HB; auto. }
  assert (Op : forall j, 0 <= j < n -> M (x + j * incx) = Some (X j)).
  { intros j Hj. specialize (HX j Hj). rewrite elt_pos in HX by lia. exact HX. }
  destruct (Z.eqb_spec incx 1) as [->|].
  - destruct (for_up_inv P lo n (minmax M x) (a0, b0) ltac:(lia) P0) as [[a b] [E Pn]].
    + intros j [a b] Hj Pj. unfold minmax. specialize (Op j ltac:(lia)). replace (x + j * 1) with (x + j) in Op by lia.
      rewrite Op. eexists. split; [reflexivity|]. exact (Step j a b Hj Pj).
    + exists a, b. split; [exact E|exact Pn].
  - destruct (for_up_inv P lo n (fun t => minmax M x (t * incx)) (a0, b0) ltac:(lia) P0) as [[a b] [E Pn]].
    + intros j [a b] Hj Pj. unfold minmax. rewrite (Op j ltac:(lia)). eexists. split; [reflexivity|].
      exact (Step j a b Hj Pj).
    + exists a, b. split; [exact E|exact Pn].
Qed.

Lemma amax_spec : forall n x incx (M : mem) X, 1 <= n -> 1 <= incx -> has_vec M x n incx X ->
  exists v, amax n x incx M = Some v /\ (forall i, 0 <= i < n -> (Rabs (X i) <= v)%R) /\
    exists i, 0 <= i < n /\ v = Rabs (X i).
Proof.
  intros n x incx M X Hn Hi HX. unfold amax.
  destruct (Z.ltb_spec n 1); [lia|]. destruct (Z.ltb_spec incx 1); [lia|]. cbn [orb].
  destruct (minmax_up 0 n x incx M X 0%R 0%R ltac:(lia) Hi HX ltac:(lra)) as [a [b [E [Ha [Hb [Hall [HA HB]]]]]]].
  assert (E' : (if incx =? 1 then for_up 0 n (minmax M x) (@ZERO NR, @ZERO NR)
                else for_step 0 (n * incx) incx (minmax M x) (@ZERO NR, @ZERO NR)) = Some (a, b)).
  { rewrite <- E. destruct (incx =? 1); [reflexivity|]. rewrite for_stride by lia. reflexivity. }
  rewrite E'. cbv zeta. nr. clear E E'.
  eexists. split; [reflexivity|].
  assert (W : forall i, 0 <= i < n -> (Rabs (X i) <= Rmax (- a) b)%R).
  { intros i Hi'. specialize (Hall i Hi'). unfold Rabs, Rmax. destruct (Rcase_abs (X i)), (Rle_dec (- a) b); lra. }
  assert (EM : (if Rle_bool b (- a) then - a else b)%R = Rmax (- a) b).
  { unfold Rmax. destruct (Rle_bool_spec b (- a)), (Rle_dec (- a) b); lra. }
  rewrite EM. split; [exact W|].
  assert (Za : a = 0%R -> b = 0%R -> exists i, 0 <= i < n /\ Rmax (- a) b = Rabs (X i)).
  { intros -> ->. exists 0. split; [lia|]. specialize (Hall 0 ltac:(lia)).
    replace (X 0) with 0%R by lra. rewrite Rabs_R0. unfold Rmax. destruct (Rle_dec (- 0) 0); lra. }
  unfold Rmax in *. destruct (Rle_dec (- a) b) as [C|C].
  - destruct HB as [HB|[i [Hi' HB]]].
    + destruct HA as [HA|HA]; [apply Za; lra|]. apply Za; lra.
    + exists i. split; [exact Hi'|]. rewrite <- HB. rewrite Rabs_right; lra.
  - destruct HA as [HA|[i [Hi' HA]]]; [lra|].
    exists i. split; [exact Hi'|]. rewrite <- HA. rewrite Rabs_left1; lra.
Qed.

Lemma nrm2_spec : forall n x incx (M : mem) X, 1 <= incx -> has_vec M x n incx X ->
  nrm2 n x incx M = Some (sqrt (sumz 0 n (fun i => (X i * X i)%R))).
Proof.
  intros n x incx M X Hi HX. unfold nrm2.
  destruct (Z.ltb_spec n 1) as [Hn|Hn]; cbn [orb].
  { rewrite sumz_empty by lia. rewrite sqrt_0. reflexivity. }
  destruct (Z.ltb_spec incx 1); [lia|].
  assert (E0 : M x = Some (X 0)).
  { specialize (HX 0 ltac:(lia)). rewrite elt_pos in HX by lia. rewrite <- HX. f_equal. lia. }
  rewrite E0.
  destruct (minmax_up 1 n x incx M X (X 0) (X 0) ltac:(lia) Hi HX ltac:(cbn [num NumR]; lra))
    as [a [b [E [Ha [Hb [Hall _]]]]]].
  assert (E' : (if incx =? 1 then for_up 1 n (minmax M x) (X 0, X 0)
                else for_step incx (n * incx) incx (minmax M x) (X 0, X 0)) = Some (a, b)).
  { rewrite <- E. destruct (incx =? 1); [reflexivity|]. rewrite for_stride1 by lia. reflexivity. }
  rewrite E'. cbv zeta. clear E E'. unfold ZERO, ONE. nr.
  set (am := if Rlt_bool (- a) b then b else (- a)%R).
  assert (W : forall i, 0 <= i < n -> (Rabs (X i) <= am)%R).
  { intros i Hi'. assert (B : (a <= X i <= b)%R).
    { destruct (Z.eq_dec i 0) as [->|]; [lra|apply Hall; lia]. }
    unfold am, Rabs. destruct (Rlt_bool_spec (- a) b), (Rcase_abs (X i)); lra. }
  clearbody am. destruct (Rle_bool_spec am 0) as [C|C].
  - f_equal. rewrite sumz_zero; [rewrite sqrt_0; reflexivity|].
    intros i Hi'. specialize (W i Hi'). pose proof (Rabs_pos (X i)) as W'.
    assert (Z0 : X i = 0%R). { destruct (Req_dec (X i) 0) as [E|E]; [exact E|]. apply Rabs_pos_lt in E. lra. }
    rewrite Z0. lra.
  - set (f := fun i => (1 / am * X i * (1 / am * X i))%R).
    set (op := fun (i : Z) (s : R) => match M (x + i) with Some v => Some (s + 1 / am * v * (1 / am * v))%R | None => None end).
    assert (S : (if incx =? 1 then for_up 0 n op 0%R else for_step 0 (n * incx) incx op 0%R) = Some (sumz 0 n f)).
    { assert (Op : forall j, 0 <= j < n -> M (x + j * incx) = Some (X j)).
      { intros j Hj. specialize (HX j Hj). rewrite elt_pos in HX by lia. exact HX. }
      destruct (Z.eqb_spec incx 1) as [->|].
      - apply (sum_up n op f); [lia|]. intros j t Hj. specialize (Op j Hj). replace (x + j * 1) with (x + j) in Op by lia.
        unfold op. rewrite Op. reflexivity.
      - rewrite for_stride by lia. apply (sum_up n _ f); [lia|]. intros j t Hj. unfold op. rewrite (Op j Hj). reflexivity. }
    refine (eq_trans (f_equal (fun o => do s <- o; Some (am * sqrt s)%R) S) _). f_equal.
    assert (Ef : sumz 0 n f = ((1 / am) * (1 / am) * sumz 0 n (fun i => X i * X i))%R).
    { rewrite <- sumz_scal. apply sumz_ext. intros k _. unfold f. ring. }
    rewrite Ef.
    assert (Pa : (0 < 1 / am)%R) by (apply Rdiv_lt_0_compat; lra).
    rewrite sqrt_mult; [|nra|].
    + rewrite sqrt_square by lra. field. lra.
    + apply sumz_nonneg. intros. nra.
Qed.

(** the sums in exact arithmetic of the other routines *)
Lemma axpy_elt_exact : forall a v w : NR, axpy_elt a v w = (w + a * v)%R.
Proof.
  intros a v w. unfold axpy_elt. nr.
  destruct (Req_bool_spec a (IZR 0)) as [->|]; [lra|]. destruct (Req_bool_spec a 1) as [->|]; [lra|].
  destruct (Req_bool_spec a (-1)) as [->|]; lra.
Qed.

Lemma scal_elt_exact : forall a v : NR, scal_elt a v = (a * v)%R.
Proof.
  intros a v. unfold scal_elt. nr.
  destruct (Req_bool_spec a 1) as [->|]; [lra|]. destruct (Req_bool_spec a (IZR 0)) as [->|]; [lra|].
  destruct (Req_bool_spec a (-1)) as [->|]; lra.
Qed.

End Exact.
