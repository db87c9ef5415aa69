(** * Proofs about the level 1 routines of linalg.c *)
From Coq Require Import ZArith Reals List Bool Lia Lra.
From Verif Require Import Base Num NumFacts OrdFacts LaModel LaLoops LaSpec LaMem.
Local Open Scope Z_scope.

Section Any.
Context {N : Num}.
Notation mem := (Z -> option N).
Implicit Types (M : Z -> option N).

Lemma walk2_spec : forall U n incx incy op M, 0 <= n ->
  (forall f M, U n f M = for_up 0 n f M) ->
  walk2 U n incx incy op M
  = for_up 0 n (fun j => op (start0 n incx + j * incx) (start0 n incy + j * incy)) M.
Proof.
  intros U n incx incy op M Hn HU. unfold walk2.
  destruct (Z.eqb_spec incx 1) as [->|]; destruct (Z.eqb_spec incy 1) as [->|].
  - rewrite HU. apply for_up_ext. intros j M1 _. rewrite !start0_1. f_equal; lia.
  - rewrite (for_up_run 0 n _ (fun j ix M => op j ix M) (fun j => start0 n incy + j * incy)) with (e := incy).
    + apply for_up_ext. intros j M1 _. rewrite start0_1. f_equal. lia.
    + reflexivity.
    + intros. lia.
  - rewrite (for_up_run 0 n _ (fun j ix M => op ix j M) (fun j => start0 n incx + j * incx)) with (e := incx).
    + apply for_up_ext. intros j M1 _. rewrite start0_1. f_equal. lia.
    + reflexivity.
    + intros. lia.
  - rewrite (for_up_run2 n _ op M (start0 n incx) incx (start0 n incy) incy); reflexivity.
Qed.

(** an operation that replaces the elements of y *)
Lemma walk2_map : forall U n x incx y incy op (f : N -> N -> N) M X Y, 0 <= n ->
  (forall g M, U n g M = for_up 0 n g M) ->
  has_vec M x n incx X -> has_vec M y n incy Y -> incy <> 0 ->
  (forall i j, 0 <= i < j -> j < n -> elt y n incy i <> elt x n incx j) ->
  (forall ix iy M v w, M (x + ix) = Some v -> M (y + iy) = Some w -> op ix iy M = store M (y + iy) (f v w)) ->
  exists M', walk2 U n incx incy op M = Some M' /\ has_vec M' y n incy (fun i => f (X i) (Y i)) /\
    only_vec M M' y n incy.
Proof.
  intros U n x incx y incy op f M X Y Hn HU HX HY Hi Hap Hop.
  rewrite (walk2_spec U n incx incy op M Hn HU).
  destruct (map_up 0 n (elt y n incy) (fun i => f (X i) (Y i))
              (fun j => op (start0 n incx + j * incx) (start0 n incy + j * incy)) M Hn) as [M' [E [H1 H2]]].
  - intros i j _ _ Eij. exact (elt_inj y n incy i j Hi Eij).
  - intros j M1 Hj Hsame.
    assert (Ex : M1 (elt x n incx j) = Some (X j)).
    { rewrite Hsame; [apply HX; exact Hj|]. intros i Hij. apply not_eq_sym. apply Hap; lia. }
    assert (Ey : M1 (elt y n incy j) = Some (Y j)).
    { rewrite Hsame; [apply HY; exact Hj|]. intros i Hij Eij. apply (elt_inj y n incy j i Hi) in Eij. lia. }
    rewrite elt_affine in Ex. rewrite elt_affine in Ey |- *.
    rewrite (Hop _ _ M1 _ _ Ex Ey).
    exact (store_ok M1 _ _ _ Ey).
  - exists M'. split; [exact E|]. split; [exact H1|exact H2].
Qed.

(** ** COPY *)
Lemma copy_spec : forall n x incx y incy M X Y,
  has_vec M x n incx X -> has_vec M y n incy Y -> incy <> 0 ->
  (forall i j, 0 <= i < j -> j < n -> elt y n incy i <> elt x n incx j) ->
  exists M', copy n x incx y incy M = Some M' /\ has_vec M' y n incy X /\ only_vec M M' y n incy.
Proof.
  intros n x incx y incy M X Y HX HY Hi Hap. unfold copy.
  destruct (Z.leb_spec n 0) as [Hn|Hn]; cbn [orb].
  { exists M. split; [reflexivity|]. split; [intros i Hir; lia|intros p _; reflexivity]. }
  destruct (Z.eqb_spec incx incy) as [->|]; destruct (Z.eqb_spec x y) as [->|]; cbn [andb];
    try (apply (walk2_map unroll_8a n x _ y incy _ (fun v _ => v) M X Y ltac:(lia)
                  ltac:(intros; apply unroll_8a_spec; lia) HX HY Hi Hap); intros ix iy M1 v w Ev Ew;
         rewrite Ev; reflexivity).
  - exists M. split; [reflexivity|]. split; [exact HX|intros p _; reflexivity].
  - apply (walk2_map unroll_8a n y _ y incy _ (fun v _ => v) M X Y ltac:(lia)
                  ltac:(intros; apply unroll_8a_spec; lia) HX HY Hi Hap). intros ix iy M1 v w Ev Ew.
    rewrite Ev; reflexivity.
Qed.

(** ** AXPY *)

Lemma axpy_spec : forall n a x incx y incy M X Y,
  has_vec M x n incx X -> has_vec M y n incy Y -> incy <> 0 ->
  (forall i j, 0 <= i < j -> j < n -> elt y n incy i <> elt x n incx j) ->
  exists M', axpy n a x incx y incy M = Some M' /\
    has_vec M' y n incy (fun i => axpy_elt a (X i) (Y i)) /\ only_vec M M' y n incy.
Proof.
  intros n a x incx y incy M X Y HX HY Hi Hap. unfold axpy, axpy_elt, ZERO, ONE.
  destruct (Z.leb_spec n 0) as [Hn|Hn]; cbn [orb].
  { exists M. split; [reflexivity|]. split; [intros i Hir; lia|intros p _; reflexivity]. }
  destruct (a =? nZ 0)%num.
  { exists M. split; [reflexivity|]. split; [exact HY|intros p _; reflexivity]. }
  destruct (a =? nZ 1)%num; [|destruct (a =? nZ (-1))%num].
  - apply (walk2_map unroll_4a n x incx y incy _ (fun v w => (w + v)%num) M X Y ltac:(lia)
             ltac:(intros; apply unroll_4a_spec; lia) HX HY Hi Hap).
    intros ix iy M1 v w Ev Ew. rewrite Ev. unfold add_cell. rewrite Ew. reflexivity.
  - apply (walk2_map unroll_4a n x incx y incy _ (fun v w => (w - v)%num) M X Y ltac:(lia)
             ltac:(intros; apply unroll_4a_spec; lia) HX HY Hi Hap).
    intros ix iy M1 v w Ev Ew. rewrite Ev. unfold sub_cell. rewrite Ew. reflexivity.
  - apply (walk2_map unroll_4a n x incx y incy _ (fun v w => (w + a * v)%num) M X Y ltac:(lia)
             ltac:(intros; apply unroll_4a_spec; lia) HX HY Hi Hap).
    intros ix iy M1 v w Ev Ew. rewrite Ev. unfold add_cell. rewrite Ew. reflexivity.
Qed.

(** ** SCAL and ZERO *)

Lemma one_map : forall n x incx (cell : Z -> mem -> option mem) (f : N -> N) M X, 0 <= n -> 1 <= incx ->
  has_vec M x n incx X ->
  (forall p M v, M p = Some v -> cell p M = store M p (f v)) ->
  exists M', for_up 0 n (fun t => cell (x + t * incx)) M = Some M' /\ has_vec M' x n incx (fun i => f (X i)) /\
    only_vec M M' x n incx.
Proof.
  intros n x incx cell f M X Hn Hi HX Hc.
  destruct (map_up 0 n (elt x n incx) (fun i => f (X i)) (fun t => cell (x + t * incx)) M Hn) as [M' [E [H1 H2]]].
  - intros i j _ _ Eij. apply (elt_inj x n incx i j); [lia|exact Eij].
  - intros j M1 Hj Hsame.
    assert (Ex : M1 (elt x n incx j) = Some (X j)).
    { rewrite Hsame; [apply HX; exact Hj|]. intros i Hij Eij. apply (elt_inj x n incx j i) in Eij; lia. }
    rewrite elt_pos in * by lia. rewrite (Hc _ M1 _ Ex). exact (store_ok M1 _ _ _ Ex).
  - exists M'. auto.
Qed.

(** the two forms of the loop (unit increment, unrolled, and other increments) are the same *)
Lemma one_loop : forall n x incx (cell : Z -> mem -> option mem) M, 0 <= n ->
  (incx = 1 -> unroll_8a n (fun i => cell (x + i)) M = for_up 0 n (fun t => cell (x + t * incx)) M) /\
  (1 <= incx -> for_step 0 (n * incx) incx (fun i => cell (x + i)) M = for_up 0 n (fun t => cell (x + t * incx)) M).
Proof.
  intros n x incx cell M Hn. split.
  - intros ->. rewrite unroll_8a_spec by lia. apply for_up_ext. intros. f_equal. lia.
  - intros Hi. rewrite for_stride by lia. reflexivity.
Qed.

Lemma scal_spec : forall n a x incx M X, 1 <= incx ->
  has_vec M x n incx X ->
  exists M', scal n a x incx M = Some M' /\ has_vec M' x n incx (fun i => scal_elt a (X i)) /\ only_vec M M' x n incx.
Proof.
  intros n a x incx M X Hi HX. unfold scal, scal_elt, ZERO, ONE.
  destruct (Z.leb_spec n 0) as [Hn|Hn]; cbn [orb].
  { exists M. split; [reflexivity|]. split; [intros i Hir; lia|intros p _; reflexivity]. }
  destruct (a =? nZ 1)%num.
  { exists M. split; [reflexivity|]. split; [exact HX|intros p _; reflexivity]. }
  assert (G : forall cell (f : N -> N), (forall p M v, M p = Some v -> cell p M = store M p (f v)) ->
    exists M', (if incx =? 1 then unroll_8a n (fun i => cell (x + i)) M
                else if 0 <? incx then for_step 0 (n * incx) incx (fun i => cell (x + i)) M else Some M) = Some M' /\
      has_vec M' x n incx (fun i => f (X i)) /\ only_vec M M' x n incx).
  { intros cell f Hc. destruct (one_loop n x incx cell M ltac:(lia)) as [L1 L2].
    destruct (Z.eqb_spec incx 1) as [E1|E1].
    - rewrite (L1 E1). apply one_map; auto; lia.
    - destruct (Z.ltb_spec 0 incx); [|lia]. rewrite (L2 Hi). apply one_map; auto; lia. }
  destruct (a =? nZ 0)%num; [|destruct (a =? nZ (-1))%num].
  - destruct (G zero_cell (fun _ => nZ 0)) as [M' G1]; [reflexivity|].
    exists M'. destruct (incx =? 1), (0 <? incx); exact G1.
  - destruct (G neg_cell nopp) as [M' G1]; [intros p M1 v Ev; unfold neg_cell; rewrite Ev; reflexivity|].
    exists M'. destruct (incx =? 1), (0 <? incx); exact G1.
  - destruct (G (fun p => mul_cell p a) (fun v => (v * a)%num)) as [M' G1];
      [intros p M1 v Ev; unfold mul_cell; rewrite Ev; reflexivity|].
    exists M'. destruct (incx =? 1), (0 <? incx); exact G1.
Qed.

(** nothing is done with a non positive increment *)
Lemma scal_nothing : forall n a x incx M, incx <= 0 -> scal n a x incx M = Some M.
Proof.
  intros n a x incx M Hi. unfold scal. destruct (_ || _); [reflexivity|].
  destruct (Z.eqb_spec incx 1); [lia|]. destruct (Z.ltb_spec 0 incx); [lia|reflexivity].
Qed.

Lemma zero_spec : forall n x incx M X, 1 <= incx ->
  has_vec M x n incx X ->
  exists M', zero n x incx M = Some M' /\ has_vec M' x n incx (fun _ => nZ 0) /\ only_vec M M' x n incx.
Proof.
  intros n x incx M X Hi HX. unfold zero.
  destruct (Z.leb_spec 1 n) as [Hn|Hn].
  2: { exists M. split; [reflexivity|]. split; [intros i Hir; lia|intros p _; reflexivity]. }
  destruct (one_loop n x incx zero_cell M ltac:(lia)) as [L1 L2].
  destruct (Z.eqb_spec incx 1) as [E1|E1].
  - destruct (one_map n x incx zero_cell (fun _ => nZ 0) M X) as [M' [E H1]]; try (reflexivity || lia || assumption).
    exists M'. split; [exact (eq_trans (L1 E1) E)|exact H1].
  - destruct (Z.ltb_spec 1 incx); [|lia].
    destruct (one_map n x incx zero_cell (fun _ => nZ 0) M X) as [M' [E H1]]; try (reflexivity || lia || assumption).
    exists M'. split; [exact (eq_trans (L2 Hi) E)|exact H1].
Qed.

(** ** SWAP *)

Lemma swap_walk : forall n x incx y incy M, 0 < n -> x <> y ->
  swap n x incx y incy M = for_up 0 n (fun j => swap_cells (elt x n incx j) (elt y n incy j)) M.
Proof.
  intros n x incx y incy M Hn Hxy. unfold swap.
  destruct (Z.leb_spec n 0); [lia|]. destruct (Z.eqb_spec x y); [contradiction|]. cbn [orb].
  destruct (Z.eqb_spec incx incy) as [->|].
  - destruct (Z.eqb_spec incy 1) as [->|].
    + rewrite unroll_4a_spec by lia. apply for_up_ext. intros. rewrite !elt_1. reflexivity.
    + rewrite (for_up_run 0 n _ (fun j ix M => swap_cells (x + ix) (y + ix) M) (fun j => start0 n incy + j * incy))
        with (e := incy); [|reflexivity|intros; lia].
      apply for_up_ext. intros. rewrite !elt_affine. reflexivity.
  - destruct (Z.eqb_spec incx 1) as [->|]; [|destruct (Z.eqb_spec incy 1) as [->|]].
    + rewrite (for_up_run 0 n _ (fun j ix M => swap_cells (x + j) (y + ix) M) (fun j => start0 n incy + j * incy))
        with (e := incy); [|reflexivity|intros; lia].
      apply for_up_ext. intros. rewrite elt_1, elt_affine. reflexivity.
    + rewrite (for_up_run 0 n _ (fun j ix M => swap_cells (x + ix) (y + j) M) (fun j => start0 n incx + j * incx))
        with (e := incx); [|reflexivity|intros; lia].
      apply for_up_ext. intros. rewrite elt_1, elt_affine. reflexivity.
    + rewrite (for_up_run2 n _ (fun ix iy => swap_cells (x + ix) (y + iy)) M (start0 n incx) incx (start0 n incy) incy)
        by reflexivity.
      apply for_up_ext. intros. rewrite !elt_affine. reflexivity.
Qed.

Lemma swap_cells_ok : forall M p q v w, M p = Some v -> M q = Some w -> p <> q ->
  exists M', swap_cells p q M = Some M' /\ M' p = Some w /\ M' q = Some v /\ forall r, r <> p -> r <> q -> M' r = M r.
Proof.
  intros M p q v w Hp Hq Hne. unfold swap_cells. rewrite Hp, Hq.
  destruct (store_ok M p v w Hp) as [M1 [E1 [A1 B1]]]. rewrite E1.
  destruct (store_ok M1 q w v) as [M2 [E2 [A2 B2]]]. { rewrite B1; auto. }
  rewrite E2. exists M2. split; [reflexivity|]. split; [rewrite B2 by exact Hne; exact A1|].
  split; [exact A2|]. intros r Hr Hr'. rewrite B2, B1; auto.
Qed.

(** both vectors contain their own pointer *)
Lemma elt_pointer : forall x n inc, 0 < n -> exists i, 0 <= i < n /\ elt x n inc i = x.
Proof.
  intros x n inc Hn. unfold elt. destruct (Z.ltb_spec inc 0).
  - exists (n - 1). split; [lia|]. replace (n - 1 - (n - 1)) with 0 by lia. lia.
  - exists 0. lia.
Qed.

Lemma swap_spec : forall n x incx y incy M X Y,
  has_vec M x n incx X -> has_vec M y n incy Y -> incx <> 0 -> incy <> 0 ->
  vec_apart x n incx y n incy ->
  exists M', swap n x incx y incy M = Some M' /\ has_vec M' x n incx Y /\ has_vec M' y n incy X /\
    (forall p, (forall i, 0 <= i < n -> p <> elt x n incx i /\ p <> elt y n incy i) -> M' p = M p).
Proof.
  intros n x incx y incy M X Y HX HY Hix Hiy Hap.
  destruct (Z_le_gt_dec n 0) as [Hn|Hn].
  { exists M. unfold swap. destruct (Z.leb_spec n 0); [|lia]. cbn [orb].
    split; [reflexivity|]. split; [intros i Hir; lia|]. split; [intros i Hir; lia|reflexivity]. }
  assert (Hxy : x <> y).
  { intros ->. destruct (elt_pointer y n incx ltac:(lia)) as [i [Hi Ei]].
    destruct (elt_pointer y n incy ltac:(lia)) as [j [Hj Ej]]. apply (Hap i j Hi Hj). congruence. }
  rewrite swap_walk by lia.
  destruct (for_up_inv (fun j M' =>
      (forall i, 0 <= i < j -> M' (elt x n incx i) = Some (Y i) /\ M' (elt y n incy i) = Some (X i)) /\
      (forall p, (forall i, 0 <= i < j -> p <> elt x n incx i /\ p <> elt y n incy i) -> M' p = M p))
      0 n (fun j => swap_cells (elt x n incx j) (elt y n incy j)) M ltac:(lia)) as [M' [E [H1 H2]]].
  - split; [intros; lia|reflexivity].
  - intros j M1 Hj [H1 H2].
    destruct (swap_cells_ok M1 (elt x n incx j) (elt y n incy j) (X j) (Y j)) as [M2 [E2 [A2 [B2 C2]]]].
    + rewrite H2; [apply HX; exact Hj|]. intros i Hi. split.
      * intros Eij. apply (elt_inj x n incx j i Hix) in Eij. lia.
      * apply Hap; lia.
    + rewrite H2; [apply HY; exact Hj|]. intros i Hi. split.
      * apply not_eq_sym, Hap; lia.
      * intros Eij. apply (elt_inj y n incy j i Hiy) in Eij. lia.
    + apply Hap; lia.
    + exists M2. split; [exact E2|]. split.
      * intros i Hi. destruct (Z.eq_dec i j) as [->|Hne]; [auto|].
        rewrite !C2; [apply H1; lia| | | |].
        -- apply not_eq_sym, Hap; lia.
        -- intros Eij. apply (elt_inj y n incy i j Hiy) in Eij. lia.
        -- intros Eij. apply (elt_inj x n incx i j Hix) in Eij. lia.
        -- apply Hap; lia.
      * intros p Hp. rewrite C2 by (apply Hp; lia). apply H2. intros i Hi. apply Hp. lia.
  - exists M'. split; [exact E|]. split; [intros i Hi; apply H1; exact Hi|].
    split; [intros i Hi; apply H1; exact Hi|exact H2].
Qed.

(** ** IAMAX *)
Lemma iamax_spec : forall (O : OrdLaws N) n x incx M X, 1 <= n -> 1 <= incx ->
  has_vec M x n incx X ->
  (forall i, 0 <= i < n -> neq (nabs (X i)) (nabs (X i)) = true) ->
  exists k, iamax n x incx M = Some (k + 1) /\ 0 <= k < n /\
    (forall i, 0 <= i < n -> nle (nabs (X i)) (nabs (X k)) = true) /\
    (forall i, 0 <= i < k -> nlt (nabs (X i)) (nabs (X k)) = true).
Proof.
  intros O n x incx M X Hn Hi HX Hnum.
  assert (Hord : forall i, 0 <= i < n -> nle (nabs (X i)) (nabs (X i)) = true).
  { intros i Hir. apply (nle_refl O). apply Hnum. exact Hir. }
  unfold iamax.
  destruct (Z.ltb_spec n 1); [lia|]. destruct (Z.ltb_spec incx 1); [lia|]. cbn [orb].
  destruct (Z.eqb_spec n 1) as [->|Hn1].
  { exists 0. split; [reflexivity|]. split; [lia|]. split.
    - intros i Hir. replace i with 0 by lia. apply Hord. lia.
    - intros; lia. }
  assert (E0 : M x = Some (X 0)).
  { specialize (HX 0 ltac:(lia)). rewrite elt_pos in HX by lia. rewrite <- HX. f_equal. lia. }
  rewrite E0.
  set (P := fun (j : Z) (s : N * Z) => let '(amax, k) := s in
              amax = nabs (X k) /\ 0 <= k < j /\
              (forall i, 0 <= i < j -> nle (nabs (X i)) (nabs (X k)) = true) /\
              (forall i, 0 <= i < k -> nlt (nabs (X i)) (nabs (X k)) = true)).
  assert (P1 : P 1 (nabs (X 0), 0)).
  { split; [reflexivity|]. split; [lia|]. split; [|intros; lia]. intros i Hir. replace i with 0 by lia. apply Hord. lia. }
  assert (Step : forall j amax k, 1 <= j < n -> P j (amax, k) ->
            P (j + 1) (if (amax <? nabs (X j))%num then (nabs (X j), j) else (amax, k))).
  { intros j amax k Hj [E [Hk [H1 H2]]]. subst amax.
    destruct (nabs (X k) <? nabs (X j))%num eqn:C.
    - split; [reflexivity|]. split; [lia|]. split.
      + intros i Hir. destruct (Z.eq_dec i j) as [->|]; [apply Hord; lia|].
        apply (nlt_nle O). exact (nle_lt_trans O _ _ _ (H1 i ltac:(lia)) C).
      + intros i Hir. exact (nle_lt_trans O _ _ _ (H1 i ltac:(lia)) C).
    - split; [reflexivity|]. split; [lia|]. split; [|exact H2].
      intros i Hir. destruct (Z.eq_dec i j) as [->|]; [|apply H1; lia].
      exact (not_lt_le O _ _ (Hnum k ltac:(lia)) (Hnum j ltac:(lia)) C). }
  destruct (Z.eqb_spec incx 1) as [->|Hne].
  - destruct (for_up_inv P 1 n (fun i '(amax, imax) =>
                        do v <- M (x + i)%Z;
                        let t := nabs v in
                        if (amax <? t)%num then Some (t, i) else Some (amax, imax)) (nabs (X 0), 0) ltac:(lia) P1)
      as [[am k] [E [_ [Hk [H1 H2]]]]].
    + intros j [amax k] Hj Pj. specialize (HX j ltac:(lia)) as Ex. rewrite elt_1 in Ex. rewrite Ex. cbv zeta.
      specialize (Step j amax k Hj Pj). destruct (amax <? nabs (X j))%num; eexists; (split; [reflexivity|exact Step]).
    + exists k. split; [exact (f_equal (fun o => do (_, imax) <- o; Some (imax + 1)) E)|auto].
  - destruct (for_up_inv (fun j (s : N * Z * Z) => P j (fst s) /\ snd s = j * incx) 1 n (fun i '(amax, imax, ix) =>
                           do v <- M (x + ix)%Z;
                           let t := nabs v in
                           if (amax <? t)%num then Some (t, i, (ix + incx)%Z)
                           else Some (amax, imax, (ix + incx)%Z)) (nabs (X 0), 0, incx) ltac:(lia))
      as [[[am k] ix] [E [[_ [Hk [H1 H2]]] _]]].
    + split; [exact P1|]. cbn [snd]. lia.
    + intros j [[amax k] ix] Hj [Pj Eix]. cbn [fst snd] in *. subst ix.
      specialize (HX j ltac:(lia)) as Ex. rewrite elt_pos in Ex by lia. rewrite Ex. cbv zeta.
      specialize (Step j amax k Hj Pj).
      destruct (amax <? nabs (X j))%num; eexists; (split; [reflexivity|]); (split; [exact Step|cbn [snd]; lia]).
    + exists k. split; [exact (f_equal (fun o => do (_, imax, _) <- o; Some (imax + 1)) E)|auto].
Qed.

Lemma iamax_empty : forall n x incx M, n < 1 \/ incx < 1 -> iamax n x incx M = Some 0.
Proof.
  intros n x incx M H. unfold iamax.
  destruct (Z.ltb_spec n 1); [reflexivity|]. destruct (Z.ltb_spec incx 1); [reflexivity|lia].
Qed.

End Any.
