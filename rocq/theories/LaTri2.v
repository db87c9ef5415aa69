(** * Proofs about OPK_TRMV and OPK_TRSV of linalg.c *)
From Coq Require Import ZArith Reals List Bool Lia Lra.
From Flocq Require Import Core.
From Verif Require Import Base Num NumFacts OrdFacts LaModel LaLoops LaSpec LaMem LaBlas1 LaBlas1R LaBlas2 LaBlas3 LaTri.
Local Open Scope Z_scope.

(** ** The branches for a general increment are the branches for a unit increment with other addresses *)
Section Canon.
Context {N : Num}.
Notation mem := (Z -> option N).

Lemma drop_ix : forall {S T : Type} (o : option (S * Z)) (K : S -> option T),
  (do (s, _) <- o; K s) = (do s <- (do (s, _) <- o; Some s); K s).
Proof. intros S T [[s i]|] K; reflexivity. Qed.

Lemma bind_cong : forall {S T : Type} (o : option S) (K1 K2 : S -> option T), (forall s, K1 s = K2 s) ->
  (do s <- o; K1 s) = (do s <- o; K2 s).
Proof. intros S T [s|] K1 K2 E; [apply E|reflexivity]. Qed.

Section Routine.
Variables (nounit : bool) (n : Z) (a : Z -> Z -> Z) (x : Z -> Z) (incx kx : Z).

Lemma trmv_nu_canon : forall M, (incx =? 1) = false ->
  trmv_nu (N := N) nounit n a x incx kx M
  = for_up 0 n (mulN_body nounit a (fun j => x (kx + j * incx)) (fun j => for_up 0 j)) M.
Proof.
  intros M E. unfold trmv_nu. rewrite E.
  rewrite (for_up_run 0 n _ (fun j jx M =>
      do xj <- M (x jx);
      if negb (xj =? ZERO)%num then
        do (M, _) <- for_up 0 j (fun i '(M, ix) =>
          do v <- M (a i j); do M <- add_cell (x ix) (xj * v)%num M; Some (M, (ix + incx)%Z)) (M, kx);
        if nounit then do v <- M (a j j); mul_cell (x jx) v M else Some M
      else Some M) (fun j => kx + j * incx) M kx incx).
  - apply for_up_ext. intros j M1 Hj. unfold mulN_body. destruct (M1 (x (kx + j * incx))) as [xj|]; [|reflexivity].
    cbv zeta. destruct (negb (xj =? ZERO)%num); [|reflexivity]. rewrite drop_ix.
    rewrite (for_up_run 0 j _ (fun i ix M => do v <- M (a i j); add_cell (x ix) (xj * v)%num M) (fun i => kx + i * incx) M1 kx incx).
    + reflexivity.
    + intros i M2 ix. destruct (M2 (a i j)); [|reflexivity]. reflexivity.
    + intros i Hi. lia.
  - intros j M1 jx. destruct (M1 (x jx)); reflexivity.
  - intros j Hj. lia.
Qed.

Lemma trmv_nl_canon : forall M, (incx =? 1) = false ->
  trmv_nl (N := N) nounit n a x incx kx M
  = for_down (n - 1) 0 (mulN_body nounit a (fun j => x (kx + j * incx)) (fun j => for_down (n - 1) (j + 1))) M.
Proof.
  intros M E. unfold trmv_nl. rewrite E. cbv zeta. set (k1 := kx + (n - 1) * incx).
  rewrite (for_down_run (n - 1) 0 _ (fun j jx M =>
      do xj <- M (x jx);
      if negb (xj =? ZERO)%num then
        do (M, _) <- for_down (n - 1) (j + 1) (fun i '(M, ix) =>
          do v <- M (a i j); do M <- add_cell (x ix) (xj * v)%num M; Some (M, (ix - incx)%Z)) (M, k1);
        if nounit then do v <- M (a j j); mul_cell (x jx) v M else Some M
      else Some M) (fun j => kx + j * incx) M k1 (- incx)).
  - apply for_down_ext. intros j M1 Hj. unfold mulN_body. destruct (M1 (x (kx + j * incx))) as [xj|]; [|reflexivity].
    cbv zeta. destruct (negb (xj =? ZERO)%num); [|reflexivity]. rewrite drop_ix.
    rewrite (for_down_run (n - 1) (j + 1) _ (fun i ix M => do v <- M (a i j); add_cell (x ix) (xj * v)%num M)
               (fun i => kx + i * incx) M1 k1 (- incx)).
    + reflexivity.
    + intros i M2 ix. destruct (M2 (a i j)); [|reflexivity]. reflexivity.
    + intros i Hi. unfold k1. lia.
  - intros j M1 jx. destruct (M1 (x jx)); reflexivity.
  - intros j Hj. unfold k1. lia.
Qed.

Lemma trmv_tu_canon : forall M, (incx =? 1) = false ->
  trmv_tu (N := N) nounit n a x incx kx M
  = for_down (n - 1) 0 (mulT_body nounit a (fun j => x (kx + j * incx)) (fun j => for_down (j - 1) 0)) M.
Proof.
  intros M E. unfold trmv_tu. rewrite E. set (k1 := kx + (n - 1) * incx).
  rewrite (for_down_run (n - 1) 0 _ (fun j jx M =>
      do temp <- M (x jx);
      do temp <- (if nounit then do v <- M (a j j); Some (temp * v)%num else Some temp);
      do (temp, _) <- for_down (j - 1) 0 (fun i '(temp, ix) =>
                   let ix := (ix - incx)%Z in
                   do v <- M (a i j); do w <- M (x ix); Some ((temp + v * w)%num, ix)) (temp, jx);
      store M (x jx) temp) (fun j => kx + j * incx) M k1 (- incx)).
  - apply for_down_ext. intros j M1 Hj. unfold mulT_body. destruct (M1 (x (kx + j * incx))) as [t0|]; [|reflexivity].
    destruct (if nounit then do v <- M1 (a j j); Some (t0 * v)%num else Some t0) as [t1|]; [|reflexivity].
    rewrite drop_ix. cbv zeta.
    rewrite (for_down_run (j - 1) 0 _ (fun i ix t => do v <- M1 (a i j); do w <- M1 (x (ix - incx)); Some (t + v * w)%num)
               (fun i => kx + (i + 1) * incx) t1 (kx + j * incx) (- incx)).
    + rewrite (for_down_ext (j - 1) 0 _ (fun i t => do v <- M1 (a i j); do w <- M1 (x (kx + i * incx)); Some (t + v * w)%num)).
      * reflexivity.
      * intros i t Hi. replace (kx + (i + 1) * incx - incx) with (kx + i * incx) by lia. reflexivity.
    + intros i t ix. destruct (M1 (a i j)); [|reflexivity]. destruct (M1 (x (ix - incx))); reflexivity.
    + intros i Hi. lia.
  - intros j M1 jx. destruct (M1 (x jx)) as [t0|]; [|reflexivity].
    destruct (if nounit then do v <- M1 (a j j); Some (t0 * v)%num else Some t0) as [t1|]; [|reflexivity].
    destruct (for_down (j - 1) 0 _ (t1, jx)) as [[t2 i2]|]; reflexivity.
  - intros j Hj. unfold k1. lia.
Qed.

Lemma trmv_tl_canon : forall M, (incx =? 1) = false ->
  trmv_tl (N := N) nounit n a x incx kx M
  = for_up 0 n (mulT_body nounit a (fun j => x (kx + j * incx)) (fun j => for_up (j + 1) n)) M.
Proof.
  intros M E. unfold trmv_tl. rewrite E.
  rewrite (for_up_run 0 n _ (fun j jx M =>
      do temp <- M (x jx);
      do temp <- (if nounit then do v <- M (a j j); Some (temp * v)%num else Some temp);
      do (temp, _) <- for_up (j + 1) n (fun i '(temp, ix) =>
                   let ix := (ix + incx)%Z in
                   do v <- M (a i j); do w <- M (x ix); Some ((temp + v * w)%num, ix)) (temp, jx);
      store M (x jx) temp) (fun j => kx + j * incx) M kx incx).
  - apply for_up_ext. intros j M1 Hj. unfold mulT_body. destruct (M1 (x (kx + j * incx))) as [t0|]; [|reflexivity].
    destruct (if nounit then do v <- M1 (a j j); Some (t0 * v)%num else Some t0) as [t1|]; [|reflexivity].
    rewrite drop_ix. cbv zeta.
    rewrite (for_up_run (j + 1) n _ (fun i ix t => do v <- M1 (a i j); do w <- M1 (x (ix + incx)); Some (t + v * w)%num)
               (fun i => kx + (i - 1) * incx) t1 (kx + j * incx) incx).
    + rewrite (for_up_ext (j + 1) n _ (fun i t => do v <- M1 (a i j); do w <- M1 (x (kx + i * incx)); Some (t + v * w)%num)).
      * reflexivity.
      * intros i t Hi. replace (kx + (i - 1) * incx + incx) with (kx + i * incx) by lia. reflexivity.
    + intros i t ix. destruct (M1 (a i j)); [|reflexivity]. destruct (M1 (x (ix + incx))); reflexivity.
    + intros i Hi. lia.
  - intros j M1 jx. destruct (M1 (x jx)) as [t0|]; [|reflexivity].
    destruct (if nounit then do v <- M1 (a j j); Some (t0 * v)%num else Some t0) as [t1|]; [|reflexivity].
    destruct (for_up (j + 1) n _ (t1, jx)) as [[t2 i2]|]; reflexivity.
  - intros j Hj. lia.
Qed.

Lemma trsv_nu_canon : forall M, (incx =? 1) = false ->
  trsv_nu (N := N) nounit n a x incx kx M
  = for_down n 1 (solN_body nounit a (fun j => x (kx + (j - 1) * incx)) (fun j => for_down (j - 1) 1)) M.
Proof.
  intros M E. unfold trsv_nu. rewrite E. set (k1 := kx + (n - 1) * incx).
  rewrite (for_down_run n 1 _ (fun j jx M =>
      do xj <- M (x jx);
      if negb (xj =? ZERO)%num then
        do M <- (if nounit then do v <- M (a j j); store M (x jx) (xj / v)%num else Some M);
        do temp <- M (x jx);
        do (M, _) <- for_down (j - 1) 1 (fun i '(M, ix) =>
          let ix := (ix - incx)%Z in
          do v <- M (a i j); do M <- sub_cell (x ix) (temp * v)%num M; Some (M, ix)) (M, jx);
        Some M
      else Some M) (fun j => kx + (j - 1) * incx) M k1 (- incx)).
  - apply for_down_ext. intros j M1 Hj. unfold solN_body.
    destruct (M1 (x (kx + (j - 1) * incx))) as [xj|]; [|reflexivity].
    destruct (negb (xj =? ZERO)%num); [|reflexivity].
    apply bind_cong. intros M2. apply bind_cong. intros t. cbv zeta.
    rewrite (for_down_run (j - 1) 1 _ (fun i ix M => do v <- M (a i j); sub_cell (x (ix - incx)) (t * v)%num M)
               (fun i => kx + i * incx) M2 (kx + (j - 1) * incx) (- incx)).
    + apply for_down_ext. intros i M3 Hi. replace (kx + i * incx - incx) with (kx + (i - 1) * incx) by lia. reflexivity.
    + intros i M3 ix. destruct (M3 (a i j)) as [v|]; [|reflexivity]. reflexivity.
    + intros i Hi. lia.
  - intros j M1 jx. destruct (M1 (x jx)); reflexivity.
  - intros j Hj. unfold k1. lia.
Qed.

Lemma trsv_nl_canon : forall M, (incx =? 1) = false ->
  trsv_nl (N := N) nounit n a x incx kx M
  = for_up 1 (n + 1) (solN_body nounit a (fun j => x (kx + (j - 1) * incx)) (fun j => for_up (j + 1) (n + 1))) M.
Proof.
  intros M E. unfold trsv_nl. rewrite E.
  rewrite (for_up_run 1 (n + 1) _ (fun j jx M =>
      do xj <- M (x jx);
      if negb (xj =? ZERO)%num then
        do M <- (if nounit then do v <- M (a j j); store M (x jx) (xj / v)%num else Some M);
        do temp <- M (x jx);
        do (M, _) <- for_up (j + 1) (n + 1) (fun i '(M, ix) =>
          let ix := (ix + incx)%Z in
          do v <- M (a i j); do M <- sub_cell (x ix) (temp * v)%num M; Some (M, ix)) (M, jx);
        Some M
      else Some M) (fun j => kx + (j - 1) * incx) M kx incx).
  - apply for_up_ext. intros j M1 Hj. unfold solN_body.
    destruct (M1 (x (kx + (j - 1) * incx))) as [xj|]; [|reflexivity].
    destruct (negb (xj =? ZERO)%num); [|reflexivity].
    apply bind_cong. intros M2. apply bind_cong. intros t. cbv zeta.
    rewrite (for_up_run (j + 1) (n + 1) _ (fun i ix M => do v <- M (a i j); sub_cell (x (ix + incx)) (t * v)%num M)
               (fun i => kx + (i - 2) * incx) M2 (kx + (j - 1) * incx) incx).
    + apply for_up_ext. intros i M3 Hi. replace (kx + (i - 2) * incx + incx) with (kx + (i - 1) * incx) by lia. reflexivity.
    + intros i M3 ix. destruct (M3 (a i j)) as [v|]; [|reflexivity]. reflexivity.
    + intros i Hi. lia.
  - intros j M1 jx. destruct (M1 (x jx)); reflexivity.
  - intros j Hj. lia.
Qed.

Lemma trsv_tu_canon : forall M, (incx =? 1) = false ->
  trsv_tu (N := N) nounit n a x incx kx M
  = for_up 1 (n + 1) (solT_body nounit a (fun j => x (kx + (j - 1) * incx)) (fun j => for_up 1 j)) M.
Proof.
  intros M E. unfold trsv_tu. rewrite E.
  rewrite (for_up_run 1 (n + 1) _ (fun j jx M =>
      do temp <- M (x jx);
      do (temp, _) <- for_up 1 j (fun i '(temp, ix) =>
                   do v <- M (a i j); do w <- M (x ix); Some ((temp - v * w)%num, (ix + incx)%Z)) (temp, kx);
      do temp <- (if nounit then do v <- M (a j j); Some (temp / v)%num else Some temp);
      store M (x jx) temp) (fun j => kx + (j - 1) * incx) M kx incx).
  - apply for_up_ext. intros j M1 Hj. unfold solT_body. destruct (M1 (x (kx + (j - 1) * incx))) as [t0|]; [|reflexivity].
    rewrite drop_ix.
    rewrite (for_up_run 1 j _ (fun i ix t => do v <- M1 (a i j); do w <- M1 (x ix); Some (t - v * w)%num)
               (fun i => kx + (i - 1) * incx) t0 kx incx).
    + reflexivity.
    + intros i t ix. destruct (M1 (a i j)); [|reflexivity]. destruct (M1 (x ix)); reflexivity.
    + intros i Hi. lia.
  - intros j M1 jx. destruct (M1 (x jx)) as [t0|]; [|reflexivity].
    destruct (for_up 1 j _ (t0, kx)) as [[t2 i2]|]; [|reflexivity].
    destruct (if nounit then do v <- M1 (a j j); Some (t2 / v)%num else Some t2) as [t1|]; reflexivity.
  - intros j Hj. lia.
Qed.

Lemma trsv_tl_canon : forall M, (incx =? 1) = false ->
  trsv_tl (N := N) nounit n a x incx kx M
  = for_down n 1 (solT_body nounit a (fun j => x (kx + (j - 1) * incx)) (fun j => for_down n (j + 1))) M.
Proof.
  intros M E. unfold trsv_tl. rewrite E. cbv zeta. set (k1 := kx + (n - 1) * incx).
  rewrite (for_down_run n 1 _ (fun j jx M =>
      do temp <- M (x jx);
      do (temp, _) <- for_down n (j + 1) (fun i '(temp, ix) =>
                   do v <- M (a i j); do w <- M (x ix); Some ((temp - v * w)%num, (ix - incx)%Z)) (temp, k1);
      do temp <- (if nounit then do v <- M (a j j); Some (temp / v)%num else Some temp);
      store M (x jx) temp) (fun j => kx + (j - 1) * incx) M k1 (- incx)).
  - apply for_down_ext. intros j M1 Hj. unfold solT_body. destruct (M1 (x (kx + (j - 1) * incx))) as [t0|]; [|reflexivity].
    rewrite drop_ix.
    rewrite (for_down_run n (j + 1) _ (fun i ix t => do v <- M1 (a i j); do w <- M1 (x ix); Some (t - v * w)%num)
               (fun i => kx + (i - 1) * incx) t0 k1 (- incx)).
    + reflexivity.
    + intros i t ix. destruct (M1 (a i j)); [|reflexivity]. destruct (M1 (x ix)); reflexivity.
    + intros i Hi. unfold k1. lia.
  - intros j M1 jx. destruct (M1 (x jx)) as [t0|]; [|reflexivity].
    destruct (for_down n (j + 1) _ (t0, k1)) as [[t2 i2]|]; [|reflexivity].
    destruct (if nounit then do v <- M1 (a j j); Some (t2 / v)%num else Some t2) as [t1|]; reflexivity.
  - intros j Hj. unfold k1. lia.
Qed.

End Routine.
End Canon.

(** ** Specifications *)
Lemma sumz_shift : forall lo hi d (f : Z -> R), sumz (lo + d) (hi + d) f = sumz lo hi (fun l => f (l + d)).
Proof.
  intros lo hi d f. unfold sumz. replace (hi + d - (lo + d)) with (hi - lo) by lia.
  generalize (Z.to_nat (hi - lo)). intros k. revert lo. induction k as [|k IH]; intros lo; [reflexivity|].
  cbn [sum_nat]. replace (lo + d + 1) with (lo + 1 + d) by lia. rewrite IH. reflexivity.
Qed.

Lemma uplo_spec : forall u up, uplo_arg u up -> (u =? UPPER) = up /\ negb ((u =? UPPER) || (u =? LOWER)) = false.
Proof. intros u up E. red in E. subst u. destruct up; split; reflexivity. Qed.

Lemma diag_spec : forall d unit, diag_arg d unit ->
  (d =? NON_UNIT) = negb unit /\ negb ((d =? NON_UNIT) || (d =? UNIT)) = false.
Proof. intros d unit E. red in E. subst d. destruct unit; split; reflexivity. Qed.

Section Exact.
Variables H I : R.
Notation NR := (NumR H I).
Notation mem := (Z -> option NR).

Lemma tri_tri_mat : forall up unit A i j, tri up (dg (negb unit) A) A i j = tri_mat up unit A i j.
Proof.
  intros up unit A i j. unfold tri, tri_mat, dg, strict. destruct (Z.eqb_spec i j) as [->|Hn]; [|reflexivity].
  destruct unit; reflexivity.
Qed.

Lemma trmv_spec : forall uplo trans diag (up tr unit : bool) n a lda x incx (A : Z -> Z -> R) (X : Z -> R) (M : mem),
  uplo_arg uplo up -> transp trans tr -> diag_arg diag unit -> 0 <= n -> 1 <= lda -> n <= lda -> incx <> 0 ->
  has_tri (N := NR) M a lda n up unit A -> has_vec (N := NR) M x n incx X -> vec_mat_apart x n incx a lda n n ->
  exists M', trmv (N := NR) uplo trans diag n a lda x incx M = Some (0, M') /\
    has_vec (N := NR) M' x n incx (fun i => sumz 0 n (fun l => op tr (tri_mat up unit A) i l * X l)%R) /\
    only_vec M M' x n incx.
Proof.
  intros uplo trans diag up tr unit n a lda x incx A X M Hu Ht Hd Hn Hl Hl' Hinc HA HX Hap.
  apply uplo_spec in Hu. destruct Hu as [U1 U2]. apply transp_spec in Ht. destruct Ht as [T1 T2].
  apply diag_spec in Hd. destruct Hd as [D1 D2].
  unfold trmv. rewrite U2, T2, D2. rewrite U1, T1, D1. clear U1 U2 T1 T2 D1 D2 uplo trans diag.
  destruct (Z.ltb_spec n 0); [lia|]. destruct (Z.ltb_spec lda n); [lia|]. destruct (Z.ltb_spec lda 1); [lia|]. cbn [orb].
  destruct (Z.eqb_spec incx 0); [contradiction|].
  destruct (Z.eqb_spec n 0) as [Hn0|Hn0].
  { exists M. split; [reflexivity|]. split; [intros i Hi; lia|intros q _; reflexivity]. }
  cbv zeta. set (aa := fun a1 a2 => a + (a2 * lda + a1)).
  assert (Eaa : forall i j, aa i j = entry a lda i j) by (intros; unfold aa, entry; lia).
  (* whatever the addresses of the elements of x *)
  assert (G : forall ax : Z -> Z, (forall i, 0 <= i < n -> ax i = elt x n incx i) -> forall (o : option mem),
     achieves H I 0 n ax M o (if tr then prodT 0 n up (negb unit) A X else prodN 0 n up (negb unit) A X) ->
     exists M', (do M <- o; Some (0, M)) = Some (0, M') /\
       has_vec (N := NR) M' x n incx (fun i => sumz 0 n (fun l => op tr (tri_mat up unit A) i l * X l)%R) /\
       only_vec M M' x n incx).
  { intros ax Hax o [M' [X' [E [V [F P]]]]]. exists M'. rewrite E. split; [reflexivity|]. split.
    - intros i Hi. rewrite <- (Hax i Hi). rewrite (V i Hi). refine (f_equal (@Some R) _). destruct tr.
      + rewrite (P i Hi). apply sumz_ext. intros l Hl''. rewrite tri_tri_mat. reflexivity.
      + rewrite (P i Hi). apply sumz_ext. intros l Hl''. rewrite tri_tri_mat. reflexivity.
    - intros q Hq. apply F. intros i Hi. rewrite (Hax i Hi). apply Hq. exact Hi. }
  assert (K : forall ax : Z -> Z, (forall i, 0 <= i < n -> ax i = elt x n incx i) ->
     achieves H I 0 n ax M
       (if negb tr then
          if up then for_up 0 n (mulN_body (negb unit) aa ax (fun j => for_up 0 j)) M
          else for_down (n - 1) 0 (mulN_body (negb unit) aa ax (fun j => for_down (n - 1) (j + 1))) M
        else
          if up then for_down (n - 1) 0 (mulT_body (negb unit) aa ax (fun j => for_down (j - 1) 0)) M
          else for_up 0 n (mulT_body (negb unit) aa ax (fun j => for_up (j + 1) n)) M)
       (if tr then prodT 0 n up (negb unit) A X else prodN 0 n up (negb unit) A X)).
  { intros ax Hax.
    assert (S1 : forall i j, 0 <= i < n -> 0 <= j < n -> ax i = ax j -> i = j).
    { intros i j Hi Hj E. rewrite !Hax in E by assumption. apply elt_inj in E; assumption. }
    assert (S2 : forall k i j, 0 <= k < n -> 0 <= i < n -> 0 <= j < n -> ax k <> aa i j).
    { intros k i j Hk Hi Hj. rewrite Hax by assumption. rewrite Eaa. apply Hap; assumption. }
    assert (S3 : forall i j, 0 <= i < n -> 0 <= j < n -> strict up i j = true -> M (aa i j) = Some (A i j)).
    { intros i j Hi Hj Hs. rewrite Eaa. unfold strict in Hs. apply HA; [exact Hi|exact Hj| |].
      - destruct up; apply Z.ltb_lt in Hs; lia.
      - intros _. destruct up; apply Z.ltb_lt in Hs; lia. }
    assert (S4 : negb unit = true -> forall j, 0 <= j < n -> M (aa j j) = Some (A j j)).
    { intros Hun j Hj. rewrite Eaa. apply HA; [exact Hj|exact Hj|destruct up; lia|]. intros E. rewrite E in Hun. discriminate. }
    assert (S5 : vals H I 0 n ax M X).
    { intros i Hi. rewrite Hax by exact Hi. apply HX. exact Hi. }
    destruct tr, up; cbn [negb].
    - apply (mulT_down H I 0 n true); try assumption; try reflexivity; try lia.
      intros j Hj. unfold tlo, thi. apply accs_down; lia.
    - apply (mulT_up H I 0 n false); try assumption; try reflexivity; try lia.
      intros j Hj. unfold tlo, thi. apply accs_up; lia.
    - apply (mulN_up H I 0 n true); try assumption; try reflexivity; try lia.
      intros j Hj. unfold tlo, thi. apply maps_up; lia.
    - apply (mulN_down H I 0 n false); try assumption; try reflexivity; try lia.
      intros j Hj. unfold tlo, thi. apply maps_down; lia. }
  destruct (incx =? 1) eqn:Ei.
  - assert (Hx1 : forall i, 0 <= i < n -> x + i = elt x n incx i).
    { intros i Hi. apply Z.eqb_eq in Ei. subst incx. rewrite elt_1. lia. }
    assert (Q := G (fun i => x + i) Hx1 _ (K (fun i => x + i) Hx1)).
    destruct tr, up; cbn [negb] in *; unfold trmv_nu, trmv_nl, trmv_tu, trmv_tl; rewrite Ei; exact Q.
  - assert (Hx1 : forall i, 0 <= i < n -> x + (start0 n incx + i * incx) = elt x n incx i).
    { intros i Hi. symmetry. apply elt_affine. }
    assert (Q := G (fun i => x + (start0 n incx + i * incx)) Hx1 _ (K (fun i => x + (start0 n incx + i * incx)) Hx1)).
    destruct tr, up; cbn [negb] in *;
      [rewrite trmv_tu_canon by exact Ei|rewrite trmv_tl_canon by exact Ei
      |rewrite trmv_nu_canon by exact Ei|rewrite trmv_nl_canon by exact Ei]; exact Q.
Qed.

Lemma trsv_spec : forall uplo trans diag (up tr unit : bool) n a lda x incx (A : Z -> Z -> R) (B : Z -> R) (M : mem),
  uplo_arg uplo up -> transp trans tr -> diag_arg diag unit -> 0 <= n -> 1 <= lda -> n <= lda -> incx <> 0 ->
  has_tri (N := NR) M a lda n up unit A -> has_vec (N := NR) M x n incx B -> vec_mat_apart x n incx a lda n n ->
  (unit = true \/ forall i, 0 <= i < n -> A i i <> 0%R) ->
  exists M' X, trsv (N := NR) uplo trans diag n a lda x incx M = Some (0, M') /\
    has_vec (N := NR) M' x n incx X /\ only_vec M M' x n incx /\
    (forall i, 0 <= i < n -> sumz 0 n (fun l => op tr (tri_mat up unit A) i l * X l)%R = B i).
Proof.
  intros uplo trans diag up tr unit n a lda x incx A B M Hu Ht Hd Hn Hl Hl' Hinc HA HB Hap HD.
  apply uplo_spec in Hu. destruct Hu as [U1 U2]. apply transp_spec in Ht. destruct Ht as [T1 T2].
  apply diag_spec in Hd. destruct Hd as [D1 D2].
  unfold trsv. rewrite U2, T2, D2. rewrite U1, T1, D1. clear U1 U2 T1 T2 D1 D2 uplo trans diag.
  destruct (Z.ltb_spec n 0); [lia|]. destruct (Z.ltb_spec lda (Z.max 1 n)); [lia|].
  destruct (Z.eqb_spec incx 0); [contradiction|].
  destruct (Z.eqb_spec n 0) as [Hn0|Hn0].
  { exists M, B. split; [reflexivity|]. split; [exact HB|]. split; [intros q _; reflexivity|intros i Hi; lia]. }
  cbv zeta. set (aa := fun a1 a2 => a + (a1 - 1 + lda * (a2 - 1))).
  assert (Eaa : forall i j, aa i j = entry a lda (i - 1) (j - 1)) by (intros; reflexivity).
  set (A' := fun i j => A (i - 1) (j - 1)). set (B' := fun i => B (i - 1)).
  assert (G : forall ax : Z -> Z, (forall i, 1 <= i < n + 1 -> ax i = elt x n incx (i - 1)) -> forall (o : option mem),
     achieves H I 1 (n + 1) ax M o (if tr then systT 1 (n + 1) up (negb unit) A' B' else systN 1 (n + 1) up (negb unit) A' B') ->
     exists M' X, (do M <- o; Some (0, M)) = Some (0, M') /\
       has_vec (N := NR) M' x n incx X /\ only_vec M M' x n incx /\
       (forall i, 0 <= i < n -> sumz 0 n (fun l => op tr (tri_mat up unit A) i l * X l)%R = B i)).
  { intros ax Hax o [M' [X' [E [V [F P]]]]]. exists M', (fun i => X' (i + 1)). rewrite E. split; [reflexivity|]. split; [|split].
    - intros i Hi. replace i with (i + 1 - 1) at 1 by lia. rewrite <- (Hax (i + 1)) by lia. apply V. lia.
    - intros q Hq. apply F. intros i Hi. rewrite (Hax i Hi). apply Hq. lia.
    - intros i Hi. assert (Hi1 : 1 <= i + 1 < n + 1) by lia.
      assert (Tm : forall p q, tri up (dg (negb unit) A') A' (p + 1) (q + 1) = tri_mat up unit A p q).
      { intros p q. rewrite tri_tri_mat. unfold tri_mat, A'. replace (p + 1 - 1) with p by lia. replace (q + 1 - 1) with q by lia.
        destruct (Z.eqb_spec (p + 1) (q + 1)), (Z.eqb_spec p q); try lia; [reflexivity|].
        destruct up; [destruct (Z.ltb_spec (p + 1) (q + 1)), (Z.ltb_spec p q)
                     |destruct (Z.ltb_spec (q + 1) (p + 1)), (Z.ltb_spec q p)]; lia || reflexivity. }
      transitivity (B' (i + 1)); [|unfold B'; f_equal; lia].
      destruct tr.
      + rewrite (P (i + 1) Hi1). rewrite (sumz_shift 0 n 1). apply sumz_ext. intros l Hl''. rewrite Tm. reflexivity.
      + rewrite (P (i + 1) Hi1). rewrite (sumz_shift 0 n 1). apply sumz_ext. intros l Hl''. rewrite Tm. reflexivity. }
  assert (K : forall ax : Z -> Z, (forall i, 1 <= i < n + 1 -> ax i = elt x n incx (i - 1)) ->
     achieves H I 1 (n + 1) ax M
       (if negb tr then
          if up then for_down n 1 (solN_body (negb unit) aa ax (fun j => for_down (j - 1) 1)) M
          else for_up 1 (n + 1) (solN_body (negb unit) aa ax (fun j => for_up (j + 1) (n + 1))) M
        else
          if up then for_up 1 (n + 1) (solT_body (negb unit) aa ax (fun j => for_up 1 j)) M
          else for_down n 1 (solT_body (negb unit) aa ax (fun j => for_down n (j + 1))) M)
       (if tr then systT 1 (n + 1) up (negb unit) A' B' else systN 1 (n + 1) up (negb unit) A' B')).
  { intros ax Hax.
    assert (S1 : forall i j, 1 <= i < n + 1 -> 1 <= j < n + 1 -> ax i = ax j -> i = j).
    { intros i j Hi Hj E. rewrite !Hax in E by assumption. apply elt_inj in E; lia. }
    assert (S2 : forall k i j, 1 <= k < n + 1 -> 1 <= i < n + 1 -> 1 <= j < n + 1 -> ax k <> aa i j).
    { intros k i j Hk Hi Hj. rewrite Hax by assumption. rewrite Eaa. apply Hap; lia. }
    assert (S3 : forall i j, 1 <= i < n + 1 -> 1 <= j < n + 1 -> strict up i j = true -> M (aa i j) = Some (A' i j)).
    { intros i j Hi Hj Hs. rewrite Eaa. unfold strict in Hs. apply HA; [lia|lia| |].
      - destruct up; apply Z.ltb_lt in Hs; lia.
      - intros _. destruct up; apply Z.ltb_lt in Hs; lia. }
    assert (S4 : negb unit = true -> forall j, 1 <= j < n + 1 -> M (aa j j) = Some (A' j j)).
    { intros Hun j Hj. rewrite Eaa. apply HA; [lia|lia|destruct up; lia|]. intros E. rewrite E in Hun. discriminate. }
    assert (S5 : vals H I 1 (n + 1) ax M B').
    { intros i Hi. rewrite Hax by exact Hi. apply HB. lia. }
    assert (S6 : forall j, 1 <= j < n + 1 -> dg (negb unit) A' j <> 0%R).
    { intros j Hj. unfold dg. destruct HD as [->|HD]; cbn [negb]; [exact R1_neq_R0|].
      destruct unit; cbn [negb]; [exact R1_neq_R0|]. apply HD. lia. }
    destruct tr, up; cbn [negb].
    - apply (solT_up H I 1 (n + 1) true); try assumption; try reflexivity; try lia.
      intros j Hj. unfold tlo, thi. apply accs_up; lia.
    - apply (solT_down H I 1 (n + 1) false); try assumption; try reflexivity; try lia.
      intros j Hj. unfold tlo, thi. apply accs_down; lia.
    - apply (solN_down H I 1 (n + 1) true); try assumption; try reflexivity; try lia.
      intros j Hj. unfold tlo, thi. apply maps_down; lia.
    - apply (solN_up H I 1 (n + 1) false); try assumption; try reflexivity; try lia.
      intros j Hj. unfold tlo, thi. apply maps_up; lia. }
  destruct (incx =? 1) eqn:Ei.
  - assert (Hx1 : forall i, 1 <= i < n + 1 -> x + (i - 1) = elt x n incx (i - 1)).
    { intros i Hi. apply Z.eqb_eq in Ei. subst incx. rewrite elt_1. lia. }
    assert (Q := G (fun i => x + (i - 1)) Hx1 _ (K (fun i => x + (i - 1)) Hx1)).
    destruct tr, up; cbn [negb] in *; unfold trsv_nu, trsv_nl, trsv_tu, trsv_tl; rewrite Ei; exact Q.
  - set (kx := if incx >=? 0 then 1 else 1 + (1 - n) * incx).
    assert (Hx1 : forall i, 1 <= i < n + 1 -> x + (kx + (i - 1) * incx - 1) = elt x n incx (i - 1)).
    { intros i Hi. unfold kx, elt. destruct (Z.ltb_spec incx 0), (Z.geb_spec incx 0); lia. }
    assert (Q := G (fun i => x + (kx + (i - 1) * incx - 1)) Hx1 _ (K (fun i => x + (kx + (i - 1) * incx - 1)) Hx1)).
    destruct tr, up; cbn [negb] in *;
      [rewrite trsv_tu_canon by exact Ei|rewrite trsv_tl_canon by exact Ei
      |rewrite trsv_nu_canon by exact Ei|rewrite trsv_nl_canon by exact Ei]; exact Q.
Qed.

End Exact.

(** ** A triangular system with a non-zero diagonal has a single solution *)
Lemma upper_unique : forall n (T : Z -> Z -> R) (X Y : Z -> R), 0 <= n ->
  (forall i l, 0 <= i < n -> 0 <= l < n -> l < i -> T i l = 0%R) -> (forall i, 0 <= i < n -> T i i <> 0%R) ->
  (forall i, 0 <= i < n -> sumz 0 n (fun l => T i l * X l)%R = sumz 0 n (fun l => T i l * Y l)%R) ->
  forall i, 0 <= i < n -> X i = Y i.
Proof.
  intros n T X Y Hn Hz Hd He.
  assert (G : forall k : nat, forall i, 0 <= i < n -> n - 1 - i < Z.of_nat k -> X i = Y i).
  { induction k as [|k IH]; intros i Hi Hk; [lia|].
    assert (E := He i Hi). rewrite !(sumz_split 0 i n) in E by lia. rewrite !(sumz_left i n) in E by lia.
    rewrite !(sumz_zero 0 i) in E by (intros l Hl; rewrite Hz by lia; ring).
    rewrite (sumz_ext (i + 1) n _ (fun l => T i l * Y l)%R) in E by (intros l Hl; rewrite (IH l) by lia; reflexivity).
    apply Rmult_eq_reg_l with (T i i); [lra|apply Hd; exact Hi]. }
  intros i Hi. apply (G (Z.to_nat n) i Hi). lia.
Qed.

Lemma lower_unique : forall n (T : Z -> Z -> R) (X Y : Z -> R), 0 <= n ->
  (forall i l, 0 <= i < n -> 0 <= l < n -> i < l -> T i l = 0%R) -> (forall i, 0 <= i < n -> T i i <> 0%R) ->
  (forall i, 0 <= i < n -> sumz 0 n (fun l => T i l * X l)%R = sumz 0 n (fun l => T i l * Y l)%R) ->
  forall i, 0 <= i < n -> X i = Y i.
Proof.
  intros n T X Y Hn Hz Hd He.
  assert (G : forall k : nat, forall i, 0 <= i < n -> i < Z.of_nat k -> X i = Y i).
  { induction k as [|k IH]; intros i Hi Hk; [lia|].
    assert (E := He i Hi). rewrite !(sumz_split 0 i n) in E by lia. rewrite !(sumz_left i n) in E by lia.
    rewrite !(sumz_zero (i + 1) n) in E by (intros l Hl; rewrite Hz by lia; ring).
    rewrite (sumz_ext 0 i _ (fun l => T i l * Y l)%R) in E by (intros l Hl; rewrite (IH l) by lia; reflexivity).
    apply Rmult_eq_reg_l with (T i i); [lra|apply Hd; exact Hi]. }
  intros i Hi. apply (G (Z.to_nat n) i Hi). lia.
Qed.

Lemma tri_unique : forall n up unit tr (A : Z -> Z -> R) (X Y : Z -> R), 0 <= n ->
  (unit = true \/ forall i, 0 <= i < n -> A i i <> 0%R) ->
  (forall i, 0 <= i < n -> sumz 0 n (fun l => op tr (tri_mat up unit A) i l * X l)%R
                         = sumz 0 n (fun l => op tr (tri_mat up unit A) i l * Y l)%R) ->
  forall i, 0 <= i < n -> X i = Y i.
Proof.
  intros n up unit tr A X Y Hn HD He.
  assert (Hd : forall i, 0 <= i < n -> op tr (tri_mat up unit A) i i <> 0%R).
  { intros i Hi. assert (E : op tr (tri_mat up unit A) i i = if unit then 1%R else A i i).
    { unfold op, tri_mat. destruct tr; rewrite Z.eqb_refl; reflexivity. }
    rewrite E. destruct unit; [exact R1_neq_R0|]. destruct HD as [HD|HD]; [discriminate|apply HD; exact Hi]. }
  assert (Hz : forall i l, i <> l -> (if (if tr then negb up else up) then l < i else i < l) ->
            op tr (tri_mat up unit A) i l = 0%R).
  { intros i l Hn' Hil. unfold op, tri_mat. destruct tr, up; cbn [negb] in Hil.
    all: repeat match goal with |- context [?p =? ?q] => destruct (Z.eqb_spec p q); [lia|] end.
    all: match goal with |- context [?p <? ?q] => destruct (Z.ltb_spec p q); [lia|reflexivity] end. }
  destruct (if tr then negb up else up) eqn:E.
  - apply (upper_unique n (op tr (tri_mat up unit A))); try assumption. intros i l _ _ Hl. apply Hz; lia.
  - apply (lower_unique n (op tr (tri_mat up unit A))); try assumption. intros i l _ _ Hl. apply Hz; lia.
Qed.
