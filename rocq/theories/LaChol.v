(** * Proofs about OPK_POTF2 of linalg.c: the Cholesky factorization in exact arithmetic *)
From Coq Require Import ZArith Reals List Bool Lia Lra.
From Flocq Require Import Core.
From Verif Require Import Base Num NumFacts OrdFacts LaModel LaLoops LaSpec LaMem LaBlas1 LaBlas1R LaBlas2 LaBlas3 LaTri LaTri2.
Local Open Scope Z_scope.

(** ** Double sums *)
Lemma sumz_swap : forall a b c d (f : Z -> Z -> R),
  sumz a b (fun i => sumz c d (fun j => f i j)) = sumz c d (fun j => sumz a b (fun i => f i j)).
Proof.
  intros a b c d f. destruct (Z_le_gt_dec b a) as [Hab|Hab].
  { rewrite sumz_empty by lia. symmetry. apply sumz_zero. intros. apply sumz_empty. lia. }
  destruct (Z_le_gt_dec d c) as [Hcd|Hcd].
  { rewrite (sumz_empty c d) by lia. apply sumz_zero. intros. apply sumz_empty. lia. }
  assert (G : forall k : nat, sumz a (a + Z.of_nat k) (fun i => sumz c d (fun j => f i j))
                            = sumz c d (fun j => sumz a (a + Z.of_nat k) (fun i => f i j))).
  { induction k as [|k IH].
    - rewrite sumz_empty by lia. symmetry. apply sumz_zero. intros. apply sumz_empty. lia.
    - replace (a + Z.of_nat (S k)) with (a + Z.of_nat k + 1) by lia. rewrite sumz_right by lia. rewrite IH.
      rewrite <- sumz_plus. apply sumz_ext. intros j Hj. rewrite sumz_right by lia. reflexivity. }
  specialize (G (Z.to_nat (b - a))). replace (a + Z.of_nat (Z.to_nat (b - a))) with b in G by lia. exact G.
Qed.

Lemma sumz_scal_r : forall lo hi (c : R) f, sumz lo hi (fun k => f k * c)%R = (sumz lo hi f * c)%R.
Proof. intros. rewrite Rmult_comm, <- sumz_scal. apply sumz_ext. intros. ring. Qed.

Lemma sumz_sq_pos : forall lo hi (f : Z -> R) k, lo <= k < hi -> f k <> 0%R -> (0 < sumz lo hi (fun l => f l * f l))%R.
Proof.
  intros lo hi f k Hk Hf. rewrite (sumz_split lo k hi) by lia. rewrite (sumz_left k hi) by lia.
  assert (0 <= sumz lo k (fun l => f l * f l))%R by (apply sumz_nonneg; intros; nra).
  assert (0 <= sumz (k + 1) hi (fun l => f l * f l))%R by (apply sumz_nonneg; intros; nra).
  assert (0 < f k * f k)%R by nra. lra.
Qed.

(** ** A triangular system has a solution *)
Lemma upper_exists : forall n (T : Z -> Z -> R), 0 <= n ->
  (forall i l, 0 <= i < n -> 0 <= l < n -> l < i -> T i l = 0%R) -> (forall i, 0 <= i < n -> T i i <> 0%R) ->
  forall B : Z -> R, exists X, forall i, 0 <= i < n -> sumz 0 n (fun l => T i l * X l)%R = B i.
Proof.
  intros n T Hn. pattern n. apply natlike_ind; [|clear n Hn; intros n Hn IH|exact Hn].
  - intros _ _ B. exists B. intros i Hi. lia.
  - intros Hz Hd B. unfold Z.succ in *.
    set (xn := (B n / T n n)%R).
    destruct (IH ltac:(intros; apply Hz; lia) ltac:(intros; apply Hd; lia) (fun i => B i - T i n * xn)%R) as [X HX].
    exists (fun l => if l =? n then xn else X l). intros i Hi. rewrite sumz_right by lia. rewrite Z.eqb_refl.
    rewrite (sumz_ext 0 n _ (fun l => T i l * X l)%R) by (intros l Hl; destruct (Z.eqb_spec l n); [lia|reflexivity]).
    destruct (Z.eq_dec i n) as [->|Hne].
    + rewrite sumz_zero by (intros l Hl; rewrite Hz by lia; ring). unfold xn. field. apply Hd. lia.
    + rewrite HX by lia. ring.
Qed.

(** ** Positive definiteness from the factor *)
Section PD.
Variables (m : Z) (G F : Z -> Z -> R).
(* G is symmetric and G = F'F where F is upper triangular *)
Hypothesis Hm : 0 <= m.
Hypothesis Fup : forall l i, 0 <= l < m -> 0 <= i < m -> i < l -> F l i = 0%R.
Hypothesis Fd : forall l, 0 <= l < m -> F l l <> 0%R.
Hypothesis FF : forall i k, 0 <= i < m -> 0 <= k < m -> sumz 0 m (fun l => F l i * F l k)%R = G i k.

Lemma quad_factor : forall v, sumz 0 m (fun i => sumz 0 m (fun k => v i * G i k * v k))%R
  = sumz 0 m (fun l => sumz 0 m (fun i => F l i * v i) * sumz 0 m (fun i => F l i * v i))%R.
Proof.
  intros v.
  transitivity (sumz 0 m (fun i => sumz 0 m (fun k => sumz 0 m (fun l => (F l i * v i) * (F l k * v k)))))%R.
  { apply sumz_ext. intros i Hi. apply sumz_ext. intros k Hk. rewrite <- (FF i k Hi Hk).
    rewrite <- sumz_scal. rewrite <- sumz_scal_r. apply sumz_ext. intros l Hl. ring. }
  transitivity (sumz 0 m (fun i => sumz 0 m (fun l => sumz 0 m (fun k => (F l i * v i) * (F l k * v k)))))%R.
  { apply sumz_ext. intros i Hi. apply sumz_swap. }
  rewrite sumz_swap. apply sumz_ext. intros l Hl. rewrite <- sumz_scal_r. apply sumz_ext. intros i Hi.
  rewrite <- sumz_scal. apply sumz_ext. intros k Hk. ring.
Qed.

Lemma factor_pos_def : pos_def m G.
Proof.
  intros v [i0 [Hi0 Hv]]. rewrite quad_factor.
  destruct (Rle_lt_dec (sumz 0 m (fun l => sumz 0 m (fun i => F l i * v i) * sumz 0 m (fun i => F l i * v i)))%R 0) as [Hle|Hlt];
    [exfalso|exact Hlt].
  assert (Z0 : forall l, 0 <= l < m -> sumz 0 m (fun i => F l i * v i)%R = 0%R).
  { intros l Hl. destruct (Req_dec (sumz 0 m (fun i => F l i * v i)%R) 0) as [E|E]; [exact E|].
    pose proof (sumz_sq_pos 0 m (fun l => sumz 0 m (fun i => F l i * v i)%R) l Hl E). lra. }
  apply Hv. apply (upper_unique m F v (fun _ => 0%R) Hm Fup Fd); [|exact Hi0].
  intros l Hl. rewrite Z0 by exact Hl. symmetry. apply sumz_zero. intros. ring.
Qed.
End PD.

(** If the next pivot is not positive, the next minor is not positive definite *)
Lemma pivot_not_pos_def : forall j (G F : Z -> Z -> R), 0 <= j ->
  (forall l i, 0 <= l < j -> 0 <= i < l -> F l i = 0%R) -> (forall l, 0 <= l < j -> F l l <> 0%R) ->
  (forall i k, 0 <= i < j -> 0 <= k <= j -> sumz 0 j (fun l => F l i * F l k)%R = G i k) ->
  (forall i k, 0 <= i <= j -> 0 <= k <= j -> G i k = G k i) ->
  (G j j - sumz 0 j (fun l => F l j * F l j) <= 0)%R -> ~ pos_def (j + 1) G.
Proof.
  intros j G F Hj Fup Fd FF Gs Hp PD.
  destruct (upper_exists j F Hj ltac:(intros; apply Fup; lia) Fd (fun l => - F l j)%R) as [X HX].
  set (v := fun i => if i =? j then 1%R else X i).
  assert (Q := PD v). assert (Hne : exists i, 0 <= i < j + 1 /\ v i <> 0%R).
  { exists j. split; [lia|]. unfold v. rewrite Z.eqb_refl. exact R1_neq_R0. }
  specialize (Q Hne). clear PD Hne.
  (* F v = 0 on the first rows *)
  assert (Fv : forall l, 0 <= l < j -> sumz 0 (j + 1) (fun i => F l i * v i)%R = 0%R).
  { intros l Hl. rewrite sumz_right by lia. unfold v at 2. rewrite Z.eqb_refl.
    rewrite (sumz_ext 0 j _ (fun i => F l i * X i)%R)
      by (intros i Hi; unfold v; destruct (Z.eqb_spec i j); [lia|reflexivity]).
    rewrite HX by exact Hl. ring. }
  set (s := sumz 0 j (fun l => F l j * F l j)%R) in *.
  set (G2 := fun i k => sumz 0 j (fun l => F l i * F l k)%R).
  assert (E : sumz 0 (j + 1) (fun i => sumz 0 (j + 1) (fun k => v i * G i k * v k))%R
            = (sumz 0 (j + 1) (fun i => sumz 0 (j + 1) (fun k => v i * G2 i k * v k)) + (G j j - s))%R).
  { transitivity (sumz 0 (j + 1) (fun i => sumz 0 (j + 1) (fun k => v i * G2 i k * v k)
                   + sumz 0 (j + 1) (fun k => if k =? j then (if i =? j then G j j - s else 0) else 0)))%R.
    - apply sumz_ext. intros i Hi. rewrite <- sumz_plus. apply sumz_ext. intros k Hk. unfold G2.
      destruct (Z.eqb_spec k j) as [->|Hk'].
      + destruct (Z.eqb_spec i j) as [->|Hi'].
        * fold s. unfold v. rewrite !Z.eqb_refl. ring.
        * rewrite (FF i j) by lia. ring.
      + destruct (Z.eq_dec i j) as [->|Hi'].
        * rewrite (Gs j k) by lia. rewrite <- (FF k j) by lia.
          rewrite (sumz_ext 0 j (fun l => F l j * F l k)%R (fun l => F l k * F l j)%R) by (intros; ring). ring.
        * rewrite (FF i k) by lia. ring.
    - rewrite sumz_plus. f_equal.
      rewrite (sumz_ext 0 (j + 1) _ (fun i => if i =? j then (G j j - s)%R else 0%R)).
      + apply sumz_delta. lia.
      + intros i Hi. apply sumz_delta. lia. }
  rewrite E in Q.
  assert (E2 : sumz 0 (j + 1) (fun i => sumz 0 (j + 1) (fun k => v i * G2 i k * v k))%R = 0%R).
  { transitivity (sumz 0 j (fun l => sumz 0 (j + 1) (fun i => F l i * v i) * sumz 0 (j + 1) (fun i => F l i * v i)))%R.
    - transitivity (sumz 0 (j + 1) (fun i => sumz 0 (j + 1) (fun k => sumz 0 j (fun l => (F l i * v i) * (F l k * v k)))))%R.
      { apply sumz_ext. intros i Hi. apply sumz_ext. intros k Hk. unfold G2.
        rewrite <- sumz_scal. rewrite <- sumz_scal_r. apply sumz_ext. intros l Hl. ring. }
      transitivity (sumz 0 (j + 1) (fun i => sumz 0 j (fun l => sumz 0 (j + 1) (fun k => (F l i * v i) * (F l k * v k)))))%R.
      { apply sumz_ext. intros i Hi. apply sumz_swap. }
      rewrite sumz_swap. apply sumz_ext. intros l Hl. rewrite <- sumz_scal_r. apply sumz_ext. intros i Hi.
      rewrite <- sumz_scal. apply sumz_ext. intros k Hk. ring.
    - apply sumz_zero. intros l Hl. rewrite Fv by exact Hl. ring. }
  rewrite E2 in Q. lra.
Qed.

(** ** The routine *)
Section Exact.
Variables H I : R.
Notation NR := (NumR H I).
Notation mem := (Z -> option NR).

Section Factor.
Variables (up : bool) (n a lda : Z) (A : Z -> Z -> R) (M0 : mem).
Hypothesis Hn : 0 <= n.
Hypothesis Hl1 : 1 <= lda.
Hypothesis Hl : n <= lda.

(** address and value of the element (k,i), k <= i, of the upper factor *)
Definition uaddr (k i : Z) : Z := if up then entry a lda k i else entry a lda i k.
Definition uval (k i : Z) : R := if up then A k i else A i k.

Lemma uaddr_inj : forall k i k' i', 0 <= k < n -> 0 <= i < n -> 0 <= k' < n -> 0 <= i' < n ->
  uaddr k i = uaddr k' i' -> k = k' /\ i = i'.
Proof. intros k i k' i' Hk Hi Hk' Hi' E. unfold uaddr in E. destruct up; apply entry_inj in E; lia. Qed.

Definition frame_u (M : mem) : Prop :=
  forall q, (forall k i, 0 <= k <= i -> i < n -> q <> uaddr k i) -> M q = M0 q.

(** the first j rows of the factor have been computed *)
Definition chol_inv (j : Z) (M : mem) : Prop := exists F : Z -> Z -> R,
  (forall k i, 0 <= k < j -> k <= i < n -> M (uaddr k i) = Some (F k i)) /\
  (forall k i, j <= k -> k <= i < n -> M (uaddr k i) = Some (uval k i)) /\
  (forall k i, 0 <= k < j -> k <= i < n -> sumz 0 (k + 1) (fun l => F l k * F l i)%R = uval k i) /\
  (forall k, 0 <= k < j -> (0 < F k k)%R) /\
  frame_u M.

(** the pivot j is not positive *)
Definition chol_stop (j : Z) : Prop := exists F : Z -> Z -> R,
  (forall k i, 0 <= k < j -> k <= i < n -> sumz 0 (k + 1) (fun l => F l k * F l i)%R = uval k i) /\
  (forall k, 0 <= k < j -> (0 < F k k)%R) /\
  (uval j j - sumz 0 j (fun l => F l j * F l j) <= 0)%R.

(** one row: the pivot, then the other elements *)
Definition row_body (dotv : mem -> option NR) (row : NR -> mem -> option mem) (j : Z) (M : mem) : option (mem * option Z) :=
  do v <- M (uaddr j j);
  do d <- dotv M;
  let ajj := (v - d)%num in
  if (ajj <=? ZERO)%num then do M <- store M (uaddr j j) ajj; Some (M, Some (j + 1))
  else
    let ajj := nsqrt ajj in
    do M <- store M (uaddr j j) ajj;
    do M <- row ajj M;
    Some (M, None).

Lemma row_body_ok : forall j (M : mem) (dotv : mem -> option NR) (row : NR -> mem -> option mem), 0 <= j < n -> chol_inv j M ->
  (forall F : Z -> Z -> R, (forall k i, 0 <= k < j -> k <= i < n -> M (uaddr k i) = Some (F k i)) ->
     dotv M = Some (sumz 0 j (fun l => F l j * F l j)%R)) ->
  (forall (r : R) (M1 : mem) (F : Z -> Z -> R), r <> 0%R -> (forall k i, 0 <= k < j -> k <= i < n -> M1 (uaddr k i) = Some (F k i)) ->
     (forall i, j < i < n -> M1 (uaddr j i) = Some (uval j i)) ->
     exists M2, row r M1 = Some M2 /\
       (forall i, j < i < n -> M2 (uaddr j i) = Some ((uval j i - sumz 0 j (fun l => F l j * F l i)) / r)%R) /\
       (forall q, (forall i, j < i < n -> q <> uaddr j i) -> M2 q = M1 q)) ->
  exists M' ret, row_body dotv row j M = Some (M', ret) /\
    match ret with
    | None => chol_inv (j + 1) M'
    | Some r => r = j + 1 /\ chol_stop j /\ frame_u M'
    end.
Proof.
  intros j M dotv row Hj [F [I1 [I2 [I3 [I4 I5]]]]] Hd Hr.
  unfold row_body. rewrite (I2 j j) by lia. rewrite (Hd F I1). unfold ZERO. nrg. cbv zeta.
  set (d := (uval j j - sumz 0 j (fun l => F l j * F l j))%R).
  assert (Ej : M (uaddr j j) = Some (uval j j)) by (apply I2; lia).
  destruct (Rle_bool_spec d 0) as [Hle|Hlt].
  - destruct (store_ok (N := NR) M (uaddr j j) _ d Ej) as [M1 [E1 [A1 B1]]]. rewrite E1.
    exists M1, (Some (j + 1)). split; [reflexivity|]. split; [reflexivity|]. split.
    + exists F. split; [exact I3|]. split; [exact I4|exact Hle].
    + intros q Hq. rewrite B1 by (apply Hq; lia). apply I5. exact Hq.
  - destruct (store_ok (N := NR) M (uaddr j j) _ (sqrt d) Ej) as [M1 [E1 [A1 B1]]]. rewrite E1.
    assert (Hs : (0 < sqrt d)%R) by (apply sqrt_lt_R0; exact Hlt).
    destruct (Hr (sqrt d) M1 F ltac:(lra)) as [M2 [E2 [A2 B2]]].
    + intros k i Hk Hi. rewrite B1; [apply I1; assumption|]. intro E. apply uaddr_inj in E; lia.
    + intros i Hi. rewrite B1; [apply I2; lia|]. intro E. apply uaddr_inj in E; lia.
    + rewrite E2. exists M2, None. split; [reflexivity|].
      set (Fj := fun i => if i =? j then sqrt d else ((uval j i - sumz 0 j (fun l => F l j * F l i)) / sqrt d)%R).
      exists (fun k i => if k =? j then Fj i else F k i).
      split; [|split; [|split; [|split]]].
      * intros k i Hk Hi. destruct (Z.eqb_spec k j) as [->|Hkj].
        -- unfold Fj. destruct (Z.eqb_spec i j) as [->|Hij].
           ++ rewrite B2; [exact A1|]. intros i Hi' E. apply uaddr_inj in E; lia.
           ++ apply A2. lia.
        -- rewrite B2; [rewrite B1; [apply I1; lia|]|].
           ++ intro E. apply uaddr_inj in E; lia.
           ++ intros i' Hi' E. apply uaddr_inj in E; lia.
      * intros k i Hk Hi. rewrite B2; [rewrite B1; [apply I2; lia|]|].
        -- intro E. apply uaddr_inj in E; lia.
        -- intros i' Hi' E. apply uaddr_inj in E; lia.
      * intros k i Hk Hi. destruct (Z.eq_dec k j) as [->|Hkj].
        -- rewrite sumz_right by lia. rewrite Z.eqb_refl.
           rewrite (sumz_ext 0 j _ (fun l => F l j * F l i)%R)
             by (intros l Hl'; destruct (Z.eqb_spec l j); [lia|reflexivity]).
           unfold Fj. rewrite Z.eqb_refl. destruct (Z.eqb_spec i j) as [->|Hij].
           ++ rewrite sqrt_sqrt by lra. unfold d. ring.
           ++ field. lra.
        -- rewrite <- (I3 k i) by lia. apply sumz_ext. intros l Hl'.
           destruct (Z.eqb_spec l j); [lia|reflexivity].
      * intros k Hk. destruct (Z.eqb_spec k j) as [->|Hkj]; [|apply I4; lia].
        unfold Fj. rewrite Z.eqb_refl. exact Hs.
      * intros q Hq. rewrite B2 by (intros i Hi; apply Hq; lia). rewrite B1 by (apply Hq; lia). apply I5. exact Hq.
Qed.

(** the loop with its early return *)
Lemma chol_loop : forall body, chol_inv 0 M0 ->
  (forall j M, 0 <= j < n -> chol_inv j M -> exists M' ret, body (j + 1) M = Some (M', ret) /\
     match ret with
     | None => chol_inv (j + 1) M'
     | Some r => r = j + 1 /\ chol_stop j /\ frame_u M'
     end) ->
  exists r M', (do (M, ret) <- for_up 1 (n + 1) (fun j '(M, ret) =>
                  match ret with Some r => Some (M, Some r) | None => body j M end) (M0, None);
                Some (match ret with Some r => r | None => 0 end, M)) = Some (r, M') /\
    (r = 0 /\ chol_inv n M' \/ 1 <= r <= n /\ chol_stop (r - 1) /\ frame_u M').
Proof.
  intros body H0 Hb.
  destruct (for_up_inv (fun j (s : mem * option Z) =>
     match snd s with
     | None => chol_inv (j - 1) (fst s)
     | Some r => 1 <= r < j /\ chol_stop (r - 1) /\ frame_u (fst s)
     end) 1 (n + 1) (fun j '(M, ret) => match ret with Some r => Some (M, Some r) | None => body j M end) (M0, None))
    as [[M' ret] [E P]].
  - lia.
  - exact H0.
  - intros j [M [r|]] Hj P; cbn [fst snd] in P.
    + exists (M, Some r). split; [reflexivity|]. cbn [fst snd]. split; [lia|tauto].
    + destruct (Hb (j - 1) M ltac:(lia) P) as [M1 [r1 [E1 P1]]]. replace (j - 1 + 1) with j in * by lia.
      exists (M1, r1). split; [exact E1|]. cbn [fst snd]. destruct r1 as [r1|].
      * destruct P1 as [-> [S1 F1]]. split; [lia|]. split; assumption.
      * replace (j + 1 - 1) with j by lia. exact P1.
  - rewrite E. cbn [fst snd] in P. destruct ret as [r|].
    + exists r, M'. split; [reflexivity|]. right. split; [lia|]. tauto.
    + exists 0, M'. split; [reflexivity|]. left. split; [reflexivity|]. replace (n + 1 - 1) with n in P by lia. exact P.
Qed.

End Factor.

(** The row of the factor: upper triangle *)
Lemma row_upper : forall n a lda A j (r : R) (M1 : mem) (F : Z -> Z -> R), 1 <= lda -> n <= lda -> 0 <= j < n -> r <> 0%R ->
  (forall k i, 0 <= k < j -> k <= i < n -> M1 (uaddr true a lda k i) = Some (F k i)) ->
  (forall i, j < i < n -> M1 (uaddr true a lda j i) = Some (uval true A j i)) ->
  exists M2, (if j + 1 <? n then
                do (_, M) <- gemv (N := NR) TRANS j (n - (j + 1)) (nopp ONE) (entry a lda 0 (j + 1)) lda (entry a lda 0 j) 1
                               ONE (entry a lda j (j + 1)) lda M1;
                scal (N := NR) (n - (j + 1)) (ndiv (n := NR) (nZ 1) r) (entry a lda j (j + 1)) lda M
              else Some M1) = Some M2 /\
    (forall i, j < i < n -> M2 (uaddr true a lda j i) = Some ((uval true A j i - sumz 0 j (fun l => F l j * F l i)) / r)%R) /\
    (forall q, (forall i, j < i < n -> q <> uaddr true a lda j i) -> M2 q = M1 q).
Proof.
  intros n a lda A j r M1 F Hl1 Hl Hj Hr HF HA.
  destruct (Z.ltb_spec (j + 1) n) as [Hlt|Hge].
  2:{ exists M1. split; [reflexivity|]. split; [intros; lia|reflexivity]. }
  assert (Ey : forall c, elt (entry a lda j (j + 1)) (n - (j + 1)) lda c = uaddr true a lda j (j + 1 + c)).
  { intros c. unfold elt, uaddr, entry. destruct (Z.ltb_spec lda 0); lia. }
  assert (Ex : forall c, elt (entry a lda 0 j) j 1 c = uaddr true a lda c j).
  { intros c. rewrite elt_1. unfold uaddr, entry. lia. }
  assert (Em : forall k c, entry (entry a lda 0 (j + 1)) lda k c = uaddr true a lda k (j + 1 + c)).
  { intros k c. unfold uaddr, entry. lia. }
  destruct (gemv_t_spec H I TRANS j (n - (j + 1)) (-1)%R (entry a lda 0 (j + 1)) lda (entry a lda 0 j) 1 1%R
              (entry a lda j (j + 1)) lda (fun k c => F k (j + 1 + c)) (fun k => F k j)
              (fun c => uval true A j (j + 1 + c)) M1) as [M2 [E2 [A2 B2]]].
  - left; reflexivity.
  - lia.
  - lia.
  - lia.
  - lia.
  - lia.
  - lia.
  - right; reflexivity.
  - intros k c Hk Hc. rewrite Em. apply HF; lia.
  - intros k Hk. rewrite Ex. apply HF; lia.
  - intros c Hc. rewrite Ey. apply HA; lia.
  - intros c k c' Hc Hk Hc' E. rewrite Ey, Em in E. unfold uaddr in E. apply entry_inj in E; lia.
  - intros c k Hc Hk E. rewrite Ey, Ex in E. unfold uaddr in E. apply entry_inj in E; lia.
  - assert (En : nopp (n := NR) ONE = (-1)%R) by (unfold ONE; nrg; rring).
    rewrite En. unfold ONE. cbn [nZ NumR]. rewrite E2.
    destruct (scal_spec (N := NR) (n - (j + 1)) (1 / r)%R (entry a lda j (j + 1)) lda M2 _ Hl1 A2) as [M3 [E3 [A3 B3]]].
    exists M3. split; [exact E3|]. split.
    + intros i Hi. replace i with (j + 1 + (i - (j + 1))) at 1 by lia. rewrite <- Ey.
      rewrite A3 by lia. refine (f_equal (@Some R) _). rewrite scal_elt_exact.
      replace (j + 1 + (i - (j + 1))) with i by lia.
      rewrite (sumz_ext 0 j (fun i0 => F i0 i * F i0 j)%R (fun l => F l j * F l i)%R) by (intros; ring).
      field. exact Hr.
    + intros q Hq. rewrite B3; [apply B2|]; intros c Hc; rewrite Ey; apply Hq; lia.
Qed.

Lemma row_lower : forall n a lda A j (r : R) (M1 : mem) (F : Z -> Z -> R), 1 <= lda -> n <= lda -> 0 <= j < n -> r <> 0%R ->
  (forall k i, 0 <= k < j -> k <= i < n -> M1 (uaddr false a lda k i) = Some (F k i)) ->
  (forall i, j < i < n -> M1 (uaddr false a lda j i) = Some (uval false A j i)) ->
  exists M2, (if j + 1 <? n then
                do (_, M) <- gemv (N := NR) NO_TRANS (n - (j + 1)) j (nopp ONE) (entry a lda (j + 1) 0) lda (entry a lda j 0) lda
                               ONE (entry a lda (j + 1) j) 1 M1;
                scal (N := NR) (n - (j + 1)) (ndiv (n := NR) (nZ 1) r) (entry a lda (j + 1) j) 1 M
              else Some M1) = Some M2 /\
    (forall i, j < i < n -> M2 (uaddr false a lda j i) = Some ((uval false A j i - sumz 0 j (fun l => F l j * F l i)) / r)%R) /\
    (forall q, (forall i, j < i < n -> q <> uaddr false a lda j i) -> M2 q = M1 q).
Proof.
  intros n a lda A j r M1 F Hl1 Hl Hj Hr HF HA.
  destruct (Z.ltb_spec (j + 1) n) as [Hlt|Hge].
  2:{ exists M1. split; [reflexivity|]. split; [intros; lia|reflexivity]. }
  assert (Ey : forall c, elt (entry a lda (j + 1) j) (n - (j + 1)) 1 c = uaddr false a lda j (j + 1 + c)).
  { intros c. rewrite elt_1. unfold uaddr, entry. lia. }
  assert (Ex : forall c, elt (entry a lda j 0) j lda c = uaddr false a lda c j).
  { intros c. unfold elt, uaddr, entry. destruct (Z.ltb_spec lda 0); lia. }
  assert (Em : forall k c, entry (entry a lda (j + 1) 0) lda k c = uaddr false a lda c (j + 1 + k)).
  { intros k c. unfold uaddr, entry. lia. }
  destruct (gemv_n_spec H I (n - (j + 1)) j (-1)%R (entry a lda (j + 1) 0) lda (entry a lda j 0) lda 1%R
              (entry a lda (j + 1) j) 1 (fun k c => F c (j + 1 + k)) (fun k => F k j)
              (fun c => uval false A j (j + 1 + c)) M1) as [M2 [E2 [A2 B2]]].
  - lia.
  - lia.
  - lia.
  - lia.
  - lia.
  - lia.
  - right; reflexivity.
  - intros k c Hk Hc. rewrite Em. apply HF; lia.
  - intros k Hk. rewrite Ex. apply HF; lia.
  - intros c Hc. rewrite Ey. apply HA; lia.
  - intros c k c' Hc Hk Hc' E. rewrite Ey, Em in E. unfold uaddr in E. apply entry_inj in E; lia.
  - intros c k Hc Hk E. rewrite Ey, Ex in E. unfold uaddr in E. apply entry_inj in E; lia.
  - assert (En : nopp (n := NR) ONE = (-1)%R) by (unfold ONE; nrg; rring).
    rewrite En. unfold ONE. cbn [nZ NumR]. rewrite E2.
    destruct (scal_spec (N := NR) (n - (j + 1)) (1 / r)%R (entry a lda (j + 1) j) 1 M2 _ ltac:(lia) A2) as [M3 [E3 [A3 B3]]].
    exists M3. split; [exact E3|]. split.
    + intros i Hi. replace i with (j + 1 + (i - (j + 1))) at 1 by lia. rewrite <- Ey.
      rewrite A3 by lia. refine (f_equal (@Some R) _). rewrite scal_elt_exact.
      replace (j + 1 + (i - (j + 1))) with i by lia.
      rewrite (sumz_ext 0 j (fun i0 => F i0 i * F i0 j)%R (fun l => F l j * F l i)%R) by (intros; ring).
      field. exact Hr.
    + intros q Hq. rewrite B3; [apply B2|]; intros c Hc; rewrite Ey; apply Hq; lia.
Qed.

Lemma potf2_inv : forall uplo (up : bool) n a lda (A : Z -> Z -> R) (M : mem),
  uplo_arg uplo up -> 0 <= n -> 1 <= lda -> n <= lda ->
  has_tri (N := NR) M a lda n up false A ->
  exists r M', potf2 (N := NR) uplo n a lda M = Some (r, M') /\
    (r = 0 /\ chol_inv up n a lda A M n M' \/ 1 <= r <= n /\ chol_stop up n A (r - 1) /\ frame_u up n a lda M M').
Proof.
  intros uplo up n a lda A M Hu Hn Hl1 Hl HA.
  assert (HU : forall k i, 0 <= k -> k <= i < n -> M (uaddr up a lda k i) = Some (uval up A k i)).
  { intros k i Hk Hi. unfold uaddr, uval. destruct up; apply HA; try lia; discriminate. }
  assert (H0 : chol_inv up n a lda A M 0 M).
  { exists A. split; [intros; lia|]. split; [exact HU|]. split; [intros; lia|]. split; [intros; lia|]. intros q _; reflexivity. }
  unfold potf2. destruct (Z.ltb_spec n 0); [lia|]. destruct (Z.ltb_spec lda 1); [lia|]. destruct (Z.ltb_spec lda n); [lia|].
  cbn [orb]. destruct (Z.eqb_spec n 0) as [Hn0|Hn0].
  { exists 0, M. split; [reflexivity|]. left. split; [reflexivity|]. rewrite Hn0 at 2. exact H0. }
  cbv zeta. red in Hu. destruct up; subst uplo.
  - change (121 =? UPPER) with true. cbv iota.
    apply (chol_loop true n a lda A M Hn); [exact H0|].
    intros j M1 Hj HI.
    destruct (row_body_ok true n a lda A M Hl j M1
                (fun M => dot (N := NR) j (entry a lda 0 j) 1 (entry a lda 0 j) 1 M)
                (fun r M1 => if j + 1 <? n then
                   do (_, M) <- gemv (N := NR) TRANS j (n - (j + 1)) (nopp ONE) (entry a lda 0 (j + 1)) lda (entry a lda 0 j) 1
                                  ONE (entry a lda j (j + 1)) lda M1;
                   scal (N := NR) (n - (j + 1)) (ndiv (n := NR) (nZ 1) r) (entry a lda j (j + 1)) lda M
                 else Some M1) Hj HI) as [M2 [ret [E2 P2]]].
    + intros F HF. apply (dot_spec H I j _ 1 _ 1 M1 (fun k => F k j) (fun k => F k j)); intros k Hk; rewrite elt_1;
        refine (eq_trans _ (HF k j ltac:(lia) ltac:(lia))); unfold uaddr, entry; f_equal; lia.
    + intros r M2 F Hr HF HA2. apply row_upper; assumption.
    + exists M2, ret. split; [|exact P2]. rewrite <- E2. unfold row_body, uaddr, entry.
      replace (j + 1 - 1) with j by lia. replace (1 - 1) with 0 by lia. replace (j + 1 + 1 - 1) with (j + 1) by lia.
      reflexivity.
  - change (122 =? UPPER) with false. change (122 =? LOWER) with true. cbv iota.
    apply (chol_loop false n a lda A M Hn); [exact H0|].
    intros j M1 Hj HI.
    destruct (row_body_ok false n a lda A M Hl j M1
                (fun M => dot (N := NR) j (entry a lda j 0) lda (entry a lda j 0) lda M)
                (fun r M1 => if j + 1 <? n then
                   do (_, M) <- gemv (N := NR) NO_TRANS (n - (j + 1)) j (nopp ONE) (entry a lda (j + 1) 0) lda (entry a lda j 0) lda
                                  ONE (entry a lda (j + 1) j) 1 M1;
                   scal (N := NR) (n - (j + 1)) (ndiv (n := NR) (nZ 1) r) (entry a lda (j + 1) j) 1 M
                 else Some M1) Hj HI) as [M2 [ret [E2 P2]]].
    + intros F HF. apply (dot_spec H I j _ lda _ lda M1 (fun k => F k j) (fun k => F k j)); intros k Hk;
        refine (eq_trans _ (HF k j ltac:(lia) ltac:(lia))); unfold uaddr, elt, entry; destruct (Z.ltb_spec lda 0); try lia; f_equal; lia.
    + intros r M2 F Hr HF HA2. apply row_lower; assumption.
    + exists M2, ret. split; [|exact P2]. rewrite <- E2. unfold row_body, uaddr, entry.
      replace (j + 1 - 1) with j by lia. replace (1 - 1) with 0 by lia. replace (j + 1 + 1 - 1) with (j + 1) by lia.
      reflexivity.
Qed.

End Exact.
