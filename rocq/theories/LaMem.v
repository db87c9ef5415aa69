(** * Lemmas on memories, addresses and sums used for linalg.c *)
From Coq Require Import ZArith Reals List Bool Lia Lra.
From Verif Require Import Base Num LaModel LaLoops LaSpec.
Local Open Scope Z_scope.

(** ** Addresses *)

Lemma elt_affine : forall x n inc i, elt x n inc i = x + (start0 n inc + i * inc).
Proof.
  intros. unfold elt, start0. destruct (Z.ltb_spec inc 0), (Z.geb_spec inc 0); lia.
Qed.

Lemma elt_1 : forall x n i, elt x n 1 i = x + i.
Proof. intros. unfold elt. cbn. lia. Qed.

Lemma elt_pos : forall x n inc i, 0 <= inc -> elt x n inc i = x + i * inc.
Proof. intros. unfold elt. destruct (Z.ltb_spec inc 0); lia. Qed.

Lemma start0_1 : forall n, start0 n 1 = 0.
Proof. reflexivity. Qed.

Lemma elt_inj : forall x n inc i j, inc <> 0 -> elt x n inc i = elt x n inc j -> i = j.
Proof. intros x n inc i j H. rewrite !elt_affine. intros E. nia. Qed.

Lemma entry_inj : forall a ld i j k l, 0 <= i < ld -> 0 <= k < ld -> entry a ld i j = entry a ld k l -> i = k /\ j = l.
Proof. unfold entry. intros. assert (j = l) by nia. subst. lia. Qed.

(** ** Sums *)
Local Open Scope R_scope.

Lemma sumz_empty : forall lo hi f, (hi <= lo)%Z -> sumz lo hi f = 0.
Proof. intros. unfold sumz. replace (Z.to_nat (hi - lo)) with 0%nat by lia. reflexivity. Qed.

Lemma sumz_left : forall lo hi f, (lo < hi)%Z -> sumz lo hi f = f lo + sumz (lo + 1) hi f.
Proof.
  intros. unfold sumz. replace (Z.to_nat (hi - lo)) with (S (Z.to_nat (hi - (lo + 1)))) by lia. reflexivity.
Qed.

Lemma sumz_right : forall lo hi f, (lo <= hi)%Z -> sumz lo (hi + 1) f = sumz lo hi f + f hi.
Proof.
  intros lo hi f H. unfold sumz. replace (Z.to_nat (hi + 1 - lo)) with (S (Z.to_nat (hi - lo))) by lia.
  set (k := Z.to_nat (hi - lo)). replace hi with (lo + Z.of_nat k)%Z by lia. clearbody k. clear hi H.
  revert lo. induction k as [|k IH]; intros lo.
  - cbn [sum_nat]. replace (lo + Z.of_nat 0)%Z with lo by lia. lra.
  - change (sum_nat (S (S k)) lo f) with (f lo + sum_nat (S k) (lo + 1) f). rewrite IH. cbn [sum_nat].
    replace (lo + 1 + Z.of_nat k)%Z with (lo + Z.of_nat (S k))%Z by lia. lra.
Qed.

Lemma sumz_ext : forall lo hi f g, (forall k, (lo <= k < hi)%Z -> f k = g k) -> sumz lo hi f = sumz lo hi g.
Proof.
  intros lo hi f g H. destruct (Z_le_gt_dec hi lo) as [L|L].
  - rewrite !sumz_empty by lia. reflexivity.
  - unfold sumz. set (k := Z.to_nat (hi - lo)). assert (K : hi = (lo + Z.of_nat k)%Z) by lia. clearbody k. subst hi.
    clear L. revert lo H. induction k as [|k IH]; intros lo H; [reflexivity|].
    cbn [sum_nat]. rewrite H by lia. f_equal. apply IH. intros. apply H. lia.
Qed.

Lemma sumz_ind : forall (Q : R -> Prop) lo hi f, (lo <= hi)%Z -> Q 0 ->
  (forall s k, (lo <= k < hi)%Z -> Q s -> Q (s + f k)) -> Q (sumz lo hi f).
Proof.
  intros Q lo hi f H H0 Hs.
  assert (G : forall k : nat, (lo + Z.of_nat k <= hi)%Z -> Q (sumz lo (lo + Z.of_nat k) f)).
  { induction k as [|k IH]; intros L.
    - rewrite sumz_empty by lia. exact H0.
    - replace (lo + Z.of_nat (S k))%Z with (lo + Z.of_nat k + 1)%Z by lia. rewrite sumz_right by lia.
      apply Hs; [lia|]. apply IH. lia. }
  replace hi with (lo + Z.of_nat (Z.to_nat (hi - lo)))%Z by lia. apply G. lia.
Qed.

Lemma sumz_plus : forall lo hi f g, sumz lo hi (fun k => f k + g k) = sumz lo hi f + sumz lo hi g.
Proof.
  intros. unfold sumz. generalize (Z.to_nat (hi - lo)). intros k. revert lo.
  induction k as [|k IH]; intros lo; cbn [sum_nat]; [lra|]. rewrite IH. lra.
Qed.

Lemma sumz_scal : forall lo hi c f, sumz lo hi (fun k => c * f k) = c * sumz lo hi f.
Proof.
  intros. unfold sumz. generalize (Z.to_nat (hi - lo)). intros k. revert lo.
  induction k as [|k IH]; intros lo; cbn [sum_nat]; [lra|]. rewrite IH. lra.
Qed.

Lemma sumz_zero : forall lo hi f, (forall k, (lo <= k < hi)%Z -> f k = 0) -> sumz lo hi f = 0.
Proof.
  intros. rewrite (sumz_ext lo hi f (fun _ => 0 * 0)) by (intros; rewrite H by assumption; lra).
  rewrite (sumz_scal lo hi 0 (fun _ => 0)). lra.
Qed.

Lemma sumz_split : forall lo mid hi f, (lo <= mid <= hi)%Z -> sumz lo hi f = sumz lo mid f + sumz mid hi f.
Proof.
  intros lo mid hi f [H1 H2].
  set (k := Z.to_nat (hi - mid)). replace hi with (mid + Z.of_nat k)%Z by lia. clearbody k. clear H2 hi.
  induction k as [|k IH].
  - replace (mid + Z.of_nat 0)%Z with mid by lia. rewrite (sumz_empty mid mid) by lia. lra.
  - replace (mid + Z.of_nat (S k))%Z with (mid + Z.of_nat k + 1)%Z by lia.
    rewrite !sumz_right by lia. rewrite IH. lra.
Qed.

Lemma sumz_nonneg : forall lo hi f, (forall k, (lo <= k < hi)%Z -> 0 <= f k) -> 0 <= sumz lo hi f.
Proof.
  intros lo hi f H. destruct (Z_le_gt_dec hi lo); [rewrite sumz_empty by lia; lra|].
  apply sumz_ind; [lia|lra|]. intros s k Hk Hs. specialize (H k Hk). lra.
Qed.

(** ** Memory *)
Local Open Scope Z_scope.
Section Mem.
Context {N : Num}.
Notation mem := (Z -> option N).
Implicit Types (M : Z -> option N).

Lemma store_ok : forall M p v w, M p = Some v ->
  exists M', store M p w = Some M' /\ M' p = Some w /\ forall q, q <> p -> M' q = M q.
Proof.
  intros M p v w H. unfold store. rewrite H. eexists. split; [reflexivity|]. cbv beta. split.
  - rewrite Z.eqb_refl. reflexivity.
  - intros q Hq. destruct (Z.eqb_spec q p); [contradiction|reflexivity].
Qed.

(** elements written one after the other, at different addresses *)
Lemma map_up : forall lo hi (p : Z -> Z) (F : Z -> N) (body : Z -> mem -> option mem) M0, lo <= hi ->
  (forall i j, lo <= i < hi -> lo <= j < hi -> p i = p j -> i = j) ->
  (forall j M, lo <= j < hi -> (forall q, (forall i, lo <= i < j -> q <> p i) -> M q = M0 q) ->
     exists M', body j M = Some M' /\ M' (p j) = Some (F j) /\ forall q, q <> p j -> M' q = M q) ->
  exists M', for_up lo hi body M0 = Some M' /\
    (forall i, lo <= i < hi -> M' (p i) = Some (F i)) /\
    (forall q, (forall i, lo <= i < hi -> q <> p i) -> M' q = M0 q).
Proof.
  intros lo hi p F body M0 Hle Hinj Hb.
  destruct (for_up_inv (fun j M => (forall i, lo <= i < j -> M (p i) = Some (F i)) /\
              (forall q, (forall i, lo <= i < j -> q <> p i) -> M q = M0 q)) lo hi body M0 Hle) as [M' [E [H1 H2]]].
  - split; [intros; lia|reflexivity].
  - intros j M Hj [H1 H2]. destruct (Hb j M Hj H2) as [M' [E [H3 H4]]].
    exists M'. split; [exact E|]. split.
    + intros i Hi. destruct (Z.eq_dec i j) as [->|Hne]; [exact H3|].
      rewrite H4; [apply H1; lia|]. intros Ep. apply Hne. apply Hinj; [lia|lia|exact Ep].
    + intros q Hq. rewrite H4 by (apply Hq; lia). apply H2. intros i Hi. apply Hq. lia.
  - exists M'. auto.
Qed.

Lemma map_down : forall hi lo (p : Z -> Z) (F : Z -> N) (body : Z -> mem -> option mem) M0, lo <= hi + 1 ->
  (forall i j, lo <= i <= hi -> lo <= j <= hi -> p i = p j -> i = j) ->
  (forall j M, lo <= j <= hi -> (forall q, (forall i, j < i <= hi -> q <> p i) -> M q = M0 q) ->
     exists M', body j M = Some M' /\ M' (p j) = Some (F j) /\ forall q, q <> p j -> M' q = M q) ->
  exists M', for_down hi lo body M0 = Some M' /\
    (forall i, lo <= i <= hi -> M' (p i) = Some (F i)) /\
    (forall q, (forall i, lo <= i <= hi -> q <> p i) -> M' q = M0 q).
Proof.
  intros hi lo p F body M0 Hle Hinj Hb.
  destruct (for_down_inv (fun j M => (forall i, j <= i <= hi -> M (p i) = Some (F i)) /\
              (forall q, (forall i, j <= i <= hi -> q <> p i) -> M q = M0 q)) hi lo body M0 Hle) as [M' [E [H1 H2]]].
  - split; [intros; lia|reflexivity].
  - intros j M Hj [H1 H2].
    destruct (Hb j M Hj) as [M' [E [H3 H4]]].
    { intros q Hq. apply H2. intros i Hi. apply Hq. lia. }
    exists M'. split; [exact E|]. split.
    + intros i Hi. destruct (Z.eq_dec i j) as [->|Hne]; [exact H3|].
      rewrite H4; [apply H1; lia|]. intros Ep. apply Hne. apply Hinj; [lia|lia|exact Ep].
    + intros q Hq. rewrite H4 by (apply Hq; lia). apply H2. intros i Hi. apply Hq. lia.
  - exists M'. auto.
Qed.

End Mem.
