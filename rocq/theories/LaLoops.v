(** * Loops of linalg.c: invariants, unrolling and running indices *)
From Coq Require Import ZArith List Bool Lia.
From Verif Require Import Base Num LaModel.
Local Open Scope Z_scope.

Section Loops.
Context {A : Type}.
Implicit Types (body f op : Z -> A -> option A).

Lemma iter_inv : forall (P : Z -> A -> Prop) k i d body s,
  P i s ->
  (forall t s, 0 <= t < Z.of_nat k -> P (i + t * d) s ->
     exists s', body (i + t * d) s = Some s' /\ P (i + (t + 1) * d) s') ->
  exists s', iter k i d body s = Some s' /\ P (i + Z.of_nat k * d) s'.
Proof.
  induction k as [|k IH]; intros i d body s Hp Hb.
  - exists s. split; [reflexivity|]. replace (i + Z.of_nat 0 * d) with i by lia. exact Hp.
  - destruct (Hb 0 s ltac:(lia)) as [s1 [E1 P1]].
    { replace (i + 0 * d) with i by lia. exact Hp. }
    replace (i + 0 * d) with i in E1 by lia. replace (i + (0 + 1) * d) with (i + d) in P1 by lia.
    destruct (IH (i + d) d body s1 P1) as [s2 [E2 P2]].
    { intros t s3 Ht P3.
      replace (i + d + t * d) with (i + (t + 1) * d) in * by lia.
      replace (i + d + (t + 1) * d) with (i + (t + 1 + 1) * d) by lia.
      apply Hb; [lia|exact P3]. }
    exists s2. split.
    + cbn [iter]. rewrite E1. exact E2.
    + replace (i + Z.of_nat (S k) * d) with (i + d + Z.of_nat k * d) by lia. exact P2.
Qed.

Lemma for_up_inv : forall (P : Z -> A -> Prop) lo hi body s, lo <= hi ->
  P lo s ->
  (forall j s, lo <= j < hi -> P j s -> exists s', body j s = Some s' /\ P (j + 1) s') ->
  exists s', for_up lo hi body s = Some s' /\ P hi s'.
Proof.
  intros P lo hi body s Hle Hp Hb. unfold for_up.
  destruct (iter_inv P (Z.to_nat (hi - lo)) lo 1 body s Hp) as [s' [E P']].
  - intros t s1 Ht P1. replace (lo + (t + 1) * 1) with (lo + t * 1 + 1) by lia. apply Hb; [lia|exact P1].
  - exists s'. split; [exact E|]. replace hi with (lo + Z.of_nat (Z.to_nat (hi - lo)) * 1) by lia. exact P'.
Qed.

Lemma for_down_inv : forall (P : Z -> A -> Prop) hi lo body s, lo <= hi + 1 ->
  P (hi + 1) s ->
  (forall j s, lo <= j <= hi -> P (j + 1) s -> exists s', body j s = Some s' /\ P j s') ->
  exists s', for_down hi lo body s = Some s' /\ P lo s'.
Proof.
  intros P hi lo body s Hle Hp Hb. unfold for_down.
  destruct (iter_inv (fun j => P (j + 1)) (Z.to_nat (hi - lo + 1)) hi (-1) body s Hp) as [s' [E P']].
  - intros t s1 Ht P1. replace (hi + (t + 1) * -1 + 1) with (hi + t * -1) by lia. apply Hb; [lia|exact P1].
  - exists s'. split; [exact E|].
    replace lo with (hi + Z.of_nat (Z.to_nat (hi - lo + 1)) * -1 + 1) by lia. exact P'.
Qed.

Lemma iter_ext : forall k i d f body s,
  (forall t s, 0 <= t < Z.of_nat k -> f (i + t * d) s = body (i + t * d) s) ->
  iter k i d f s = iter k i d body s.
Proof.
  induction k as [|k IH]; intros i d f body s Hb; [reflexivity|].
  cbn [iter].
  assert (E := Hb 0 s ltac:(lia)). replace (i + 0 * d) with i in E by lia. rewrite E.
  destruct (body i s) as [s1|]; [|reflexivity].
  apply IH. intros t s2 Ht. replace (i + d + t * d) with (i + (t + 1) * d) by lia. apply Hb. lia.
Qed.

Lemma for_up_ext : forall lo hi f body s,
  (forall j s, lo <= j < hi -> f j s = body j s) -> for_up lo hi f s = for_up lo hi body s.
Proof. intros lo hi f body s Hb. apply iter_ext. intros t s1 Ht. apply Hb. lia. Qed.

Lemma for_down_ext : forall hi lo f body s,
  (forall j s, lo <= j <= hi -> f j s = body j s) -> for_down hi lo f s = for_down hi lo body s.
Proof. intros hi lo f body s Hb. apply iter_ext. intros t s1 Ht. apply Hb. lia. Qed.

Lemma iter_app : forall k1 k2 i d body s,
  iter (k1 + k2) i d body s = (do s <- iter k1 i d body s; iter k2 (i + Z.of_nat k1 * d) d body s).
Proof.
  induction k1 as [|k1 IH]; intros k2 i d body s.
  - cbn [plus iter]. replace (i + Z.of_nat 0 * d) with i by lia. reflexivity.
  - cbn [plus iter]. destruct (body i s) as [s1|]; [|reflexivity].
    rewrite IH. replace (i + d + Z.of_nat k1 * d) with (i + Z.of_nat (S k1) * d) by lia. reflexivity.
Qed.

(** the loop with an arbitrary start and increment, as a loop on 0, 1, 2, ... *)
Lemma iter_shift : forall k i d c e body s,
  iter k (c + i * d) (e * d) body s = iter k i e (fun t => body (c + t * d)) s.
Proof.
  induction k as [|k IH]; intros i d c e body s; [reflexivity|].
  cbn [iter]. destruct (body (c + i * d) s) as [s1|]; [|reflexivity].
  replace (c + i * d + e * d) with (c + (i + e) * d) by lia. apply IH.
Qed.

Lemma for_step_iter : forall k lo d body s, 1 <= d ->
  for_step lo (lo + Z.of_nat k * d) d body s = iter k lo d body s.
Proof.
  intros k lo d body s Hd. unfold for_step.
  assert (G : forall k fuel lo s, (k < fuel)%nat ->
            for_step_fuel fuel lo (lo + Z.of_nat k * d) d body s = iter k lo d body s).
  { clear k lo s. induction k as [|k IH]; intros fuel lo s Hf.
    - destruct fuel; [lia|]. cbn [for_step_fuel iter].
      destruct (Z.ltb_spec lo (lo + Z.of_nat 0 * d)); [lia|reflexivity].
    - destruct fuel as [|fuel]; [lia|]. cbn [for_step_fuel iter].
      destruct (Z.ltb_spec lo (lo + Z.of_nat (S k) * d)); [|lia].
      destruct (body lo s) as [s1|]; [|reflexivity].
      replace (lo + Z.of_nat (S k) * d) with (lo + d + Z.of_nat k * d) by lia. apply IH. lia. }
  apply G. nia.
Qed.

(** strided loop: for (i = 0; i < n*d; i += d) body(i) is for (t = 0; t < n; ++t) body(t*d) *)
Lemma for_stride : forall n d body s, 0 <= n -> 1 <= d ->
  for_step 0 (n * d) d body s = for_up 0 n (fun t => body (t * d)) s.
Proof.
  intros n d body s Hn Hd.
  replace (n * d) with (0 + Z.of_nat (Z.to_nat n) * d) by lia.
  rewrite for_step_iter by exact Hd. unfold for_up. replace (n - 0) with n by lia.
  replace (iter (Z.to_nat n) 0 d body s) with (iter (Z.to_nat n) (0 + 0 * d) (1 * d) body s) by (f_equal; lia).
  rewrite iter_shift. apply iter_ext. intros t s1 _. cbv beta. rewrite Z.add_0_l. reflexivity.
Qed.

Lemma for_stride1 : forall n d body s, 1 <= n -> 1 <= d ->
  for_step d (n * d) d body s = for_up 1 n (fun t => body (t * d)) s.
Proof.
  intros n d body s Hn Hd.
  replace (n * d) with (d + Z.of_nat (Z.to_nat (n - 1)) * d) by (rewrite Z2Nat.id by lia; ring).
  rewrite for_step_iter by exact Hd. unfold for_up.
  replace (iter (Z.to_nat (n - 1)) d d body s) with (iter (Z.to_nat (n - 1)) (0 + 1 * d) (1 * d) body s)
    by (f_equal; lia).
  rewrite iter_shift. apply iter_ext. intros t s1 _. cbv beta. rewrite Z.add_0_l. reflexivity.
Qed.

Lemma land3 : forall n, 0 <= n -> exists k : nat, 0 <= Z.land n 3 /\ n = Z.land n 3 + Z.of_nat k * 4.
Proof.
  intros n Hn. change 3 with (Z.ones 2). rewrite Z.land_ones by lia. change (2 ^ 2) with 4.
  exists (Z.to_nat (n / 4)).
  pose proof (Z.div_mod n 4 ltac:(lia)). pose proof (Z.mod_pos_bound n 4 ltac:(lia)).
  pose proof (Z.div_pos n 4 Hn ltac:(lia)). split; lia.
Qed.

Lemma land7 : forall n, 0 <= n -> exists k : nat, 0 <= Z.land n 7 /\ n = Z.land n 7 + Z.of_nat k * 8.
Proof.
  intros n Hn. change 7 with (Z.ones 3). rewrite Z.land_ones by lia. change (2 ^ 3) with 8.
  exists (Z.to_nat (n / 8)).
  pose proof (Z.div_mod n 8 ltac:(lia)). pose proof (Z.mod_pos_bound n 8 ltac:(lia)).
  pose proof (Z.div_pos n 8 Hn ltac:(lia)). split; lia.
Qed.

Lemma iter_4 : forall k i op s,
  iter k i 4 (fun i s => do s <- op i s; do s <- op (i + 1) s; do s <- op (i + 2) s; op (i + 3) s) s
  = iter (k * 4) i 1 op s.
Proof.
  induction k as [|k IH]; intros i op s; [reflexivity|].
  cbn [Nat.mul plus]. cbn [iter].
  replace (i + 1 + 1) with (i + 2) by lia. replace (i + 2 + 1) with (i + 3) by lia.
  replace (i + 3 + 1) with (i + 4) by lia.
  destruct (op i s) as [s1|]; [|reflexivity]. destruct (op (i + 1) s1) as [s2|]; [|reflexivity].
  destruct (op (i + 2) s2) as [s3|]; [|reflexivity]. destruct (op (i + 3) s3) as [s4|]; [|reflexivity].
  apply IH.
Qed.

Lemma iter_8 : forall k i op s,
  iter k i 8 (fun i s =>
       do s <- op i s; do s <- op (i + 1)%Z s; do s <- op (i + 2)%Z s; do s <- op (i + 3)%Z s;
       do s <- op (i + 4)%Z s; do s <- op (i + 5)%Z s; do s <- op (i + 6)%Z s; op (i + 7)%Z s) s
  = iter (k * 8) i 1 op s.
Proof.
  induction k as [|k IH]; intros i op s; [reflexivity|].
  cbn [Nat.mul plus]. cbn [iter].
  replace (i + 1 + 1) with (i + 2) by lia. replace (i + 2 + 1) with (i + 3) by lia.
  replace (i + 3 + 1) with (i + 4) by lia. replace (i + 4 + 1) with (i + 5) by lia.
  replace (i + 5 + 1) with (i + 6) by lia. replace (i + 6 + 1) with (i + 7) by lia.
  replace (i + 7 + 1) with (i + 8) by lia.
  repeat match goal with
  | |- _ = match op ?j ?t with _ => _ end => destruct (op j t) as [?|]; [|reflexivity]
  end.
  apply IH.
Qed.

(** the unrolled loops do the operations in the order of the plain loop *)
Lemma unroll_4a_spec : forall n op s, 0 <= n -> unroll_4a n op s = for_up 0 n op s.
Proof.
  intros n op s Hn. destruct (land3 n Hn) as [k [Hm E]]. unfold unroll_4a.
  set (m := Z.land n 3) in *. clearbody m. unfold for_up.
  replace (Z.to_nat (n - 0)) with (Z.to_nat (m - 0) + k * 4)%nat by lia.
  rewrite iter_app. destruct (iter (Z.to_nat (m - 0)) 0 1 op s) as [s1|]; [|reflexivity].
  rewrite E. rewrite for_step_iter by lia. rewrite iter_4. f_equal. lia.
Qed.

Lemma unroll_8a_spec : forall n op s, 0 <= n -> unroll_8a n op s = for_up 0 n op s.
Proof.
  intros n op s Hn. destruct (land7 n Hn) as [k [Hm E]]. unfold unroll_8a.
  set (m := Z.land n 7) in *. clearbody m. unfold for_up.
  replace (Z.to_nat (n - 0)) with (Z.to_nat (m - 0) + k * 8)%nat by lia.
  rewrite iter_app. destruct (iter (Z.to_nat (m - 0)) 0 1 op s) as [s1|]; [|reflexivity].
  rewrite E. rewrite for_step_iter by lia. rewrite iter_8. f_equal. lia.
Qed.

(** loops with a running index *)
Lemma iter_run : forall k i d (f : Z -> A * Z -> option (A * Z)) (body : Z -> Z -> A -> option A) (g : Z -> Z) s ix e,
  (forall j s ix, f j (s, ix) = (do s <- body j ix s; Some (s, ix + e))) ->
  (forall t, 0 <= t < Z.of_nat k -> g (i + t * d) = ix + t * e) ->
  iter k i d f (s, ix) = (do s <- iter k i d (fun j s => body j (g j) s) s; Some (s, ix + Z.of_nat k * e)).
Proof.
  intros k i d f body g s ix e Hf. revert i s ix. induction k as [|k IH]; intros i s ix Hg.
  - cbn [iter]. replace (ix + Z.of_nat 0 * e) with ix by lia. reflexivity.
  - cbn [iter]. rewrite Hf.
    assert (E := Hg 0 ltac:(lia)). replace (i + 0 * d) with i in E by lia. replace (ix + 0 * e) with ix in E by lia.
    rewrite E. destruct (body i ix s) as [s1|]; [|reflexivity].
    rewrite IH.
    + replace (ix + e + Z.of_nat k * e) with (ix + Z.of_nat (S k) * e) by lia. reflexivity.
    + intros t Ht. replace (i + d + t * d) with (i + (t + 1) * d) by lia. rewrite Hg by lia. lia.
Qed.

Lemma for_up_run : forall lo hi (f : Z -> A * Z -> option (A * Z)) (body : Z -> Z -> A -> option A) (g : Z -> Z) s ix e,
  (forall j s ix, f j (s, ix) = (do s <- body j ix s; Some (s, ix + e))) ->
  (forall j, lo <= j < hi -> g j = ix + (j - lo) * e) ->
  (do (s, _) <- for_up lo hi f (s, ix); Some s) = for_up lo hi (fun j s => body j (g j) s) s.
Proof.
  intros lo hi f body g s ix e Hf Hg. unfold for_up.
  rewrite (iter_run _ _ _ f body g s ix e Hf).
  - destruct (iter _ _ _ _ s); reflexivity.
  - intros t Ht. rewrite Hg by lia. f_equal. f_equal. lia.
Qed.

Lemma for_down_run : forall hi lo (f : Z -> A * Z -> option (A * Z)) (body : Z -> Z -> A -> option A) (g : Z -> Z) s ix e,
  (forall j s ix, f j (s, ix) = (do s <- body j ix s; Some (s, ix + e))) ->
  (forall j, lo <= j <= hi -> g j = ix + (hi - j) * e) ->
  (do (s, _) <- for_down hi lo f (s, ix); Some s) = for_down hi lo (fun j s => body j (g j) s) s.
Proof.
  intros hi lo f body g s ix e Hf Hg. unfold for_down.
  rewrite (iter_run _ _ _ f body g s ix e Hf).
  - destruct (iter _ _ _ _ s); reflexivity.
  - intros t Ht. rewrite Hg by lia. f_equal. f_equal. lia.
Qed.

(** two running indices *)
Lemma for_up_run2 : forall hi (f : Z -> A * Z * Z -> option (A * Z * Z)) (body : Z -> Z -> A -> option A) s ix e iy e',
  (forall j s ix iy, f j (s, ix, iy) = (do s <- body ix iy s; Some (s, ix + e, iy + e'))) ->
  (do (s, _, _) <- for_up 0 hi f (s, ix, iy); Some s)
  = for_up 0 hi (fun j s => body (ix + j * e) (iy + j * e') s) s.
Proof.
  intros hi f body s ix e iy e' Hf. unfold for_up.
  assert (G : forall k i s, 
    (do (s, _, _) <- iter k i 1 f (s, ix + i * e, iy + i * e'); Some s)
    = iter k i 1 (fun j s => body (ix + j * e) (iy + j * e') s) s).
  { induction k as [|k IH]; intros i s1; [reflexivity|].
    cbn [iter]. rewrite Hf. destruct (body (ix + i * e) (iy + i * e') s1) as [s2|]; [|reflexivity].
    replace (ix + i * e + e) with (ix + (i + 1) * e) by lia.
    replace (iy + i * e' + e') with (iy + (i + 1) * e') by lia. apply IH. }
  rewrite <- G. replace (ix + 0 * e) with ix by lia. replace (iy + 0 * e') with iy by lia. reflexivity.
Qed.

End Loops.

(** the unrolled loop with four variables: invariant on the sum of the four contributions *)
Lemma unroll_4b_inv : forall {T} (P : Z -> T * T * T * T -> Prop) n (op : Z -> T -> option T) s, 0 <= n ->
  P 0 s ->
  (forall j t0 t1 t2 t3, 0 <= j < n -> P j (t0, t1, t2, t3) -> exists t, op j t0 = Some t /\ P (j + 1) (t, t1, t2, t3)) ->
  (forall j t0 t1 t2 t3, 0 <= j < n -> P j (t0, t1, t2, t3) -> exists t, op j t1 = Some t /\ P (j + 1) (t0, t, t2, t3)) ->
  (forall j t0 t1 t2 t3, 0 <= j < n -> P j (t0, t1, t2, t3) -> exists t, op j t2 = Some t /\ P (j + 1) (t0, t1, t, t3)) ->
  (forall j t0 t1 t2 t3, 0 <= j < n -> P j (t0, t1, t2, t3) -> exists t, op j t3 = Some t /\ P (j + 1) (t0, t1, t2, t)) ->
  exists s', unroll_4b n op s = Some s' /\ P n s'.
Proof.
  intros T P n op s Hn Hp H0 H1 H2 H3. destruct (land3 n Hn) as [k [Hm E]]. unfold unroll_4b.
  set (m := Z.land n 3) in *. clearbody m.
  destruct (for_up_inv P 0 m (fun i '(t0, t1, t2, t3) => do t0 <- op i t0; Some (t0, t1, t2, t3)) s Hm Hp)
    as [s1 [E1 P1]].
  { intros j [[[t0 t1] t2] t3] Hj Pj. destruct (H0 j t0 t1 t2 t3 ltac:(lia) Pj) as [t [Et Pt]].
    rewrite Et. eexists; split; [reflexivity|exact Pt]. }
  rewrite E1.
  destruct (iter_inv P k m 4 (fun i '(t0, t1, t2, t3) =>
       do t0 <- op i t0; do t1 <- op (i + 1)%Z t1; do t2 <- op (i + 2)%Z t2; do t3 <- op (i + 3)%Z t3;
       Some (t0, t1, t2, t3)) s1 P1) as [s2 [E2 P2]].
  { intros t s3 Ht P3. set (i := m + t * 4) in *. destruct s3 as [[[t0 t1] t2] t3].
    replace (m + (t + 1) * 4) with (i + 1 + 1 + 1 + 1) by lia.
    assert (0 <= i /\ i + 3 < n) by lia. clearbody i.
    destruct (H0 i t0 t1 t2 t3 ltac:(lia) P3) as [u0 [Eu0 P4]]. rewrite Eu0.
    destruct (H1 (i + 1) u0 t1 t2 t3 ltac:(lia) P4) as [u1 [Eu1 P5]]. rewrite Eu1.
    destruct (H2 (i + 1 + 1) u0 u1 t2 t3 ltac:(lia) P5) as [u2 [Eu2 P6]].
    replace (i + 2) with (i + 1 + 1) by lia. rewrite Eu2.
    destruct (H3 (i + 1 + 1 + 1) u0 u1 u2 t3 ltac:(lia) P6) as [u3 [Eu3 P7]].
    replace (i + 3) with (i + 1 + 1 + 1) by lia. rewrite Eu3.
    eexists; split; [reflexivity|exact P7]. }
  exists s2. rewrite <- E in P2. split; [|exact P2]. rewrite <- E2. rewrite E at 1. apply for_step_iter. lia.
Qed.
