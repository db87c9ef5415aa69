(** * gqtpar.c and the routines it calls, any arithmetic: accesses to the memory *)
From Coq Require Import ZArith List Bool Lia.
From Verif Require Import Base Num LaModel LaLoops LaSpec LaMem LaBlas1 GqModel.
Import ListNotations.
Local Open Scope Z_scope.

Section Safe.
Context {N : Num}.
Notation mem := (Z -> option N).
Implicit Types (M : Z -> option N).

(** The addresses [D] exist *)
Definition dom (M : mem) (D : Z -> Prop) : Prop := forall p, D p -> M p <> None.
(** Only [S] is modified, and the addresses still exist *)
Definition kp (S : Z -> Prop) (M M' : mem) : Prop := (forall p, ~ S p -> M' p = M p) /\ (forall p, M p <> None -> M' p <> None).
(** The elements of a vector *)
Definition V (x n : Z) (p : Z) : Prop := exists i, 0 <= i < n /\ p = x + i.

Lemma kp_refl : forall S M, kp S M M.
Proof. intros S M. split; auto. Qed.

Lemma kp_trans : forall S M1 M2 M3, kp S M1 M2 -> kp S M2 M3 -> kp S M1 M3.
Proof.
  intros S M1 M2 M3 [A B] [C D]. split.
  - intros p Hp. rewrite C by exact Hp. apply A, Hp.
  - intros p Hp. apply D, B, Hp.
Qed.

Lemma kp_weak : forall (S S' : Z -> Prop) M M', (forall p, S p -> S' p) -> kp S M M' -> kp S' M M'.
Proof. intros S S' M M' HS [A B]. split; [|exact B]. intros p Hp. apply A. intros H. apply Hp, HS, H. Qed.

Lemma kp_dom : forall S M M' D, kp S M M' -> dom M D -> dom M' D.
Proof. intros S M M' D [_ B] HD p Hp. apply B, HD, Hp. Qed.

Lemma rd : forall M D p, dom M D -> D p -> exists v, M p = Some v.
Proof. intros M D p HD Hp. specialize (HD p Hp). destruct (M p) as [v|]; [exists v; reflexivity|congruence]. Qed.

Lemma st_ok : forall M p (v : N), M p <> None -> exists M', store M p v = Some M' /\ kp (fun q => q = p) M M'.
Proof.
  intros M p v Hp. destruct (M p) as [w|] eqn:E; [|congruence].
  destruct (store_ok M p w v E) as [M' [E' [A B]]]. exists M'. split; [exact E'|]. split.
  - intros q Hq. apply B. exact Hq.
  - intros q Hq. destruct (Z.eq_dec q p) as [->|Hne]; [congruence|]. rewrite B by exact Hne. exact Hq.
Qed.

Lemma vec_of : forall M x n inc, (forall i, 0 <= i < n -> M (elt x n inc i) <> None) -> exists X, has_vec M x n inc X.
Proof.
  intros M x n inc Hd. exists (fun i => match M (elt x n inc i) with Some v => v | None => ZERO end).
  intros i Hi. specialize (Hd i Hi). destruct (M (elt x n inc i)); [reflexivity|congruence].
Qed.

Lemma only_kp : forall M M' y n inc Y, has_vec M' y n inc Y -> only_vec M M' y n inc ->
  kp (fun p => exists i, 0 <= i < n /\ p = elt y n inc i) M M'.
Proof.
  intros M M' y n inc Y HY Ho. split.
  - intros p Hp. apply Ho. intros i Hi E. apply Hp. exists i. auto.
  - intros p Hp. destruct (Z_lt_le_dec 0 n) as [Hn|Hn].
    + assert (Dec : (exists i, 0 <= i < n /\ p = elt y n inc i) \/ forall i, 0 <= i < n -> p <> elt y n inc i).
      { clear - Hn. assert (K : forall k : nat, (exists i, 0 <= i < Z.of_nat k /\ p = elt y n inc i) \/
                                   forall i, 0 <= i < Z.of_nat k -> p <> elt y n inc i).
        { induction k as [|k [IH|IH]]; [right; intros; lia| |].
          - destruct IH as [i [Hi E]]. left. exists i. split; [lia|exact E].
          - destruct (Z.eq_dec p (elt y n inc (Z.of_nat k))) as [E|E].
            + left. exists (Z.of_nat k). split; [lia|exact E].
            + right. intros i Hi. destruct (Z.eq_dec i (Z.of_nat k)) as [->|]; [exact E|apply IH; lia]. }
        specialize (K (Z.to_nat n)). rewrite Z2Nat.id in K by lia. exact K. }
      destruct Dec as [[i [Hi ->]]|Hno]; [rewrite (HY i Hi); discriminate|]. rewrite Ho by exact Hno. exact Hp.
    + rewrite Ho by (intros; lia). exact Hp.
Qed.

(** ** Loops *)
Lemma up_kp : forall (D S : Z -> Prop) lo hi (body : Z -> mem -> option mem) M, lo <= hi -> dom M D ->
  (forall j M, lo <= j < hi -> dom M D -> exists M', body j M = Some M' /\ kp S M M') ->
  exists M', for_up lo hi body M = Some M' /\ kp S M M'.
Proof.
  intros D S lo hi body M Hle HD Hb.
  destruct (for_up_inv (fun _ M' => kp S M M') lo hi body M Hle (kp_refl S M)) as [M' [E K]].
  - intros j M1 Hj K1. destruct (Hb j M1 Hj (kp_dom S M M1 D K1 HD)) as [M2 [E2 K2]].
    exists M2. split; [exact E2|]. exact (kp_trans S M M1 M2 K1 K2).
  - exists M'. auto.
Qed.

Lemma down_kp : forall (D S : Z -> Prop) hi lo (body : Z -> mem -> option mem) M, lo <= hi + 1 -> dom M D ->
  (forall j M, lo <= j <= hi -> dom M D -> exists M', body j M = Some M' /\ kp S M M') ->
  exists M', for_down hi lo body M = Some M' /\ kp S M M'.
Proof.
  intros D S hi lo body M Hle HD Hb.
  destruct (for_down_inv (fun _ M' => kp S M M') hi lo body M Hle (kp_refl S M)) as [M' [E K]].
  - intros j M1 Hj K1. destruct (Hb j M1 Hj (kp_dom S M M1 D K1 HD)) as [M2 [E2 K2]].
    exists M2. split; [exact E2|]. exact (kp_trans S M M1 M2 K1 K2).
  - exists M'. auto.
Qed.

Lemma up_kp2 : forall {T} (D S : Z -> Prop) lo hi (body : Z -> mem * T -> option (mem * T)) M (t : T), lo <= hi -> dom M D ->
  (forall j M t, lo <= j < hi -> dom M D -> exists M' t', body j (M, t) = Some (M', t') /\ kp S M M') ->
  exists M' t', for_up lo hi body (M, t) = Some (M', t') /\ kp S M M'.
Proof.
  intros T D S lo hi body M t Hle HD Hb.
  destruct (for_up_inv (fun _ s => kp S M (fst s)) lo hi body (M, t) Hle (kp_refl S M)) as [[M' t'] [E K]].
  - intros j [M1 t1] Hj K1. cbn [fst] in K1. destruct (Hb j M1 t1 Hj (kp_dom S M M1 D K1 HD)) as [M2 [t2 [E2 K2]]].
    exists (M2, t2). split; [exact E2|]. exact (kp_trans S M M1 M2 K1 K2).
  - exists M', t'. auto.
Qed.

Lemma down_kp2 : forall {T} (D S : Z -> Prop) hi lo (body : Z -> mem * T -> option (mem * T)) M (t : T), lo <= hi + 1 -> dom M D ->
  (forall j M t, lo <= j <= hi -> dom M D -> exists M' t', body j (M, t) = Some (M', t') /\ kp S M M') ->
  exists M' t', for_down hi lo body (M, t) = Some (M', t') /\ kp S M M'.
Proof.
  intros T D S hi lo body M t Hle HD Hb.
  destruct (for_down_inv (fun _ s => kp S M (fst s)) hi lo body (M, t) Hle (kp_refl S M)) as [[M' t'] [E K]].
  - intros j [M1 t1] Hj K1. cbn [fst] in K1. destruct (Hb j M1 t1 Hj (kp_dom S M M1 D K1 HD)) as [M2 [t2 [E2 K2]]].
    exists (M2, t2). split; [exact E2|]. exact (kp_trans S M M1 M2 K1 K2).
  - exists M', t'. auto.
Qed.

Lemma up_def : forall {T} lo hi (body : Z -> T -> option T) t, lo <= hi ->
  (forall j t, lo <= j < hi -> exists t', body j t = Some t') -> exists t', for_up lo hi body t = Some t'.
Proof.
  intros T lo hi body t Hle Hb.
  destruct (for_up_inv (fun _ _ => True) lo hi body t Hle Logic.I) as [t' [E _]].
  - intros j s Hj _. destruct (Hb j s Hj) as [s' E]. exists s'. auto.
  - exists t'. exact E.
Qed.

(** ** Level 1 *)
Lemma copy_kp : forall n x incx y incy M, incy <> 0 -> 
  (forall i, 0 <= i < n -> M (elt x n incx i) <> None) -> (forall i, 0 <= i < n -> M (elt y n incy i) <> None) ->
  (forall i j, 0 <= i < j -> j < n -> elt y n incy i <> elt x n incx j) ->
  exists M', copy n x incx y incy M = Some M' /\ kp (fun p => exists i, 0 <= i < n /\ p = elt y n incy i) M M' /\
    (forall i, 0 <= i < n -> M' (elt y n incy i) = M (elt x n incx i)).
Proof.
  intros n x incx y incy M Hi Hx Hy Ho.
  destruct (vec_of M x n incx Hx) as [X HX]. destruct (vec_of M y n incy Hy) as [Y HY].
  destruct (copy_spec n x incx y incy M X Y HX HY Hi Ho) as [M' [E [HY' Hk]]].
  exists M'. split; [exact E|]. split; [exact (only_kp M M' y n incy X HY' Hk)|].
  intros i Hi'. rewrite (HY' i Hi'). symmetry. apply HX, Hi'.
Qed.

Lemma axpy_kp : forall n (a : N) x incx y incy M, incy <> 0 -> 
  (forall i, 0 <= i < n -> M (elt x n incx i) <> None) -> (forall i, 0 <= i < n -> M (elt y n incy i) <> None) ->
  (forall i j, 0 <= i < j -> j < n -> elt y n incy i <> elt x n incx j) ->
  exists M', axpy n a x incx y incy M = Some M' /\ kp (fun p => exists i, 0 <= i < n /\ p = elt y n incy i) M M'.
Proof.
  intros n a x incx y incy M Hi Hx Hy Ho.
  destruct (vec_of M x n incx Hx) as [X HX]. destruct (vec_of M y n incy Hy) as [Y HY].
  destruct (axpy_spec n a x incx y incy M X Y HX HY Hi Ho) as [M' [E [HY' Hk]]].
  exists M'. split; [exact E|]. exact (only_kp M M' y n incy _ HY' Hk).
Qed.

Lemma scal_kp : forall n (a : N) x incx M, 1 <= incx -> (forall i, 0 <= i < n -> M (elt x n incx i) <> None) ->
  exists M', scal n a x incx M = Some M' /\ kp (fun p => exists i, 0 <= i < n /\ p = elt x n incx i) M M'.
Proof.
  intros n a x incx M Hi Hx.
  destruct (vec_of M x n incx Hx) as [X HX].
  destruct (scal_spec n a x incx M X Hi HX) as [M' [E [HY' Hk]]].
  exists M'. split; [exact E|]. exact (only_kp M M' x n incx _ HY' Hk).
Qed.

Lemma minmax_def : forall lo n x M (s : N * N), lo <= n -> (forall i, lo <= i < n -> M (x + i) <> None) ->
  exists s', for_up lo n (minmax M x) s = Some s'.
Proof.
  intros lo n x M s Hle Hd. apply up_def; [exact Hle|]. intros j [a b] Hj. unfold minmax.
  specialize (Hd j Hj). destruct (M (x + j)); [|congruence]. eexists; reflexivity.
Qed.

Lemma nrm2_def : forall n x M, (forall i, 0 <= i < n -> M (x + i) <> None) -> exists v, nrm2 n x 1 M = Some v.
Proof.
  intros n x M Hd. unfold nrm2. destruct (Z.ltb_spec n 1) as [Hn|Hn]; cbn [orb]; [eexists; reflexivity|].
  change (1 <? 1) with false. cbv iota.
  assert (H0 := Hd 0 ltac:(lia)). replace (x + 0) with x in H0 by lia. destruct (M x) as [x0|]; [|congruence].
  change (1 =? 1) with true. cbv iota.
  destruct (minmax_def 1 n x M (x0, x0) ltac:(lia)) as [[a b] E]; [intros; apply Hd; lia|]. rewrite E.
  destruct (_ <=? ZERO)%num; [eexists; reflexivity|].
  match goal with |- context [for_up 0 n ?body ?s] => destruct (up_def 0 n body s ltac:(lia)) as [s' E'] end.
  - intros j t Hj. specialize (Hd j Hj). destruct (M (x + j)); [|congruence]. eexists; reflexivity.
  - rewrite E'. eexists; reflexivity.
Qed.

Lemma unroll_def : forall {T} n (op : Z -> T -> option T) s, 0 <= n ->
  (forall j t, 0 <= j < n -> exists t', op j t = Some t') -> exists s', unroll_4b n op s = Some s'.
Proof.
  intros T n op s Hn Hop.
  destruct (unroll_4b_inv (fun _ _ => True) n op s Hn Logic.I) as [s' [E _]].
  - intros j t0 t1 t2 t3 Hj _. destruct (Hop j t0 Hj) as [t' E]. exists t'. auto.
  - intros j t0 t1 t2 t3 Hj _. destruct (Hop j t1 Hj) as [t' E]. exists t'. auto.
  - intros j t0 t1 t2 t3 Hj _. destruct (Hop j t2 Hj) as [t' E]. exists t'. auto.
  - intros j t0 t1 t2 t3 Hj _. destruct (Hop j t3 Hj) as [t' E]. exists t'. auto.
  - exists s'. exact E.
Qed.

Lemma asum_def : forall n x M, (forall i, 0 <= i < n -> M (x + i) <> None) -> exists v, asum n x 1 M = Some v.
Proof.
  intros n x M Hd. unfold asum, sum_by. destruct (Z.ltb_spec n 1) as [Hn|Hn]; cbn [orb]; [eexists; reflexivity|].
  change (1 <? 1) with false. change (1 =? 1) with true. cbv iota zeta.
  match goal with |- context [unroll_4b n ?op ?s] => destruct (unroll_def n op s ltac:(lia)) as [[[[t0 t1] t2] t3] E] end.
  - intros j t Hj. specialize (Hd j Hj). destruct (M (x + j)); [|congruence]. eexists; reflexivity.
  - rewrite E. eexists; reflexivity.
Qed.

Lemma dot_def : forall n x y M, (forall i, 0 <= i < n -> M (x + i) <> None) -> (forall i, 0 <= i < n -> M (y + i) <> None) ->
  exists v, dot n x 1 y 1 M = Some v.
Proof.
  intros n x y M Hx Hy. unfold dot. destruct (Z.leb_spec n 0) as [Hn|Hn]; [eexists; reflexivity|].
  change (1 =? 1) with true. cbv iota.
  match goal with |- context [unroll_4b n ?op ?s] => destruct (unroll_def n op s ltac:(lia)) as [[[[t0 t1] t2] t3] E] end.
  - intros j t Hj. unfold dot_op. specialize (Hx j Hj). specialize (Hy j Hj).
    destruct (M (x + j)); [|congruence]. destruct (M (y + j)); [|congruence]. eexists; reflexivity.
  - rewrite E. eexists; reflexivity.
Qed.

Lemma mod_kp : forall (f : N -> N) p M, M p <> None ->
  exists M', (do v <- M p; store M p (f v)) = Some M' /\ kp (fun q => q = p) M M'.
Proof.
  intros f p M Hp. destruct (M p) as [v|] eqn:E; [|congruence]. apply st_ok. rewrite E. discriminate.
Qed.

(** ** Level 2: triangular systems *)
Lemma trsv_tu_kp : forall n a lda x M, 0 <= n <= lda -> 1 <= lda ->
  (forall i j, 0 <= i <= j -> j < n -> M (entry a lda i j) <> None) -> (forall i, 0 <= i < n -> M (x + i) <> None) ->
  exists M', trsv UPPER TRANS NON_UNIT n a lda x 1 M = Some (0, M') /\ kp (V x n) M M'.
Proof.
  intros n a lda x M Hn Hl Ha Hx. unfold trsv.
  change (negb ((UPPER =? UPPER) || (UPPER =? LOWER))) with false.
  change (negb ((TRANS =? NO_TRANS) || (TRANS =? TRANS) || (TRANS =? CONJ_TRANS))) with false.
  change (negb ((NON_UNIT =? NON_UNIT) || (NON_UNIT =? UNIT))) with false. cbv iota.
  destruct (Z.ltb_spec n 0); [lia|]. destruct (Z.ltb_spec lda (Z.max 1 n)); [lia|]. change (1 =? 0) with false. cbv iota.
  destruct (Z.eqb_spec n 0); [exists M; split; [reflexivity|apply kp_refl]|].
  change (TRANS =? NO_TRANS) with false. change (UPPER =? UPPER) with true. change (NON_UNIT =? NON_UNIT) with true. cbv iota zeta.
  unfold trsv_tu. change (1 =? 1) with true. cbv iota.
  set (D := fun p => (exists i j, 0 <= i <= j /\ j < n /\ p = entry a lda i j) \/ V x n p).
  assert (HD : dom M D) by (intros p [[i [j [Q1 [Q2 ->]]]]|[i [Hi ->]]]; auto).
  match goal with |- context [for_up 1 (n + 1) ?body M] => destruct (up_kp D (V x n) 1 (n + 1) body M ltac:(lia) HD) as [M' [E K]] end.
  - intros j M1 Hj HD1.
    destruct (rd M1 D (x + (j - 1)) HD1) as [t Et]; [right; exists (j - 1); split; [lia|reflexivity]|]. rewrite Et.
    match goal with |- context [for_up 1 j ?body t] => destruct (up_def 1 j body t ltac:(lia)) as [t2 E2] end.
    { intros i u Hi.
      destruct (rd M1 D (a + (i - 1 + lda * (j - 1))) HD1) as [u1 E1]; [left; exists (i - 1), (j - 1); repeat split; try lia|].
      destruct (rd M1 D (x + (i - 1)) HD1) as [u2 E2]; [right; exists (i - 1); split; [lia|reflexivity]|].
      rewrite E1, E2. eexists; reflexivity. }
    rewrite E2.
    destruct (rd M1 D (a + (j - 1 + lda * (j - 1))) HD1) as [u1 E1]; [left; exists (j - 1), (j - 1); repeat split; try lia|].
    rewrite E1. destruct (st_ok M1 (x + (j - 1)) (t2 / u1)%num) as [M2 [E3 K3]]; [rewrite Et; discriminate|].
    exists M2. split; [exact E3|]. eapply kp_weak; [|exact K3]. intros p ->. exists (j - 1). split; [lia|reflexivity].
  - rewrite E. exists M'. auto.
Qed.

Lemma trsv_nu_kp : forall n a lda x M, 0 <= n <= lda -> 1 <= lda ->
  (forall i j, 0 <= i <= j -> j < n -> M (entry a lda i j) <> None) -> (forall i, 0 <= i < n -> M (x + i) <> None) ->
  exists M', trsv UPPER NO_TRANS NON_UNIT n a lda x 1 M = Some (0, M') /\ kp (V x n) M M'.
Proof.
  intros n a lda x M Hn Hl Ha Hx. unfold trsv.
  change (negb ((UPPER =? UPPER) || (UPPER =? LOWER))) with false.
  change (negb ((NO_TRANS =? NO_TRANS) || (NO_TRANS =? TRANS) || (NO_TRANS =? CONJ_TRANS))) with false.
  change (negb ((NON_UNIT =? NON_UNIT) || (NON_UNIT =? UNIT))) with false. cbv iota.
  destruct (Z.ltb_spec n 0); [lia|]. destruct (Z.ltb_spec lda (Z.max 1 n)); [lia|]. change (1 =? 0) with false. cbv iota.
  destruct (Z.eqb_spec n 0); [exists M; split; [reflexivity|apply kp_refl]|].
  change (NO_TRANS =? NO_TRANS) with true. change (UPPER =? UPPER) with true. change (NON_UNIT =? NON_UNIT) with true. cbv iota zeta.
  unfold trsv_nu. change (1 =? 1) with true. cbv iota.
  set (D := fun p => (exists i j, 0 <= i <= j /\ j < n /\ p = entry a lda i j) \/ V x n p).
  assert (HD : dom M D) by (intros p [[i [j [Q1 [Q2 ->]]]]|[i [Hi ->]]]; auto).
  match goal with |- context [for_down n 1 ?body M] => destruct (down_kp D (V x n) n 1 body M ltac:(lia) HD) as [M' [E K]] end.
  - intros j M1 Hj HD1.
    assert (Vj : V x n (x + (j - 1))) by (exists (j - 1); split; [lia|reflexivity]).
    destruct (rd M1 D (x + (j - 1)) HD1) as [t Et]; [right; exact Vj|]. rewrite Et.
    destruct (negb (t =? ZERO)%num); [|exists M1; split; [reflexivity|apply kp_refl]].
    destruct (rd M1 D (a + (j - 1 + lda * (j - 1))) HD1) as [u1 E1]; [left; exists (j - 1), (j - 1); repeat split; try lia|].
    rewrite E1. destruct (st_ok M1 (x + (j - 1)) (t / u1)%num) as [M2 [E3 K3]]; [rewrite Et; discriminate|].
    rewrite E3.
    assert (K4 : kp (V x n) M1 M2) by (eapply kp_weak; [|exact K3]; intros p ->; exact Vj).
    assert (HD2 := kp_dom _ _ _ _ K4 HD1).
    destruct (rd M2 D (x + (j - 1)) HD2) as [t2 Et2]; [right; exact Vj|]. rewrite Et2.
    match goal with |- context [for_down (j - 1) 1 ?body M2] => destruct (down_kp D (V x n) (j - 1) 1 body M2 ltac:(lia) HD2) as [M3 [E5 K5]] end.
    { intros i M5 Hi HD5.
      destruct (rd M5 D (a + (i - 1 + lda * (j - 1))) HD5) as [u2 E2]; [left; exists (i - 1), (j - 1); repeat split; try lia|].
      rewrite E2. unfold sub_cell. destruct (mod_kp (fun v => (v - t2 * u2)%num) (x + (i - 1)) M5) as [M6 [E6 K6]].
      { apply HD5. right. exists (i - 1). split; [lia|reflexivity]. }
      exists M6. split; [exact E6|]. eapply kp_weak; [|exact K6]. intros p ->. exists (i - 1). split; [lia|reflexivity]. }
    exists M3. split; [exact E5|]. exact (kp_trans _ _ _ _ K4 K5).
  - rewrite E. exists M'. auto.
Qed.

(** ** The Cholesky factorization of the upper triangle *)

(** OPK_GEMV as called by OPK_POTF2 *)
Lemma gemv_t_kp : forall m k (al be : N) a lda x y incy M, 0 <= m -> 0 <= k -> m <= lda -> 1 <= lda -> 1 <= incy ->
  (forall i j, 0 <= i < m -> 0 <= j < k -> M (entry a lda i j) <> None) -> (forall i, 0 <= i < m -> M (x + i) <> None) ->
  (forall j, 0 <= j < k -> M (y + j * incy) <> None) ->
  exists c M', gemv TRANS m k al a lda x 1 be y incy M = Some (c, M') /\ kp (fun p => exists j, 0 <= j < k /\ p = y + j * incy) M M'.
Proof.
  intros m k al be a lda x y incy M Hm Hk Hl Hl1 Hi Ha Hx Hy. unfold gemv.
  change (TRANS =? NO_TRANS) with false. change (TRANS =? TRANS) with true. cbn [orb negb].
  destruct (Z.ltb_spec m 0); [lia|]. destruct (Z.ltb_spec k 0); [lia|].
  destruct (Z.ltb_spec lda m); [lia|]. destruct (Z.ltb_spec lda 1); [lia|]. cbn [orb]. change (1 =? 0) with false. cbv iota.
  destruct (Z.eqb_spec incy 0); [lia|].
  destruct (_ || _ || _)%bool; [exists 0, M; split; [reflexivity|apply kp_refl]|].
  cbv zeta.
  set (S := fun p => exists j, 0 <= j < k /\ p = y + j * incy).
  set (D := fun p => (exists i j, 0 <= i < m /\ 0 <= j < k /\ p = entry a lda i j) \/ V x m p \/ S p).
  assert (HD : dom M D) by (intros p [[i [j [Q1 [Q2 ->]]]]|[[i [Hi' ->]]|[i [Hi' ->]]]]; auto).
  assert (Sy : start0 k incy = 0) by (unfold start0; destruct (Z.geb_spec incy 0); lia).
  assert (Sx : start0 m 1 = 0) by reflexivity.
  (* y := beta*y *)
  assert (B1 : exists M1, gemv_beta k be (fun a1 : Z => y + a1) incy (start0 k incy) M = Some M1 /\ kp S M M1).
  { assert (Cell : forall j (f : N -> N) M1, 0 <= j < k -> dom M1 D ->
              exists M2, (do v <- M1 (y + j * incy); store M1 (y + j * incy) (f v)) = Some M2 /\ kp S M1 M2).
    { intros j f M1 Hj HD1. destruct (mod_kp f (y + j * incy) M1) as [M2 [E2 K2]].
      - apply HD1. right. right. exists j. auto.
      - exists M2. split; [exact E2|]. eapply kp_weak; [|exact K2]. intros p ->. exists j. auto. }
    assert (Cell0 : forall j (v : N) M1, 0 <= j < k -> dom M1 D ->
              exists M2, store M1 (y + j * incy) v = Some M2 /\ kp S M1 M2).
    { intros j v M1 Hj HD1. destruct (st_ok M1 (y + j * incy) v) as [M2 [E2 K2]].
      - apply HD1. right. right. exists j. auto.
      - exists M2. split; [exact E2|]. eapply kp_weak; [|exact K2]. intros p ->. exists j. auto. }
    unfold gemv_beta. destruct (negb (be =? ONE)%num); [|exists M; split; [reflexivity|apply kp_refl]].
    destruct (Z.eqb_spec incy 1) as [->|Hne].
    - destruct (be =? ZERO)%num.
      + apply (up_kp D S); [lia|exact HD|]. intros j M1 Hj HD1. unfold zero_cell.
        destruct (Cell0 j ZERO M1 Hj HD1) as [M2 [E2 K2]]. exists M2. replace (y + j * 1) with (y + j) in E2 by lia. auto.
      + apply (up_kp D S); [lia|exact HD|]. intros j M1 Hj HD1. unfold mul_cell.
        destruct (Cell j (fun v => (v * be)%num) M1 Hj HD1) as [M2 [E2 K2]]. exists M2.
        replace (y + j * 1) with (y + j) in E2 by lia. auto.
    - destruct (be =? ZERO)%num.
      + rewrite (for_up_run 0 k _ (fun j ix M => zero_cell (y + ix) M) (fun j => start0 k incy + j * incy) _ _ incy);
          [|intros; reflexivity|intros; lia].
        apply (up_kp D S); [lia|exact HD|]. intros j M1 Hj HD1. rewrite Sy. unfold zero_cell.
        replace (y + (0 + j * incy)) with (y + j * incy) by lia. apply Cell0; assumption.
      + rewrite (for_up_run 0 k _ (fun j ix M => mul_cell (y + ix) be M) (fun j => start0 k incy + j * incy) _ _ incy);
          [|intros; reflexivity|intros; lia].
        apply (up_kp D S); [lia|exact HD|]. intros j M1 Hj HD1. rewrite Sy. unfold mul_cell.
        replace (y + (0 + j * incy)) with (y + j * incy) by lia. apply (Cell j (fun v => (v * be)%num)); assumption. }
  destruct B1 as [M1 [E1 K1]]. rewrite E1. assert (HD1 := kp_dom _ _ _ _ K1 HD).
  destruct (negb (al =? ZERO)%num); [|exists 0, M1; split; [reflexivity|exact K1]].
  unfold gemv_t. change (1 =? 1) with true. cbv iota.
  match goal with |- context [for_up 0 k ?body ?s] =>
    destruct (for_up_inv (fun j st => kp S M1 (fst st) /\ snd st = j * incy) 0 k body s) as [[M2 iy] [E2 [K2 _]]] end.
  - lia.
  - cbn [fst snd]. split; [apply kp_refl|rewrite Sy; lia].
  - intros j [M2 iy] Hj [K2 Hiy]. cbn [fst snd] in *. subst iy. assert (HD2 := kp_dom _ _ _ _ K2 HD1).
    match goal with |- context [for_up 0 m ?body ?s] => destruct (up_def 0 m body s ltac:(lia)) as [t Et] end.
    { intros i t Hi'.
      destruct (rd M2 D (a + (j * lda + i)) HD2) as [u1 F1]; [left; exists i, j; unfold entry; repeat split; try lia|].
      destruct (rd M2 D (x + i) HD2) as [u2 F2]; [right; left; exists i; auto|]. rewrite F1, F2. eexists; reflexivity. }
    rewrite Et. unfold add_cell.
    destruct (mod_kp (fun v => (v + al * t)%num) (y + j * incy) M2) as [M3 [E3 K3]].
    { apply HD2. right. right. exists j. auto. }
    rewrite E3. eexists. split; [reflexivity|]. cbn [fst snd]. split; [|lia].
    apply (kp_trans _ _ _ _ K2). eapply kp_weak; [|exact K3]. intros p ->. exists j. auto.
  - rewrite E2. cbn [fst] in K2. exists 0, M2. split; [reflexivity|]. exact (kp_trans _ _ _ _ K1 K2).
Qed.

Definition Up (a lda n : Z) (p : Z) : Prop := exists i j, 0 <= i <= j /\ j < n /\ p = entry a lda i j.

Lemma potf2_kp : forall n a lda M, 0 <= n <= lda -> 1 <= lda ->
  (forall i j, 0 <= i <= j -> j < n -> M (entry a lda i j) <> None) ->
  exists r M', potf2 UPPER n a lda M = Some (r, M') /\ 0 <= r <= n /\ kp (Up a lda n) M M'.
Proof.
  intros n a lda M Hn Hl Ha. unfold potf2.
  destruct (Z.ltb_spec n 0); [lia|]. destruct (Z.ltb_spec lda 1); [lia|]. destruct (Z.ltb_spec lda n); [lia|]. cbn [orb].
  destruct (Z.eqb_spec n 0); [exists 0, M; split; [reflexivity|split; [lia|apply kp_refl]]|].
  change (UPPER =? UPPER) with true. cbv iota zeta.
  assert (HD : dom M (Up a lda n)) by (intros p [i [j [Q1 [Q2 ->]]]]; auto).
  unfold LaModel.mem.
  match goal with |- context [for_up 1 (n + 1) ?body ?s] => set (bd := body);
    destruct (for_up_inv (fun j st => kp (Up a lda n) M (fst st) /\ match snd st with Some r => 1 <= r <= n | None => True end)
                1 (n + 1) bd s) as [[M2 ret] [E2 [K2 R2]]] end.
  - lia.
  - cbn [fst snd]. split; [apply kp_refl|exact Logic.I].
  - intros j [M1 [r|]] Hj [K1 R1]; cbn [fst snd] in *; unfold bd; cbv beta iota; [exists (M1, Some r); auto|].
    assert (HD1 := kp_dom _ _ _ _ K1 HD).
    assert (Hin : forall i c, 0 <= i <= c -> c < n -> Up a lda n (a + (i + lda * c))) by (intros i c Q1 Q2; exists i, c; auto).
    destruct (rd M1 _ (a + (j - 1 + lda * (j - 1))) HD1) as [v Ev]; [apply Hin; lia|]. rewrite Ev.
    destruct (dot_def (j - 1) (a + (1 - 1 + lda * (j - 1))) (a + (1 - 1 + lda * (j - 1))) M1) as [d Ed].
    { intros i Hi. apply HD1. replace (a + (1 - 1 + lda * (j - 1)) + i) with (a + (i + lda * (j - 1))) by lia. apply Hin; lia. }
    { intros i Hi. apply HD1. replace (a + (1 - 1 + lda * (j - 1)) + i) with (a + (i + lda * (j - 1))) by lia. apply Hin; lia. }
    rewrite Ed.
    assert (St : forall w, exists M3, store M1 (a + (j - 1 + lda * (j - 1))) w = Some M3 /\ kp (Up a lda n) M1 M3).
    { intros w. destruct (st_ok M1 (a + (j - 1 + lda * (j - 1))) w) as [M3 [E3 K3]]; [rewrite Ev; discriminate|].
      exists M3. split; [exact E3|]. eapply kp_weak; [|exact K3]. intros p ->. apply Hin; lia. }
    destruct (v - d <=? ZERO)%num.
    { destruct (St (v - d)%num) as [M3 [E3 K3]]. rewrite E3. exists (M3, Some j). split; [reflexivity|]. cbn [fst snd].
      split; [exact (kp_trans _ _ _ _ K1 K3)|lia]. }
    destruct (St (nsqrt (v - d)%num)) as [M3 [E3 K3]]. rewrite E3. assert (HD3 := kp_dom _ _ _ _ K3 HD1).
    destruct (Z.ltb_spec j n) as [Hjn|Hjn].
    + destruct (gemv_t_kp (j - 1) (n - j) (nopp ONE) ONE (a + (1 - 1 + lda * (j + 1 - 1))) lda (a + (1 - 1 + lda * (j - 1)))
                  (a + (j - 1 + lda * (j + 1 - 1))) lda M3) as [c [M4 [E4 K4]]]; try lia.
      { intros i k Hi Hk. unfold entry. apply HD3.
        replace (a + (1 - 1 + lda * (j + 1 - 1)) + (i + lda * k)) with (a + (i + lda * (j + k))) by lia. apply Hin; lia. }
      { intros i Hi. apply HD3. replace (a + (1 - 1 + lda * (j - 1)) + i) with (a + (i + lda * (j - 1))) by lia. apply Hin; lia. }
      { intros k Hk. apply HD3.
        replace (a + (j - 1 + lda * (j + 1 - 1)) + k * lda) with (a + (j - 1 + lda * (j + k))) by lia. apply Hin; lia. }
      rewrite E4.
      assert (K4' : kp (Up a lda n) M3 M4).
      { eapply kp_weak; [|exact K4]. intros p [k [Hk ->]].
        replace (a + (j - 1 + lda * (j + 1 - 1)) + k * lda) with (a + (j - 1 + lda * (j + k))) by lia. apply Hin; lia. }
      assert (HD4 := kp_dom _ _ _ _ K4' HD3).
      destruct (scal_kp (n - j) (ONE / nsqrt (v - d))%num (a + (j - 1 + lda * (j + 1 - 1))) lda M4) as [M5 [E5 K5]]; [lia| |].
      { intros k Hk. apply HD4. rewrite elt_pos by lia.
        replace (a + (j - 1 + lda * (j + 1 - 1)) + k * lda) with (a + (j - 1 + lda * (j + k))) by lia. apply Hin; lia. }
      rewrite E5. exists (M5, None). split; [reflexivity|]. cbn [fst snd]. split; [|exact Logic.I].
      apply (kp_trans _ _ _ _ K1). apply (kp_trans _ _ _ _ K3). apply (kp_trans _ _ _ _ K4').
      eapply kp_weak; [|exact K5]. intros p [k [Hk ->]]. rewrite elt_pos by lia.
      replace (a + (j - 1 + lda * (j + 1 - 1)) + k * lda) with (a + (j - 1 + lda * (j + k))) by lia. apply Hin; lia.
    + exists (M3, None). split; [reflexivity|]. cbn [fst snd]. split; [exact (kp_trans _ _ _ _ K1 K3)|exact Logic.I].
  - rewrite E2. cbn [fst snd] in *. eexists. exists M2. split; [reflexivity|]. split; [|exact K2].
    destruct ret; lia.
Qed.
End Safe.
