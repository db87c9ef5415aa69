(** * gqtpar.c, any arithmetic: no access out of the arrays, termination, and the matrix A is restored *)
From Coq Require Import ZArith List Bool Lia.
From Verif Require Import Base Num LaModel LaLoops LaSpec LaMem LaBlas1 GqModel GqSafe.
Import ListNotations.
Local Open Scope Z_scope.

Section Run.
Context {N : Num}.
Notation mem := (Z -> option N).
Implicit Types (M : Z -> option N).

Lemma kp_one : forall (S : Z -> Prop) p M M', S p -> kp (fun q => q = p) M M' -> kp S M M'.
Proof. intros S p M M' Hp K. eapply kp_weak; [|exact K]. intros q ->. exact Hp. Qed.

Lemma kp_elt1 : forall y n m off M M', 0 <= off -> off + m <= n ->
  kp (fun p => exists i, 0 <= i < m /\ p = elt (y + off) m 1 i) M M' -> kp (V y n) M M'.
Proof.
  intros y n m off M M' H1 H2 K. eapply kp_weak; [|exact K]. intros p [i [Hi ->]]. rewrite elt_1.
  exists (off + i). split; lia.
Qed.

Lemma kp_elt0 : forall y n m M M', m <= n ->
  kp (fun p => exists i, 0 <= i < m /\ p = elt y m 1 i) M M' -> kp (V y n) M M'.
Proof.
  intros y n m M M' H2 K. eapply kp_weak; [|exact K]. intros p [i [Hi ->]]. rewrite elt_1. exists i. split; lia.
Qed.

(** ** OPK_ESTSV *)
Section Est.
Variables (n r ldr z : Z).
Hypothesis Hn : 1 <= n <= ldr.
Hypothesis Hap : forall p, Up r ldr n p -> ~ V z n p.
Let D (p : Z) : Prop := Up r ldr n p \/ V z n p.

Lemma in_r : forall i j, 1 <= i <= j -> j <= n -> D (r + (i - 1 + ldr * (j - 1))).
Proof. intros i j H1 H2. left. exists (i - 1), (j - 1). unfold entry. repeat split; lia. Qed.
Lemma in_zv : forall i, 1 <= i <= n -> V z n (z + (i - 1)).
Proof. intros i H1. exists (i - 1). split; [lia|reflexivity]. Qed.
Lemma in_z : forall i, 1 <= i <= n -> D (z + (i - 1)).
Proof. intros i H1. right. apply in_zv, H1. Qed.

Lemma scal_z : forall t M, dom M D -> exists M', scal n t z 1 M = Some M' /\ kp (V z n) M M'.
Proof.
  intros t M HD. destruct (scal_kp n t z 1 M) as [M' [E K]]; [lia| |].
  - intros i Hi. rewrite elt_1. apply HD. right. exists i. auto.
  - exists M'. split; [exact E|]. eapply kp_elt0; [|exact K]. lia.
Qed.

Lemma axpy_row : forall i t M, 1 <= i < n -> dom M D ->
  exists M', axpy (n - i) t (r + (i - 1 + ldr * (i + 1 - 1))) ldr (z + (i + 1 - 1)) 1 M = Some M' /\ kp (V z n) M M'.
Proof.
  intros i t M Hi HD.
  destruct (axpy_kp (n - i) t (r + (i - 1 + ldr * (i + 1 - 1))) ldr (z + (i + 1 - 1)) 1 M) as [M' [E K]]; [lia| | | |].
  - intros k Hk. rewrite elt_pos by lia. apply HD.
    replace (r + (i - 1 + ldr * (i + 1 - 1)) + k * ldr) with (r + (i - 1 + ldr * (i + 1 + k - 1))) by lia. apply in_r; lia.
  - intros k Hk. rewrite elt_1. apply HD. replace (z + (i + 1 - 1) + k) with (z + (i + 1 + k - 1)) by lia. apply in_z; lia.
  - intros k l Hk Hl. rewrite elt_1, elt_pos by lia. intros E. 
    assert (U : Up r ldr n (r + (i - 1 + ldr * (i + 1 + l - 1)))) by (exists (i - 1), (i + l); unfold entry; repeat split; lia).
    apply (Hap _ U). replace (r + (i - 1 + ldr * (i + 1 + l - 1))) with (r + (i - 1 + ldr * (i + 1 - 1)) + l * ldr) by lia.
    rewrite <- E. exists (i + k). split; lia.
  - exists M'. split; [exact E|]. eapply (kp_elt1 z n (n - i) (i + 1 - 1)); [lia|lia|exact K].
Qed.

Lemma est_forward_kp : forall i M e, 1 <= i <= n -> dom M D ->
  exists M' e', est_forward n r ldr z i (M, e) = Some (M', e') /\ kp (V z n) M M'.
Proof.
  intros i M e Hi HD. unfold est_forward.
  destruct (rd M D _ HD (in_z i Hi)) as [zi Ezi]. rewrite Ezi.
  destruct (rd M D _ HD (in_r i i ltac:(lia) ltac:(lia))) as [rii Er]. rewrite Er.
  match goal with |- context [if (nabs rii <? ?c)%num then ?A else ?B] =>
    assert (P1 : exists M1 e1, (if (nabs rii <? c)%num then A else B) = Some (M1, e1) /\ kp (V z n) M M1) end.
  { destruct (nabs rii <? _)%num.
    - match goal with |- context [scal n ?t z 1 M] => destruct (scal_z t M HD) as [M1 [E1 K1]] end.
      rewrite E1. eexists. eexists. split; [reflexivity|exact K1].
    - eexists. eexists. split; [reflexivity|apply kp_refl]. }
  destruct P1 as [M1 [e1 [-> K1]]]. assert (HD1 := kp_dom _ _ _ _ K1 HD).
  destruct (rd M1 D _ HD1 (in_z i Hi)) as [zi1 Ezi1]. rewrite Ezi1.
  destruct (if (rii =? ZERO)%num then _ else _) as [w wm].
  match goal with |- context [for_up (i + 1) (n + 1) ?body ?s] => destruct (up_def (i + 1) (n + 1) body s ltac:(lia)) as [sm Esm] end.
  { intros j t Hj. destruct (rd M1 D _ HD1 (in_z j ltac:(lia))) as [zj Ezj]. rewrite Ezj.
    destruct (rd M1 D _ HD1 (in_r i j ltac:(lia) ltac:(lia))) as [rij Erij]. rewrite Erij. eexists; reflexivity. }
  rewrite Esm.
  match goal with |- context [if i <? n then ?A else ?B] =>
    assert (P2 : exists M2 e2, (if i <? n then A else B) = Some (M2, e2) /\ kp (V z n) M1 M2) end.
  { destruct (Z.ltb_spec i n) as [Hin|Hin].
    - destruct (axpy_row i w M1 ltac:(lia) HD1) as [M2 [E2 K2]]. rewrite E2.
      assert (HD2 := kp_dom _ _ _ _ K2 HD1).
      destruct (asum_def (n - i) (z + (i + 1 - 1)) M2) as [v Ev].
      { intros k Hk. apply HD2. replace (z + (i + 1 - 1) + k) with (z + (i + 1 + k - 1)) by lia. apply in_z; lia. }
      rewrite Ev. eexists. eexists. split; [reflexivity|exact K2].
    - eexists. eexists. split; [reflexivity|apply kp_refl]. }
  destruct P2 as [M2 [s2 [-> K2]]]. assert (HD2 := kp_dom _ _ _ _ K2 HD1).
  match goal with |- context [if (s2 <? sm)%num then ?A else ?B] =>
    assert (P3 : exists M3 e3, (if (s2 <? sm)%num then A else B) = Some (M3, e3) /\ kp (V z n) M2 M3) end.
  { destruct (s2 <? sm)%num; [|eexists; eexists; split; [reflexivity|apply kp_refl]].
    destruct (Z.ltb_spec i n) as [Hin|Hin]; cbn [andb]; [|eexists; eexists; split; [reflexivity|apply kp_refl]].
    destruct (negb _); [|eexists; eexists; split; [reflexivity|apply kp_refl]].
    match goal with |- context [axpy (n - i) ?t _ _ _ _ M2] => destruct (axpy_row i t M2 ltac:(lia) HD2) as [M3 [E3 K3]] end.
    rewrite E3. eexists. eexists. split; [reflexivity|exact K3]. }
  destruct P3 as [M3 [w3 [-> K3]]]. assert (HD3 := kp_dom _ _ _ _ K3 HD2).
  destruct (st_ok M3 (z + (i - 1)) w3) as [M4 [E4 K4]]; [apply HD3, in_z, Hi|]. rewrite E4.
  exists M4, e1. split; [reflexivity|].
  eapply kp_trans; [exact K1|]. eapply kp_trans; [exact K2|]. eapply kp_trans; [exact K3|].
  eapply kp_one; [|exact K4]. apply in_zv, Hi.
Qed.

Lemma est_backward_kp : forall j M y, 1 <= j <= n -> dom M D ->
  exists M' y', est_backward n r ldr z j (M, y) = Some (M', y') /\ kp (V z n) M M'.
Proof.
  intros j M y Hj HD. unfold est_backward.
  destruct (rd M D _ HD (in_z j Hj)) as [zj Ezj]. rewrite Ezj.
  destruct (rd M D _ HD (in_r j j ltac:(lia) ltac:(lia))) as [rjj Er]. rewrite Er.
  match goal with |- context [if (nabs rjj <? ?c)%num then ?A else ?B] =>
    assert (P1 : exists M1 e1, (if (nabs rjj <? c)%num then A else B) = Some (M1, e1) /\ kp (V z n) M M1) end.
  { destruct (nabs rjj <? _)%num.
    - match goal with |- context [scal n ?t z 1 M] => destruct (scal_z t M HD) as [M1 [E1 K1]] end.
      rewrite E1. eexists. eexists. split; [reflexivity|exact K1].
    - eexists. eexists. split; [reflexivity|apply kp_refl]. }
  destruct P1 as [M1 [e1 [-> K1]]]. assert (HD1 := kp_dom _ _ _ _ K1 HD).
  destruct (rd M1 D _ HD1 (in_z j Hj)) as [zj1 Ezj1]. rewrite Ezj1.
  match goal with |- context [store M1 ?p ?v] => destruct (st_ok M1 p v) as [M2 [E2 K2]]; [rewrite Ezj1; discriminate|] end.
  rewrite E2. apply (kp_one (V z n)) in K2; [|apply in_zv, Hj]. assert (HD2 := kp_dom _ _ _ _ K2 HD1).
  destruct (rd M2 D _ HD2 (in_z j Hj)) as [zj2 Ezj2]. rewrite Ezj2.
  destruct (axpy_kp (j - 1) (nopp zj2) (r + (1 - 1 + ldr * (j - 1))) 1 z 1 M2) as [M3 [E3 K3]]; [lia| | | |].
  - intros k Hk. rewrite elt_1. apply HD2.
    replace (r + (1 - 1 + ldr * (j - 1)) + k) with (r + (k + 1 - 1 + ldr * (j - 1))) by lia. apply in_r; lia.
  - intros k Hk. rewrite elt_1. apply HD2. replace (z + k) with (z + (k + 1 - 1)) by lia. apply in_z; lia.
  - intros k l Hk Hl. rewrite !elt_1. intros E.
    assert (U : Up r ldr n (r + (1 - 1 + ldr * (j - 1)) + l)) by (exists l, (j - 1); unfold entry; repeat split; lia).
    apply (Hap _ U). rewrite <- E. exists k. split; lia.
  - rewrite E3. exists M3, e1. split; [reflexivity|].
    eapply kp_trans; [exact K1|]. eapply kp_trans; [exact K2|]. eapply kp_elt0; [|exact K3]. lia.
Qed.

Lemma estsv_kp : forall M, dom M D -> exists s M', estsv n r ldr z M = Some (s, M') /\ kp (V z n) M M'.
Proof.
  intros M HD. unfold estsv, LaModel.mem.
  destruct (up_kp D (V z n) 0 n (fun i => zero_cell (z + i)) M ltac:(lia) HD) as [M1 [E1 K1]].
  { intros j M1 Hj HD1. unfold zero_cell.
    destruct (st_ok M1 (z + j) ZERO) as [M2 [E2 K2]]; [apply HD1; right; exists j; auto|].
    exists M2. split; [exact E2|]. eapply kp_one; [|exact K2]. exists j. auto. }
  rewrite E1. assert (HD1 := kp_dom _ _ _ _ K1 HD).
  destruct (rd M1 D _ HD1 (in_r 1 1 ltac:(lia) ltac:(lia))) as [r11 Er]. rewrite Er.
  destruct (nabs r11 =? ZERO)%num.
  { destruct (st_ok M1 (z + (1 - 1)) ONE) as [M2 [E2 K2]]; [apply HD1, in_z; lia|]. rewrite E2.
    exists ZERO, M2. split; [reflexivity|]. eapply kp_trans; [exact K1|]. eapply kp_one; [|exact K2]. apply in_zv; lia. }
  destruct (up_kp2 D (V z n) 1 (n + 1) (est_forward n r ldr z) M1 (nabs r11) ltac:(lia) HD1) as [M2 [e [E2 K2]]].
  { intros j M2 e Hj HD2. apply est_forward_kp; [lia|exact HD2]. }
  rewrite E2. assert (HD2 := kp_dom _ _ _ _ K2 HD1).
  destruct (nrm2_def n z M2) as [y Ey]; [intros i Hi; apply HD2; right; exists i; auto|]. rewrite Ey.
  destruct (down_kp2 D (V z n) n 1 (est_backward n r ldr z) M2 y ltac:(lia) HD2) as [M3 [y3 [E3 K3]]].
  { intros j M3 t Hj HD3. apply est_backward_kp; [lia|exact HD3]. }
  rewrite E3. assert (HD3 := kp_dom _ _ _ _ K3 HD2).
  destruct (nrm2_def n z M3) as [zn Ezn]; [intros i Hi; apply HD3; right; exists i; auto|]. rewrite Ezn.
  destruct (scal_z (ONE / zn)%num M3 HD3) as [M4 [E4 K4]]. rewrite E4.
  eexists. exists M4. split; [reflexivity|].
  eapply kp_trans; [exact K1|]. eapply kp_trans; [exact K2|]. eapply kp_trans; [exact K3|exact K4].
Qed.
End Est.

(** ** OPK_GQT *)
Section Gqt.
Variables (n a lda b : Z) (delta rtol atol : N) (itmax : Z) (x z wa1 wa2 : Z).
Hypothesis Hn : 1 <= n <= lda.

(** The elements of the matrix *)
Definition Mat (p : Z) : Prop := exists i j, 0 <= i < n /\ 0 <= j < n /\ p = entry a lda i j.

(** The arrays do not overlap *)
Hypothesis Xb : forall p, Mat p -> ~ V b n p.
Hypothesis Xx : forall p, Mat p -> ~ V x n p.
Hypothesis Xz : forall p, Mat p -> ~ V z n p.
Hypothesis X1 : forall p, Mat p -> ~ V wa1 n p.
Hypothesis X2 : forall p, Mat p -> ~ V wa2 n p.
Hypothesis Bx : forall p, V b n p -> ~ V x n p.
Hypothesis Bz : forall p, V b n p -> ~ V z n p.
Hypothesis B1 : forall p, V b n p -> ~ V wa1 n p.
Hypothesis B2 : forall p, V b n p -> ~ V wa2 n p.
Hypothesis XZ : forall p, V x n p -> ~ V z n p.
Hypothesis Y1 : forall p, V x n p -> ~ V wa1 n p.
Hypothesis Y2 : forall p, V x n p -> ~ V wa2 n p.
Hypothesis Z1 : forall p, V z n p -> ~ V wa1 n p.
Hypothesis Z2 : forall p, V z n p -> ~ V wa2 n p.
Hypothesis W12 : forall p, V wa1 n p -> ~ V wa2 n p.

(** All the arrays *)
Definition All (p : Z) : Prop := Mat p \/ V b n p \/ V x n p \/ V z n p \/ V wa1 n p \/ V wa2 n p.
(** What the iterations modify *)
Definition Mod (p : Z) : Prop := Up a lda n p \/ V x n p \/ V z n p \/ V wa2 n p.

Lemma a_in : forall i j, 1 <= i <= n -> 1 <= j <= n -> All (a + (i - 1 + lda * (j - 1))).
Proof. intros i j H1 H2. left. exists (i - 1), (j - 1). unfold entry. repeat split; lia. Qed.
Lemma up_in : forall i j, 1 <= i <= j -> j <= n -> Mod (a + (i - 1 + lda * (j - 1))).
Proof. intros i j H1 H2. left. exists (i - 1), (j - 1). unfold entry. repeat split; lia. Qed.
Lemma up_all : forall p, Up a lda n p -> Mat p.
Proof. intros p [i [j [H1 [H2 ->]]]]. exists i, j. repeat split; lia. Qed.
Lemma mod_all : forall p, Mod p -> All p.
Proof. unfold Mod, All. intros p [H|[H|[H|H]]]; [left; apply up_all, H|tauto|tauto|tauto]. Qed.
Lemma v_in : forall y i, 1 <= i <= n -> V y n (y + (i - 1)).
Proof. intros y i H1. exists (i - 1). split; lia. Qed.
Lemma v_in0 : forall y i, 0 <= i < n -> V y n (y + i).
Proof. intros y i H1. exists i. split; lia. Qed.

Ltac inall := solve [apply a_in; lia | unfold All; right; first
  [left; first [apply v_in; lia|apply v_in0; lia] | right; left; first [apply v_in; lia|apply v_in0; lia] |
   right; right; left; first [apply v_in; lia|apply v_in0; lia] |
   right; right; right; left; first [apply v_in; lia|apply v_in0; lia] |
   right; right; right; right; first [apply v_in; lia|apply v_in0; lia] ] ].

Lemma clear_kp : forall M, dom M All -> exists M', gq_clear n x z M = Some M' /\ kp (fun p => V x n p \/ V z n p) M M' /\
  (forall i, 0 <= i < n -> M' (x + i) = Some ZERO) /\ (forall i, 0 <= i < n -> M' (z + i) = Some ZERO).
Proof.
  intros M HD. unfold gq_clear, LaModel.mem.
  match goal with |- context [for_up 1 (n + 1) ?body M] =>
   destruct (for_up_inv (fun j M' => kp (fun p => V x n p \/ V z n p) M M' /\
     (forall i, 0 <= i < j - 1 -> M' (x + i) = Some ZERO) /\ (forall i, 0 <= i < j - 1 -> M' (z + i) = Some ZERO))
     1 (n + 1) body M) as [M' [E [K [Hx Hz]]]] end.
  - lia.
  - split; [apply kp_refl|]. split; intros; lia.
  - intros j M1 Hj [K [Hx Hz]]. assert (HD1 := kp_dom _ _ _ _ K HD).
    destruct (rd M1 All (x + (j - 1)) HD1 ltac:(inall)) as [u Eu].
    destruct (store_ok M1 (x + (j - 1)) u ZERO Eu) as [M2 [E2 [A2 F2]]]. rewrite E2.
    assert (Hne : z + (j - 1) <> x + (j - 1)).
    { intros E. apply (XZ (x + (j - 1))); [apply v_in; lia|]. rewrite <- E. apply v_in; lia. }
    destruct (rd M1 All (z + (j - 1)) HD1 ltac:(inall)) as [w Ew].
    assert (Ew2 : M2 (z + (j - 1)) = Some w) by (rewrite F2 by exact Hne; exact Ew).
    destruct (store_ok M2 (z + (j - 1)) w ZERO Ew2) as [M3 [E3 [A3 F3]]]. exists M3. split; [exact E3|].
    assert (Xi : forall i k, 0 <= i < n -> 0 <= k < n -> x + i <> z + k).
    { intros i k Hi Hk E. apply (XZ (x + i)); [apply v_in0; lia|]. rewrite E. apply v_in0; lia. }
    split; [|split].
    + split.
      * intros p Hp. rewrite F3, F2; [apply K; exact Hp| |]; intros ->; apply Hp; [left|right]; apply v_in; lia.
      * intros p Hp. destruct (Z.eq_dec p (z + (j - 1))) as [->|H1]; [rewrite A3; discriminate|]. rewrite F3 by exact H1.
        destruct (Z.eq_dec p (x + (j - 1))) as [->|H2]; [rewrite A2; discriminate|]. rewrite F2 by exact H2. apply K, Hp.
    + intros i Hi. rewrite F3 by (apply Xi; lia). destruct (Z.eq_dec i (j - 1)) as [->|Hij]; [exact A2|].
      rewrite F2 by lia. apply Hx. lia.
    + intros i Hi. destruct (Z.eq_dec i (j - 1)) as [->|Hij]; [exact A3|]. rewrite F3 by lia.
      rewrite F2 by (intros E; symmetry in E; revert E; apply Xi; lia). apply Hz. lia.
  - exists M'. split; [exact E|]. split; [exact K|]. split; intros i Hi; [apply Hx|apply Hz]; lia.
Qed.

(** The matrix: the lower triangle, and the upper one *)
Definition Low (p : Z) : Prop := exists i j, 0 <= j < i /\ i < n /\ p = entry a lda i j.

Lemma ent_inj : forall i j i' j', 0 <= i < n -> 0 <= j < n -> 0 <= i' < n -> 0 <= j' < n ->
  entry a lda i j = entry a lda i' j' -> i = i' /\ j = j'.
Proof. intros i j i' j' H1 H2 H3 H4 E. unfold entry in E. assert (j = j') by nia. subst j'. split; lia. Qed.

(** The diagonal is saved in wa1 and the upper triangle in the lower one *)
Lemma save_kp : forall M, dom M All -> exists M', gq_save n a lda wa1 M = Some M' /\ kp (fun p => Low p \/ V wa1 n p) M M' /\
  (forall j, 0 <= j < n -> M' (wa1 + j) = M (entry a lda j j)) /\
  (forall i j, 0 <= j < i -> i < n -> M' (entry a lda i j) = M (entry a lda j i)).
Proof.
  intros M HD. unfold gq_save, LaModel.mem.
  assert (Ed : forall j, elt a n (lda + 1) j = entry a lda j j) by (intros j; rewrite elt_pos by lia; unfold entry; lia).
  destruct (copy_kp n a (lda + 1) wa1 1 M) as [M1 [E1 [K1 C1]]]; [lia| | | |].
  { intros i Hi. rewrite Ed. apply HD. left. exists i, i. repeat split; lia. }
  { intros i Hi. rewrite elt_1. apply HD. inall. }
  { intros i j Hi Hj. rewrite elt_1, Ed. intros E. apply (X1 (entry a lda j j)); [exists j, j; repeat split; lia|].
    rewrite <- E. apply v_in0; lia. }
  rewrite E1.
  assert (K1' : kp (V wa1 n) M M1) by (eapply kp_elt0; [|exact K1]; lia).
  assert (C1' : forall j, 0 <= j < n -> M1 (wa1 + j) = M (entry a lda j j)).
  { intros j Hj. specialize (C1 j Hj). rewrite elt_1, Ed in C1. exact C1. }
  assert (MM : forall i j, 0 <= i < n -> 0 <= j < n -> M1 (entry a lda i j) = M (entry a lda i j)).
  { intros i j Hi Hj. apply K1'. apply X1. exists i, j. auto. }
  match goal with |- context [for_up 1 n ?body M1] =>
    destruct (for_up_inv (fun j M' => kp Low M1 M' /\
      (forall i k, 0 <= k < i -> i < n -> k < j - 1 -> M' (entry a lda i k) = M (entry a lda k i))) 1 n body M1) as [M2 [E2 [K2 C2]]] end.
  - lia.
  - split; [apply kp_refl|]. intros; lia.
  - intros j M2 Hj [K2 C2].
    assert (HD2 : dom M2 All) by (eapply kp_dom; [exact K2|eapply kp_dom; [exact K1'|exact HD]]).
    assert (Ea : forall k, elt (a + (j - 1 + lda * (j + 1 - 1))) (n - j) lda k = entry a lda (j - 1) (j + k))
      by (intros k; rewrite elt_pos by lia; unfold entry; lia).
    assert (Eb : forall k, elt (a + (j + 1 - 1 + lda * (j - 1))) (n - j) 1 k = entry a lda (j + k) (j - 1))
      by (intros k; rewrite elt_1; unfold entry; lia).
    destruct (copy_kp (n - j) (a + (j - 1 + lda * (j + 1 - 1))) lda (a + (j + 1 - 1 + lda * (j - 1))) 1 M2) as [M3 [E3 [K3 C3]]]; [lia| | | |].
    { intros i Hi. rewrite Ea. apply HD2. left. exists (j - 1), (j + i). repeat split; lia. }
    { intros i Hi. rewrite Eb. apply HD2. left. exists (j + i), (j - 1). repeat split; lia. }
    { intros i k Hi Hk. rewrite Ea, Eb. intros E. apply ent_inj in E; lia. }
    exists M3. split; [exact E3|]. split.
    + eapply kp_trans; [exact K2|]. eapply kp_weak; [|exact K3]. intros p [i [Hi ->]]. rewrite Eb.
      exists (j + i), (j - 1). repeat split; lia.
    + intros i k H1 H2 H3. destruct (Z.eq_dec k (j - 1)) as [->|Hk].
      * specialize (C3 (i - j) ltac:(lia)). rewrite Ea, Eb in C3. replace (j + (i - j)) with i in C3 by lia. rewrite C3.
        rewrite (proj1 K2).
        { apply MM; lia. }
        intros [i' [j' [H4 [H5 E]]]]. apply ent_inj in E; lia.
      * rewrite (proj1 K3); [apply C2; lia|]. intros [i' [H4 E]]. rewrite Eb in E. apply ent_inj in E; lia.
  - exists M2. split; [exact E2|]. split; [|split].
    + eapply kp_trans; (eapply kp_weak; [|eassumption]); cbv beta; tauto.
    + intros j Hj. rewrite (proj1 K2); [apply C1', Hj|]. intros [i [k [H1 [H2 E]]]].
      apply (X1 (entry a lda i k)); [exists i, k; repeat split; lia|]. rewrite <- E. apply v_in0, Hj.
    + intros i j H1 H2. apply C2; lia.
Qed.

(** The lower triangle is copied in the upper one *)
Lemma restore_kp : forall M, dom M All -> exists M', gq_restore n a lda M = Some M' /\ kp (Up a lda n) M M' /\
  (forall i j, 0 <= i < j -> j < n -> M' (entry a lda i j) = M (entry a lda j i)) /\
  (forall j, 0 <= j < n -> M' (entry a lda j j) = M (entry a lda j j)).
Proof.
  intros M HD. unfold gq_restore, LaModel.mem.
  set (SU := fun p => exists i j, 0 <= i < j /\ j < n /\ p = entry a lda i j).
  match goal with |- context [for_up 1 n ?body M] =>
    destruct (for_up_inv (fun j M' => kp SU M M' /\
      (forall i k, 0 <= i < k -> k < n -> i < j - 1 -> M' (entry a lda i k) = M (entry a lda k i))) 1 n body M) as [M2 [E2 [K2 C2]]] end.
  - lia.
  - split; [apply kp_refl|]. intros; lia.
  - intros j M2 Hj [K2 C2].
    assert (HD2 : dom M2 All) by (eapply kp_dom; [exact K2|exact HD]).
    assert (Ea : forall k, elt (a + (j - 1 + lda * (j + 1 - 1))) (n - j) lda k = entry a lda (j - 1) (j + k))
      by (intros k; rewrite elt_pos by lia; unfold entry; lia).
    assert (Eb : forall k, elt (a + (j + 1 - 1 + lda * (j - 1))) (n - j) 1 k = entry a lda (j + k) (j - 1))
      by (intros k; rewrite elt_1; unfold entry; lia).
    destruct (copy_kp (n - j) (a + (j + 1 - 1 + lda * (j - 1))) 1 (a + (j - 1 + lda * (j + 1 - 1))) lda M2) as [M3 [E3 [K3 C3]]]; [lia| | | |].
    { intros i Hi. rewrite Eb. apply HD2. left. exists (j + i), (j - 1). repeat split; lia. }
    { intros i Hi. rewrite Ea. apply HD2. left. exists (j - 1), (j + i). repeat split; lia. }
    { intros i k Hi Hk. rewrite Ea, Eb. intros E. apply ent_inj in E; lia. }
    exists M3. split; [exact E3|]. split.
    + eapply kp_trans; [exact K2|]. eapply kp_weak; [|exact K3]. intros p [i [Hi ->]]. rewrite Ea.
      exists (j - 1), (j + i). repeat split; lia.
    + intros i k H1 H2 H3. destruct (Z.eq_dec i (j - 1)) as [->|Hk].
      * specialize (C3 (k - j) ltac:(lia)). rewrite Ea, Eb in C3. replace (j + (k - j)) with k in C3 by lia. rewrite C3.
        rewrite (proj1 K2); [reflexivity|].
        intros [i' [j' [H4 [H5 E]]]]. apply ent_inj in E; lia.
      * rewrite (proj1 K3); [apply C2; lia|]. intros [i' [H4 E]]. rewrite Ea in E. apply ent_inj in E; lia.
  - exists M2. split; [exact E2|]. split; [|split].
    + eapply kp_weak; [|exact K2]. intros p [i [j [H1 [H2 ->]]]]. exists i, j. repeat split; lia.
    + intros i j H1 H2. apply C2; lia.
    + intros j Hj. apply (proj1 K2). intros [i' [j' [H4 [H5 E]]]]. apply ent_inj in E; lia.
Qed.

Lemma bounds_kp : forall par M, dom M All ->
  exists v M', gq_bounds n a lda b delta rtol wa1 wa2 par M = Some (v, M') /\ kp (V wa2 n) M M' /\ g_iter v = 0.
Proof.
  intros par M HD. unfold gq_bounds, LaModel.mem.
  match goal with |- context [for_up 1 (n + 1) ?body (M, ZERO)] =>
    destruct (up_kp2 All (V wa2 n) 1 (n + 1) body M ZERO ltac:(lia) HD) as [M1 [an [E1 K1]]] end.
  { intros j M1 t Hj HD1.
    destruct (asum_def n (a + (1 - 1 + lda * (j - 1))) M1) as [v Ev].
    { intros i Hi. apply HD1. replace (a + (1 - 1 + lda * (j - 1)) + i) with (a + (i + 1 - 1 + lda * (j - 1))) by lia. inall. }
    rewrite Ev. destruct (rd M1 All (wa1 + (j - 1)) HD1 ltac:(inall)) as [d Ed]. rewrite Ed.
    destruct (st_ok M1 (wa2 + (j - 1)) (v - nabs d)%num) as [M2 [E2 K2]]; [apply HD1; inall|]. rewrite E2.
    eexists. eexists. split; [reflexivity|]. eapply kp_one; [|exact K2]. apply v_in; lia. }
  rewrite E1. assert (HD1 := kp_dom _ _ _ _ K1 HD).
  destruct (nrm2_def n b M1) as [bn Eb]; [intros i Hi; apply HD1; inall|]. rewrite Eb.
  match goal with |- context [for_up 1 (n + 1) ?body ?s] => destruct (up_def 1 (n + 1) body s ltac:(lia)) as [[[ps pl] pu] E2] end.
  { intros j [[t1 t2] t3] Hj. destruct (rd M1 All (wa1 + (j - 1)) HD1 ltac:(inall)) as [d Ed]. rewrite Ed.
    destruct (rd M1 All (wa2 + (j - 1)) HD1 ltac:(inall)) as [g Eg]. rewrite Eg. eexists; reflexivity. }
  rewrite E2. eexists. exists M1. split; [reflexivity|]. split; [exact K1|reflexivity].
Qed.

Lemma mod_a : forall p, Up a lda n p -> Mod p. Proof. unfold Mod. tauto. Qed.
Lemma mod_x : forall p, V x n p -> Mod p. Proof. unfold Mod. tauto. Qed.
Lemma mod_z : forall p, V z n p -> Mod p. Proof. unfold Mod. tauto. Qed.
Lemma mod_w : forall p, V wa2 n p -> Mod p. Proof. unfold Mod. tauto. Qed.

Lemma copy_v : forall (S : Z -> Prop) m p q M, dom M All -> 0 <= m <= n -> (forall i, 0 <= i < m -> All (p + i)) -> (forall i, 0 <= i < m -> All (q + i)) ->
  (forall i j, 0 <= i < m -> 0 <= j < m -> q + i <> p + j) -> (forall i, 0 <= i < m -> S (q + i)) ->
  exists M', copy m p 1 q 1 M = Some M' /\ kp S M M' /\ (forall i, 0 <= i < m -> M' (q + i) = M (p + i)).
Proof.
  intros S m p q M HD Hm Hp Hq Ho HM.
  destruct (copy_kp m p 1 q 1 M) as [M' [E [K C]]]; [lia| | | |].
  - intros i Hi. rewrite elt_1. apply HD, Hp, Hi.
  - intros i Hi. rewrite elt_1. apply HD, Hq, Hi.
  - intros i j H1 H2. rewrite !elt_1. apply Ho; lia.
  - exists M'. split; [exact E|]. split.
    + eapply kp_weak; [|exact K]. intros r [i [Hi ->]]. rewrite elt_1. apply HM, Hi.
    + intros i Hi. specialize (C i Hi). rewrite !elt_1 in C. exact C.
Qed.

Lemma upn : forall i j M, dom M All -> 0 <= i <= j -> j < n -> M (entry a lda i j) <> None.
Proof. intros i j M HD H1 H2. apply HD. left. exists i, j. repeat split; lia. Qed.

Lemma apart_v : forall y w i j, (forall p, V y n p -> ~ V w n p) -> 0 <= i < n -> 0 <= j < n -> w + i <> y + j.
Proof. intros y w i j H Hi Hj E. apply (H (y + j)); [apply v_in0, Hj|]. rewrite <- E. apply v_in0, Hi. Qed.

Lemma nrm_in : forall m y M, dom M All -> m <= n -> (forall i, 0 <= i < n -> All (y + i)) -> exists v, nrm2 m y 1 M = Some v.
Proof. intros m y M HD Hm Hy. apply nrm2_def. intros i Hi. apply HD, Hy. lia. Qed.

Lemma in_b : forall i, 0 <= i < n -> All (b + i). Proof. intros; inall. Qed.
Lemma in_x : forall i, 0 <= i < n -> All (x + i). Proof. intros; inall. Qed.
Lemma in_z' : forall i, 0 <= i < n -> All (z + i). Proof. intros; inall. Qed.
Lemma in_w1 : forall i, 0 <= i < n -> All (wa1 + i). Proof. intros; inall. Qed.
Lemma in_w2 : forall i, 0 <= i < n -> All (wa2 + i). Proof. intros; inall. Qed.

Lemma tr_t : forall (S : Z -> Prop) m M, (forall p, V wa2 n p -> S p) -> dom M All -> 0 <= m <= n -> exists M', trsv UPPER TRANS NON_UNIT m a lda wa2 1 M = Some (0, M') /\ kp S M M'.
Proof.
  intros S m M HS HD Hm. destruct (trsv_tu_kp m a lda wa2 M) as [M' [E K]]; [lia|lia| | |].
  - intros i j H1 H2. apply upn; [exact HD|lia|lia].
  - intros i Hi. apply HD, in_w2. lia.
  - exists M'. split; [exact E|]. eapply kp_weak; [|exact K]. intros p [i [Hi ->]]. apply HS, v_in0. lia.
Qed.

Lemma tr_n : forall (S : Z -> Prop) m M, (forall p, V wa2 n p -> S p) -> dom M All -> 0 <= m <= n -> exists M', trsv UPPER NO_TRANS NON_UNIT m a lda wa2 1 M = Some (0, M') /\ kp S M M'.
Proof.
  intros S m M HS HD Hm. destruct (trsv_nu_kp m a lda wa2 M) as [M' [E K]]; [lia|lia| | |].
  - intros i j H1 H2. apply upn; [exact HD|lia|lia].
  - intros i Hi. apply HD, in_w2. lia.
  - exists M'. split; [exact E|]. eapply kp_weak; [|exact K]. intros p [i [Hi ->]]. apply HS, v_in0. lia.
Qed.

Lemma scal_v : forall t y M, dom M All -> (forall i, 0 <= i < n -> All (y + i)) -> (forall p, V y n p -> Mod p) ->
  exists M', scal n t y 1 M = Some M' /\ kp Mod M M'.
Proof.
  intros t y M HD Hy HM. destruct (scal_kp n t y 1 M) as [M' [E K]]; [lia| |].
  - intros i Hi. rewrite elt_1. apply HD, Hy, Hi.
  - exists M'. split; [exact E|]. eapply kp_weak; [|exact K]. intros p [i [Hi ->]]. rewrite elt_1. apply HM, v_in0, Hi.
Qed.

Ltac stepK E K HD HD' := let M' := fresh "M" in rewrite E; assert (HD' := kp_dom _ _ _ _ K HD).

Lemma positive_kp : forall v par M, dom M All ->
  exists v' parc info M', gq_positive n a lda b delta rtol atol x z wa2 v par M = Some (v', parc, info, M') /\ kp Mod M M' /\
    g_iter v' = g_iter v /\ 0 <= info <= 2.
Proof.
  intros v par M HD. unfold gq_positive.
  destruct (copy_v Mod n b wa2 M HD ltac:(lia) in_b in_w2) as [M1 [E1 [K1 _]]].
  { intros i j Hi Hj. apply (apart_v b wa2 i j B2 Hi Hj). }
  { intros i Hi. apply mod_w, v_in0, Hi. }
  stepK E1 K1 HD HD1.
  destruct (tr_t Mod n M1 mod_w HD1 ltac:(lia)) as [M2 [E2 K2]]. stepK E2 K2 HD1 HD2.
  destruct (nrm_in n wa2 M2 HD2 ltac:(lia) in_w2) as [rx Erx]. rewrite Erx.
  destruct (tr_n Mod n M2 mod_w HD2 ltac:(lia)) as [M3 [E3 K3]]. stepK E3 K3 HD2 HD3.
  destruct (copy_v Mod n wa2 x M3 HD3 ltac:(lia) in_w2 in_x) as [M4 [E4 [K4 _]]].
  { intros i j Hi Hj. intros E. apply (apart_v x wa2 j i Y2 Hj Hi). symmetry. exact E. }
  { intros i Hi. apply mod_x, v_in0, Hi. }
  stepK E4 K4 HD3 HD4.
  destruct (scal_v (nopp ONE) x M4 HD4 in_x mod_x) as [M5 [E5 K5]]. stepK E5 K5 HD4 HD5.
  destruct (nrm_in n x M5 HD5 ltac:(lia) in_x) as [xn Exn]. rewrite Exn.
  destruct (estsv_kp n a lda z ltac:(lia)) with (M := M5) as [sv [M6 [E6 K6]]].
  { intros p Hp. apply Xz, up_all, Hp. }
  { intros p [Hp|Hp]; apply HD5; [left; apply up_all, Hp|unfold All; tauto]. }
  apply (kp_weak _ Mod _ _ mod_z) in K6. stepK E6 K6 HD5 HD6.
  match goal with |- context [if (?c || ?d)%bool then 1 else 0] => set (info0 := if (c || d)%bool then 1 else 0) end.
  assert (I0 : 0 <= info0 <= 1) by (unfold info0; destruct (_ || _)%bool; lia).
  match goal with |- context [if (xn <? delta)%num then ?A else ?B] =>
    assert (P : exists al rz rd' info1, (if (xn <? delta)%num then A else B) = Some (al, rz, rd', info1) /\ 0 <= info1 <= 2) end.
  { destruct (xn <? delta)%num.
    - destruct (dot_def n z x M6) as [zx Ezx]; [intros i Hi; apply HD6, in_z', Hi|intros i Hi; apply HD6, in_x, Hi|]. rewrite Ezx.
      cbv zeta. eexists. eexists. eexists. eexists. split; [reflexivity|].
      do 3 match goal with |- 0 <= (if ?c then _ else _) <= 2 => destruct c; [lia|] end. lia.
    - eexists. eexists. eexists. eexists. split; [reflexivity|lia]. }
  destruct P as [al [rz [rd' [info1 [-> Hi1]]]]].
  match goal with |- context [if (xn =? ZERO)%num then ?A else ?B] =>
    assert (Q : exists pc M7, (if (xn =? ZERO)%num then A else B) = Some (pc, M7) /\ kp Mod M6 M7) end.
  { destruct (xn =? ZERO)%num; [eexists; exists M6; split; [reflexivity|apply kp_refl]|].
    destruct (copy_v Mod n x wa2 M6 HD6 ltac:(lia) in_x in_w2) as [M7 [E7 [K7 _]]].
    { intros i j Hi Hj. apply (apart_v x wa2 i j Y2 Hi Hj). }
    { intros i Hi. apply mod_w, v_in0, Hi. }
    stepK E7 K7 HD6 HD7.
    destruct (scal_v (ONE / xn)%num wa2 M7 HD7 in_w2 mod_w) as [M8 [E8 K8]]. stepK E8 K8 HD7 HD8.
    destruct (tr_t Mod n M8 mod_w HD8 ltac:(lia)) as [M9 [E9 K9]]. stepK E9 K9 HD8 HD9.
    destruct (nrm_in n wa2 M9 HD9 ltac:(lia) in_w2) as [t Et]. rewrite Et.
    eexists. exists M9. split; [reflexivity|]. eapply kp_trans; [exact K7|]. eapply kp_trans; [exact K8|exact K9]. }
  destruct Q as [pc [M7 [-> K7]]].
  eexists. exists pc, info1, M7. split; [reflexivity|]. split; [|split; [reflexivity|exact Hi1]].
  eapply kp_trans; [exact K1|]. eapply kp_trans; [exact K2|]. eapply kp_trans; [exact K3|]. eapply kp_trans; [exact K4|].
  eapply kp_trans; [exact K5|]. eapply kp_trans; [exact K6|exact K7].
Qed.

(** What is modified if A + par*I is not positive definite *)
Definition Mod2 (p : Z) : Prop := Up a lda n p \/ V wa2 n p.
Lemma mod2_a : forall p, Up a lda n p -> Mod2 p. Proof. unfold Mod2. tauto. Qed.
Lemma mod2_w : forall p, V wa2 n p -> Mod2 p. Proof. unfold Mod2. tauto. Qed.
Lemma mod2_mod : forall p, Mod2 p -> Mod p. Proof. unfold Mod2, Mod. tauto. Qed.

Lemma indefinite_kp : forall v par ind M, dom M All -> 1 <= ind <= n ->
  exists v' parc M', gq_indefinite a lda rtol wa1 wa2 v par ind M = Some (v', parc, M') /\ kp Mod2 M M' /\ g_iter v' = g_iter v.
Proof.
  intros v par ind M HD Hi. unfold gq_indefinite.
  match goal with |- context [if 1 <? ind then ?A else ?B] =>
    assert (P : exists M1, (if 1 <? ind then A else B) = Some M1 /\ kp Mod2 M M1) end.
  { destruct (Z.ltb_spec 1 ind) as [H1|H1]; [|exists M; split; [reflexivity|apply kp_refl]].
    assert (Er : forall k, elt (a + (ind - 1 + lda * (1 - 1))) (ind - 1) lda k = entry a lda (ind - 1) k)
      by (intros k; rewrite elt_pos by lia; unfold entry; lia).
    assert (Ec : forall k, elt (a + (1 - 1 + lda * (ind - 1))) (ind - 1) 1 k = entry a lda k (ind - 1))
      by (intros k; rewrite elt_1; unfold entry; lia).
    destruct (copy_kp (ind - 1) (a + (ind - 1 + lda * (1 - 1))) lda (a + (1 - 1 + lda * (ind - 1))) 1 M) as [M1 [E1 [K1 _]]]; [lia| | | |].
    { intros i Hk. rewrite Er. apply HD. left. exists (ind - 1), i. repeat split; lia. }
    { intros i Hk. rewrite Ec. apply HD. left. exists i, (ind - 1). repeat split; lia. }
    { intros i j Hk Hj. rewrite Er, Ec. intros E. apply ent_inj in E; lia. }
    apply (kp_weak _ Mod2) in K1; [|intros p [i [Hk ->]]; rewrite Ec; apply mod2_a; exists i, (ind - 1); repeat split; lia].
    stepK E1 K1 HD HD1.
    destruct (rd M1 All (wa1 + (ind - 1)) HD1 ltac:(inall)) as [d Ed]. rewrite Ed.
    assert (Md : Mod2 (a + (ind - 1 + lda * (ind - 1)))) by (left; exists (ind - 1), (ind - 1); unfold entry; repeat split; lia).
    destruct (st_ok M1 (a + (ind - 1 + lda * (ind - 1))) (d + par)%num) as [M2 [E2 K2]]; [apply HD1; inall|].
    apply (kp_one Mod2 _ _ _ Md) in K2. stepK E2 K2 HD1 HD2.
    destruct (copy_v Mod2 (ind - 1) (a + (1 - 1 + lda * (ind - 1))) wa2 M2 HD2 ltac:(lia)) as [M3 [E3 [K3 _]]].
    { intros i Hk. left. exists i, (ind - 1). unfold entry. repeat split; lia. }
    { intros i Hk. apply in_w2. lia. }
    { intros i j Hk Hj E. apply (X2 (wa2 + i)); [rewrite E; exists j, (ind - 1); unfold entry; repeat split; lia|apply v_in0; lia]. }
    { intros i Hk. apply mod2_w, v_in0. lia. }
    stepK E3 K3 HD2 HD3.
    destruct (tr_t Mod2 (ind - 1) M3 mod2_w HD3 ltac:(lia)) as [M4 [E4 K4]]. stepK E4 K4 HD3 HD4.
    destruct (nrm_in (ind - 1) wa2 M4 HD4 ltac:(lia) in_w2) as [t Et]. rewrite Et.
    destruct (rd M4 All (a + (ind - 1 + lda * (ind - 1))) HD4 ltac:(inall)) as [d2 Ed2]. rewrite Ed2.
    destruct (st_ok M4 (a + (ind - 1 + lda * (ind - 1))) (d2 - t * t)%num) as [M5 [E5 K5]]; [apply HD4; inall|].
    apply (kp_one Mod2 _ _ _ Md) in K5. stepK E5 K5 HD4 HD5.
    destruct (tr_n Mod2 (ind - 1) M5 mod2_w HD5 ltac:(lia)) as [M6 [E6 K6]]. rewrite E6.
    exists M6. split; [reflexivity|].
    eapply kp_trans; [exact K1|]. eapply kp_trans; [exact K2|]. eapply kp_trans; [exact K3|]. eapply kp_trans; [exact K4|].
    eapply kp_trans; [exact K5|exact K6]. }
  destruct P as [M1 [-> K1]]. assert (HD1 := kp_dom _ _ _ _ K1 HD).
  destruct (st_ok M1 (wa2 + (ind - 1)) (nopp ONE)) as [M2 [E2 K2]]; [apply HD1; inall|].
  apply (kp_one Mod2) in K2; [|apply mod2_w, v_in; lia]. stepK E2 K2 HD1 HD2.
  destruct (nrm_in ind wa2 M2 HD2 ltac:(lia) in_w2) as [t Et]. rewrite Et.
  destruct (rd M2 All (a + (ind - 1 + lda * (ind - 1))) HD2 ltac:(inall)) as [d Ed]. rewrite Ed.
  eexists. eexists. exists M2. split; [reflexivity|]. split; [exact (kp_trans _ _ _ _ K1 K2)|reflexivity].
Qed.

(** The end: the upper triangle is the transpose of the lower one and the diagonal is in wa1 *)
Lemma exit_kp : forall v info M, dom M All ->
  exists fx M', gq_exit n a lda delta x z wa1 v info M = Some (mkgr info (g_parf v) fx (g_iter v), M') /\ kp Mod M M' /\
    (forall i j, 0 <= i < j -> j < n -> M' (entry a lda i j) = M (entry a lda j i)) /\
    (forall j, 0 <= j < n -> M' (entry a lda j j) = M (wa1 + j)).
Proof.
  intros v info M HD. unfold gq_exit.
  match goal with |- context [if g_rednc v then ?A else ?B] =>
    assert (P : exists fx M1, (if g_rednc v then A else B) = Some (fx, M1) /\ kp (V x n) M M1) end.
  { destruct (g_rednc v); [|eexists; exists M; split; [reflexivity|apply kp_refl]].
    destruct (axpy_kp n (g_alpha v) z 1 x 1 M) as [M1 [E1 K1]]; [lia| | | |].
    - intros i Hi. rewrite elt_1. apply HD, in_z', Hi.
    - intros i Hi. rewrite elt_1. apply HD, in_x, Hi.
    - intros i j Hi Hj. rewrite !elt_1. intros E. apply (apart_v x z j i XZ); [lia|lia|]. symmetry. exact E.
    - rewrite E1. eexists. exists M1. split; [reflexivity|]. eapply kp_elt0; [|exact K1]. lia. }
  destruct P as [fx [M1 [-> K1]]]. assert (HD1 := kp_dom _ _ _ _ K1 HD).
  destruct (restore_kp M1 HD1) as [M2 [E2 [K2 [C2 _]]]]. stepK E2 K2 HD1 HD2.
  assert (Ed : forall j, elt a n (lda + 1) j = entry a lda j j) by (intros j; rewrite elt_pos by lia; unfold entry; lia).
  destruct (copy_kp n wa1 1 a (lda + 1) M2) as [M3 [E3 [K3 C3]]]; [lia| | | |].
  { intros i Hi. rewrite elt_1. apply HD2. inall. }
  { intros i Hi. rewrite Ed. apply upn; [exact HD2|lia|lia]. }
  { intros i j Hi Hj. rewrite elt_1, Ed. intros E. apply (X1 (entry a lda i i)); [exists i, i; repeat split; lia|].
    rewrite E. apply v_in0; lia. }
  rewrite E3. exists fx, M3. split; [reflexivity|]. split; [|split].
  - eapply kp_trans; [eapply kp_weak; [exact mod_x|exact K1]|]. eapply kp_trans; [eapply kp_weak; [exact mod_a|exact K2]|].
    eapply kp_weak; [|exact K3]. intros p [i [Hi ->]]. rewrite Ed. apply mod_a. exists i, i. repeat split; lia.
  - intros i j H1 H2. rewrite (proj1 K3).
    + rewrite C2 by assumption. apply (proj1 K1). apply Xx. exists j, i. repeat split; lia.
    + intros [k [Hk E]]. rewrite Ed in E. apply ent_inj in E; lia.
  - intros j Hj. specialize (C3 j Hj). rewrite elt_1, Ed in C3. rewrite C3.
    assert (N1 : ~ Up a lda n (wa1 + j)) by (intros H; apply (X1 (wa1 + j)); [apply up_all, H|apply v_in0, Hj]).
    rewrite (proj1 K2) by exact N1. apply (proj1 K1). intros H. apply (Y1 _ H), v_in0, Hj.
Qed.

(** An iteration *)
Definition gq_sym (M M' : mem) : Prop :=
  (forall i j, 0 <= i < j -> j < n -> M' (entry a lda i j) = M (entry a lda j i)) /\
  (forall j, 0 <= j < n -> M' (entry a lda j j) = M (wa1 + j)).

Lemma low_keep : forall M M' i j, kp Mod M M' -> 0 <= j < i -> i < n -> M' (entry a lda i j) = M (entry a lda i j).
Proof.
  intros M M' i j K H1 H2. apply (proj1 K).
  assert (Hm : Mat (entry a lda i j)) by (exists i, j; repeat split; lia).
  intros [[i' [j' [H3 [H4 E]]]]|[H|[H|H]]].
  - apply ent_inj in E; lia.
  - exact (Xx _ Hm H).
  - exact (Xz _ Hm H).
  - exact (X2 _ Hm H).
Qed.

Lemma wa1_keep : forall M M' j, kp Mod M M' -> 0 <= j < n -> M' (wa1 + j) = M (wa1 + j).
Proof.
  intros M M' j K Hj. apply (proj1 K). assert (Hw := v_in0 wa1 j Hj). intros [H|[H|[H|H]]].
  - exact (X1 _ (up_all _ H) Hw).
  - exact (Y1 _ H Hw).
  - exact (Z1 _ H Hw).
  - exact (W12 _ Hw H).
Qed.

Lemma b_keep : forall M M' j, kp Mod M M' -> 0 <= j < n -> M' (b + j) = M (b + j).
Proof.
  intros M M' j K Hj. apply (proj1 K). assert (Hw := v_in0 b j Hj). intros [H|[H|[H|H]]].
  - exact (Xb _ (up_all _ H) Hw).
  - exact (Bx _ Hw H).
  - exact (Bz _ Hw H).
  - exact (B2 _ Hw H).
Qed.

Lemma iteration_kp : forall v M, dom M All ->
  exists o M', gq_iteration n a lda b delta rtol atol itmax x z wa1 wa2 v M = Some (o, M') /\ kp Mod M M' /\
    match o with
    | inl r => r_iter r = g_iter v + 1 /\ 1 <= r_info r <= 4 /\ (r_info r = 4 -> itmax <= r_iter r) /\ gq_sym M M'
    | inr v' => g_iter v' = g_iter v + 1 /\ g_iter v' < itmax
    end.
Proof.
  intros v M HD. unfold gq_iteration, LaModel.mem.
  match goal with |- context [if (?c && ?d)%bool then ?A else g_par v] => set (par := if (c && d)%bool then A else g_par v) end.
  cbv zeta.
  destruct (restore_kp M HD) as [M1 [E1 [K1 _]]]. apply (kp_weak _ Mod _ _ mod_a) in K1. stepK E1 K1 HD HD1.
  match goal with |- context [for_up 1 (n + 1) ?body M1] => destruct (up_kp All Mod 1 (n + 1) body M1 ltac:(lia) HD1) as [M2 [E2 K2]] end.
  { intros j M2 Hj HD2. destruct (rd M2 All (wa1 + (j - 1)) HD2 ltac:(inall)) as [d Ed]. rewrite Ed.
    destruct (st_ok M2 (a + (j - 1 + lda * (j - 1))) (d + par)%num) as [M3 [E3 K3]]; [apply HD2; inall|].
    exists M3. split; [exact E3|]. eapply kp_one; [|exact K3]. apply up_in; lia. }
  stepK E2 K2 HD1 HD2.
  destruct (potf2_kp n a lda M2) as [ind [M3 [E3 [Hind K3]]]]; [lia|lia|intros i j H1 H2; apply upn; assumption|].
  apply (kp_weak _ Mod _ _ mod_a) in K3. stepK E3 K3 HD2 HD3.
  match goal with |- context [if ind =? 0 then ?A else ?B] =>
    assert (P : exists v1 parc info M4, (if ind =? 0 then A else B) = Some (v1, parc, info, M4) /\ kp Mod M3 M4 /\
                 g_iter v1 = g_iter v /\ 0 <= info <= 2) end.
  { destruct (Z.eqb_spec ind 0) as [H0|H0].
    - apply positive_kp. exact HD3.
    - destruct (indefinite_kp v par ind M3 HD3 ltac:(lia)) as [v1 [pc [M4 [E4 [K4 I4]]]]]. rewrite E4.
      exists v1, pc, 0, M4. split; [reflexivity|]. split; [exact (kp_weak _ _ _ _ mod2_mod K4)|]. split; [exact I4|lia]. }
  destruct P as [v1 [parc [info [M4 [-> [K4 [I4 Hinfo]]]]]]]. assert (HD4 := kp_dom _ _ _ _ K4 HD3).
  assert (K : kp Mod M M4).
  { eapply kp_trans; [exact K1|]. eapply kp_trans; [exact K2|]. eapply kp_trans; [exact K3|exact K4]. }
  match goal with |- context [negb (?e =? 0)] => set (info' := e) end.
  assert (Hinfo' : 0 <= info' <= 4 /\ (info' = 4 -> itmax <= g_iter v1 + 1) /\ (info' = 0 -> g_iter v1 + 1 < itmax)).
  { unfold info'. destruct (Z.eqb_spec info 0) as [->|H0]; [|lia].
    destruct (g_paru v1 =? ZERO)%num; [lia|].
    match goal with |- context [if (g_paru v1 <=? ?e)%num then _ else _] => destruct (g_paru v1 <=? e)%num; [lia|] end.
    destruct (Z.leb_spec itmax (g_iter v1 + 1)); lia. }
  destruct Hinfo' as [H5 [H6 H7]].
  destruct (Z.eqb_spec info' 0) as [H0|H0]; cbn [negb].
  - eexists. exists M4. split; [reflexivity|]. split; [exact K|]. cbn [g_iter]. rewrite I4 in *. split; [reflexivity|]. apply H7, H0.
  - match goal with |- context [gq_exit _ _ _ _ _ _ _ ?v2 _ _] => destruct (exit_kp v2 info' M4 HD4) as [fx [M5 [E5 [K5 [C5 D5]]]]] end.
    rewrite E5. eexists. exists M5. split; [reflexivity|]. cbn [r_info r_par r_f r_iter g_iter g_parf]. rewrite I4 in *.
    split; [exact (kp_trans _ _ _ _ K K5)|]. split; [reflexivity|]. split; [lia|]. split; [exact H6|]. split.
    + intros i j H1 H2. rewrite C5 by assumption. apply (low_keep M M4); [exact K|lia|lia].
    + intros j Hj. rewrite D5 by assumption. apply (wa1_keep M M4); assumption.
Qed.

(** The loop *)
Lemma loop_kp : forall fuel v M, dom M All ->
  exists o M', gq_loop n a lda b delta rtol atol itmax x z wa1 wa2 fuel v M = Some (o, M') /\ kp Mod M M' /\
    match o with
    | inl r => g_iter v + 1 <= r_iter r <= Z.max (g_iter v + 1) itmax /\ 1 <= r_info r <= 4 /\
               (r_info r = 4 -> itmax <= r_iter r) /\ gq_sym M M'
    | inr _ => Z.of_nat fuel < Z.max 1 (itmax - g_iter v)
    end.
Proof.
  induction fuel as [|fuel IH]; intros v M HD; cbn [gq_loop].
  - exists (inr v), M. split; [reflexivity|]. split; [apply kp_refl|]. lia.
  - destruct (iteration_kp v M HD) as [o [M1 [E1 [K1 P1]]]]. stepK E1 K1 HD HD1. destruct o as [r|v1].
    + exists (inl r), M1. split; [reflexivity|]. split; [exact K1|]. destruct P1 as [H1 [H2 [H3 H4]]]. repeat split; try lia; apply H4.
    + destruct P1 as [H1 H2]. destruct (IH v1 M1 HD1) as [o [M2 [E2 [K2 P2]]]]. exists o, M2. split; [exact E2|].
      split; [exact (kp_trans _ _ _ _ K1 K2)|]. destruct o as [r|v2].
      * destruct P2 as [H3 [H4 [H5 [H6 H7]]]]. split; [lia|]. split; [exact H4|]. split; [exact H5|]. split.
        { intros i j H8 H9. rewrite H6 by assumption. apply (low_keep M M1); [exact K1|lia|lia]. }
        { intros j Hj. rewrite H7 by assumption. apply (wa1_keep M M1); assumption. }
      * lia.
Qed.

(** OPK_GQT *)
Lemma gqt_run : forall par fuel M, dom M All ->
  exists o M', gqt n a lda b delta rtol atol itmax x z wa1 wa2 par fuel M = Some (o, M') /\
    (forall p, ~ Mat p -> ~ V x n p -> ~ V z n p -> ~ V wa1 n p -> ~ V wa2 n p -> M' p = M p) /\
    (forall j, 0 <= j < n -> M' (b + j) = M (b + j)) /\
    match o with
    | inl r => 1 <= r_iter r <= Z.max 1 itmax /\ 1 <= r_info r <= 4 /\
               (r_info r = 4 -> r_iter r = Z.max 1 itmax) /\ 
               (forall i j, 0 <= i <= j -> j < n -> M' (entry a lda i j) = M (entry a lda i j)) /\
               (forall i j, 0 <= i <= j -> j < n -> M' (entry a lda j i) = M (entry a lda i j))
    | inr _ => Z.of_nat fuel < Z.max 1 itmax
    end.
Proof.
  intros par fuel M HD. unfold gqt.
  destruct (clear_kp M HD) as [M1 [E1 [K1 _]]]. stepK E1 K1 HD HD1.
  destruct (save_kp M1 HD1) as [M2 [E2 [K2 [C2 L2]]]]. stepK E2 K2 HD1 HD2.
  destruct (bounds_kp par M2 HD2) as [v [M3 [E3 [K3 I3]]]]. stepK E3 K3 HD2 HD3.
  destruct (loop_kp fuel v M3 HD3) as [o [M4 [E4 [K4 P4]]]].
  assert (Em : forall i j, 0 <= i < n -> 0 <= j < n -> M1 (entry a lda i j) = M (entry a lda i j)).
  { intros i j Hi Hj. apply (proj1 K1). assert (Hm : Mat (entry a lda i j)) by (exists i, j; auto).
    intros [H|H]; [exact (Xx _ Hm H)|exact (Xz _ Hm H)]. }
  exists o, M4. split; [exact E4|]. split; [|split].
  - intros p H1 H2 H3 H4 H5. rewrite (proj1 K4), (proj1 K3), (proj1 K2), (proj1 K1); [reflexivity|tauto| | |].
    + intros [[i [j [H6 [H7 ->]]]]|H]; [apply H1; exists i, j; repeat split; lia|tauto].
    + exact H5.
    + intros [H|[H|[H|H]]]; [apply H1, up_all, H|tauto|tauto|tauto].
  - intros j Hj. assert (Hb := v_in0 b j Hj). rewrite (b_keep M3 M4 j K4 Hj).
    rewrite (proj1 K3), (proj1 K2), (proj1 K1); [reflexivity| | |].
    + intros [H|H]; [exact (Bx _ Hb H)|exact (Bz _ Hb H)].
    + intros [[i [k [H6 [H7 E]]]]|H]; [|exact (B1 _ Hb H)]. rewrite E in Hb. apply (Xb (entry a lda i k)); [|exact Hb].
      exists i, k. repeat split; lia.
    + intros H. exact (B2 _ Hb H).
  - destruct o as [r|v']; [|rewrite I3 in P4; lia].
    destruct P4 as [H1 [H2 [H3 [H4 H5]]]]. rewrite I3 in *. split; [lia|]. split; [exact H2|]. split; [lia|].
    assert (Hlow : forall i j, 0 <= j < i -> i < n -> M3 (entry a lda i j) = M (entry a lda j i)).
    { intros i j H6 H7. rewrite (proj1 K3) by (apply X2; exists i, j; repeat split; lia).
      rewrite L2 by assumption. apply Em; lia. }
    assert (Hdiag : forall j, 0 <= j < n -> M4 (entry a lda j j) = M (entry a lda j j)).
    { intros j Hj. rewrite H5 by exact Hj. rewrite (proj1 K3) by (apply W12, v_in0, Hj). rewrite C2 by exact Hj. apply Em; lia. }
    split; intros i j H6 H7; (destruct (Z.eq_dec i j) as [->|Hij]; [apply Hdiag; lia|]).
    + rewrite H4 by lia. apply Hlow; lia.
    + rewrite (low_keep M3 M4) by (assumption || lia). apply Hlow; lia.
Qed.
End Gqt.
End Run.
