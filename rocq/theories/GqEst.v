(** * gqtpar.c, exact arithmetic: OPK_ESTSV *)
From Coq Require Import ZArith Reals List Bool Lia Lra.
From Flocq Require Import Core.
From Verif Require Import Base Num NumFacts OrdFacts LaModel LaLoops LaSpec LaMem LaBlas1 LaBlas1R LaChol LcgSpec LcgVec GqModel GqSafe GqRun.
Import ListNotations.
Local Open Scope Z_scope.

Section Exact.
Variables H I : R.
Notation NR := (NumR H I).
Notation mem := (Z -> option NR).
Implicit Types (M : Z -> option NR).

(** ** Vectors with a unit increment *)
Definition vec (M : mem) (y m : Z) (F : Z -> R) : Prop := forall l, 0 <= l < m -> M (y + l) = Some (F l : NR).

Lemma vec_has : forall M y m F, vec M y m F -> has_vec (N := NR) M y m 1 F.
Proof. intros M y m F HF i Hi. rewrite elt_1. apply HF, Hi. Qed.
Lemma has_vec1 : forall M y m F, has_vec (N := NR) M y m 1 F -> vec M y m F.
Proof. intros M y m F HF i Hi. specialize (HF i Hi). rewrite elt_1 in HF. exact HF. Qed.

Lemma vec_ext : forall M y m F G, vec M y m F -> (forall l, 0 <= l < m -> F l = G l) -> vec M y m G.
Proof. intros M y m F G HF E l Hl. rewrite <- E by exact Hl. apply HF, Hl. Qed.

Lemma vec_sub : forall M y m F off k, vec M y m F -> 0 <= off -> off + k <= m -> vec M (y + off) k (fun l => F (off + l)).
Proof. intros M y m F off k HF H1 H2 l Hl. rewrite <- Z.add_assoc. apply HF. lia. Qed.

Lemma vec_keep : forall S M M' y m F, kp S M M' -> vec M y m F -> (forall p, V y m p -> ~ S p) -> vec M' y m F.
Proof. intros S M M' y m F K HF Hs l Hl. rewrite (proj1 K); [apply HF, Hl|]. apply Hs. exists l. auto. Qed.

Lemma vec_dom : forall M y m, (forall l, 0 <= l < m -> M (y + l) <> None) -> exists F, vec M y m F.
Proof.
  intros M y m Hd. exists (fun l => match M (y + l) with Some v => v | None => 0%R end).
  intros l Hl. specialize (Hd l Hl). destruct (M (y + l)); [reflexivity|congruence].
Qed.

Lemma vec_fun : forall M y m F G, vec M y m F -> vec M y m G -> forall l, 0 <= l < m -> F l = G l.
Proof. intros M y m F G HF HG l Hl. specialize (HF l Hl). specialize (HG l Hl). congruence. Qed.

Lemma scal_vec : forall M y m F (t : R), vec M y m F ->
  exists M', scal (N := NR) m t y 1 M = Some M' /\ vec M' y m (fun l => t * F l)%R /\ kp (V y m) M M'.
Proof.
  intros M y m F t HF. destruct (scal_spec (N := NR) m t y 1 M F ltac:(lia) (vec_has _ _ _ _ HF)) as [M' [E [HV Ho]]].
  exists M'. split; [exact E|]. split.
  - apply has_vec1. intros l Hl. rewrite (HV l Hl), scal_elt_exact. reflexivity.
  - eapply kp_elt0; [|exact (only_kp _ _ _ _ _ _ HV Ho)]. lia.
Qed.

Lemma axpy_vec : forall M y m F (t : R) x incx (X : Z -> R), vec M y m F ->
  (forall l, 0 <= l < m -> M (elt x m incx l) = Some (X l : NR)) ->
  (forall l, 0 <= l < m -> ~ V y m (elt x m incx l)) ->
  exists M', axpy (N := NR) m t x incx y 1 M = Some M' /\ vec M' y m (fun l => F l + t * X l)%R /\ kp (V y m) M M'.
Proof.
  intros M y m F t x incx X HF HX Ho.
  destruct (axpy_spec (N := NR) m t x incx y 1 M X F HX (vec_has _ _ _ _ HF) ltac:(lia)) as [M' [E [HV Hk]]].
  { intros i j Hi Hj E. apply (Ho j); [lia|]. rewrite <- E, elt_1. exists i. split; [lia|reflexivity]. }
  exists M'. split; [exact E|]. split.
  - apply has_vec1. intros l Hl. rewrite (HV l Hl), axpy_elt_exact. reflexivity.
  - eapply kp_elt0; [|exact (only_kp _ _ _ _ _ _ HV Hk)]. lia.
Qed.

Lemma nrm2_vec : forall M y m F, vec M y m F -> nrm2 (N := NR) m y 1 M = Some (norm m F : NR).
Proof. intros M y m F HF. apply (nrm2_spec H I m y 1 M F ltac:(lia) (vec_has _ _ _ _ HF)). Qed.

Lemma dot_vec : forall M y m F x G, vec M y m F -> vec M x m G -> dot (N := NR) m y 1 x 1 M = Some (dotp m F G : NR).
Proof. intros M y m F x G HF HG. apply (dot_spec H I m y 1 x 1 M F G (vec_has _ _ _ _ HF) (vec_has _ _ _ _ HG)). Qed.

Lemma store_vec : forall M y m F k (v : R), vec M y m F -> 0 <= k < m ->
  exists M', store (N := NR) M (y + k) v = Some M' /\ vec M' y m (fun l => if l =? k then v else F l) /\ kp (fun p => p = y + k) M M'.
Proof.
  intros M y m F k v HF Hk. destruct (store_ok (N := NR) M (y + k) (F k) v (HF k Hk)) as [M' [E [A B]]].
  exists M'. split; [exact E|]. split.
  - intros l Hl. destruct (Z.eqb_spec l k) as [->|Hne]; [exact A|]. rewrite B by lia. apply HF, Hl.
  - split; [exact B|]. intros p Hp. destruct (Z.eq_dec p (y + k)) as [->|Hne]; [congruence|]. rewrite B by exact Hne. exact Hp.
Qed.

(** ** Norms *)
Lemma norm_nonneg : forall m F, (0 <= norm m F)%R.
Proof. intros. apply sqrt_pos. Qed.
Lemma norm_sq : forall m F, (norm m F * norm m F = dotp m F F)%R.
Proof. intros. unfold norm. apply sqrt_sqrt. apply dotp_sq. Qed.
Lemma norm_ext : forall m F G, (forall l, 0 <= l < m -> F l = G l) -> norm m F = norm m G.
Proof. intros m F G E. unfold norm. f_equal. apply dotp_ext; exact E. Qed.
Lemma norm_scal : forall m F t, norm m (fun l => t * F l)%R = (Rabs t * norm m F)%R.
Proof.
  intros m F t. unfold norm.
  replace (dotp m (fun l => t * F l) (fun l => t * F l))%R with (t * t * dotp m F F)%R.
  - rewrite sqrt_mult_alt by nra. f_equal. apply sqrt_Rsqr_abs.
  - rewrite dotp_scal_l, (dotp_comm m F (fun l => t * F l)%R), dotp_scal_l. ring.
Qed.
Lemma norm_pos : forall m F, (exists l, 0 <= l < m /\ F l <> 0%R) -> (0 < norm m F)%R.
Proof.
  intros m F [l [Hl Hf]]. unfold norm. apply sqrt_lt_R0. apply (sumz_sq_pos 0 m F l Hl Hf).
Qed.
Lemma norm_0 : forall m F, norm m F = 0%R -> forall l, 0 <= l < m -> F l = 0%R.
Proof. intros m F E. apply dotp_sq_0. rewrite <- norm_sq, E. ring. Qed.

(** ** OPK_ESTSV *)
Section Est.
Variables (n r ldr z : Z) (A : Z -> Z -> R).
Hypothesis Hn : 1 <= n <= ldr.
Hypothesis Hap : forall p, Up r ldr n p -> ~ V z n p.

Definition tri (M : mem) : Prop := forall i j, 0 <= i <= j -> j < n -> M (entry r ldr i j) = Some (A i j : NR).

Lemma tri_keep : forall M M', kp (V z n) M M' -> tri M -> tri M'.
Proof.
  intros M M' K HT i j H1 H2. rewrite (proj1 K); [apply HT; assumption|]. apply Hap. exists i, j. auto.
Qed.

Lemma half_factor : forall a b : R, (Rabs a < Rabs b)%R -> let t := est_factor (N := NR) a b in (0 <= t)%R /\ (a = 0%R -> t = 0%R) /\ (a <> 0%R -> (0 < t)%R).
Proof.
  intros a b Hab. unfold est_factor, SMALL2. nr. cbn [nQ NumR].
  assert (Hb : (0 < Rabs b)%R) by (pose proof (Rabs_pos a); lra).
  assert (Hb0 : b <> 0%R) by (intros ->; rewrite Rabs_R0 in Hb; lra).
  assert (P0 := Rabs_pos (a / b)).
  assert (Q : (a <> 0 -> 0 < Rabs (a / b))%R).
  { intros Ha. apply Rabs_pos_lt. unfold Rdiv. intros E. apply Rmult_integral in E. destruct E as [E|E]; [exact (Ha E)|].
    apply (Rinv_neq_0_compat b Hb0 E). }
  destruct (Rlt_bool_spec (1 / 100) (Rabs (a / b))) as [Hlt|Hge].
  - split; [lra|]. split; [|intros; lra]. intros ->. exfalso. unfold Rdiv in Hlt at 2. rewrite Rmult_0_l, Rabs_R0 in Hlt. lra.
  - split; [exact P0|]. split; [|exact Q]. intros ->. unfold Rdiv. rewrite Rmult_0_l. apply Rabs_R0.
Qed.

Lemma sign_0 : forall e f : R, (0 <= e)%R -> f = 0%R -> sign (N := NR) e (nopp (n := NR) f) = e.
Proof.
  intros e f He ->. unfold sign, ZERO. nr. zo. rewrite Ropp_0. destruct (Rlt_bool_spec e 0); [lra|].
  destruct (Rlt_bool_spec 0 0); [lra|]. reflexivity.
Qed.

(** The first part: y is not zero *)
Definition finv (M0 : mem) (i : Z) (s : mem * NR) : Prop :=
  let '(M, e) := s in kp (V z n) M0 M /\ exists F, vec M z n F /\
    (i = 1 /\ (e : R) = Rabs (A 0 0) /\ A 0 0 <> 0%R /\ (forall l, 0 <= l < n -> F l = 0%R) \/ exists l, 0 <= l < i - 1 /\ F l <> 0%R).

Lemma axpy_tail : forall i (t : R) M F, 1 <= i < n -> tri M -> vec M z n F ->
  exists M' F', axpy (N := NR) (n - i) t (r + (i - 1 + ldr * (i + 1 - 1))) ldr (z + (i + 1 - 1)) 1 M = Some M' /\
    kp (V z n) M M' /\ vec M' z n F' /\ (forall l, 0 <= l < i -> F' l = F l).
Proof.
  intros i t M F Hi HT HF.
  assert (Hr : forall k, elt (r + (i - 1 + ldr * (i + 1 - 1))) (n - i) ldr k = entry r ldr (i - 1) (i + k))
    by (intros k; rewrite elt_pos by lia; unfold entry; lia).
  destruct (axpy_vec M (z + (i + 1 - 1)) (n - i) (fun l => F (i + l)) t (r + (i - 1 + ldr * (i + 1 - 1))) ldr
             (fun k => A (i - 1) (i + k))) as [M' [E [HV K]]].
  - intros l Hl. replace (z + (i + 1 - 1) + l) with (z + (i + l)) by lia. apply HF. lia.
  - intros l Hl. rewrite Hr. apply HT; lia.
  - intros l Hl. rewrite Hr. intros [k [Hk Ek]].
    apply (Hap (entry r ldr (i - 1) (i + l))); [exists (i - 1), (i + l); repeat split; lia|]. exists (i + k). split; lia.
  - assert (K' : kp (V z n) M M').
    { eapply kp_weak; [|exact K]. intros p [k [Hk ->]]. exists (i + k). split; lia. }
    exists M', (fun l => if l <? i then F l else (F l + t * A (i - 1) l)%R). split; [exact E|]. split; [exact K'|]. split.
    + intros l Hl. destruct (Z.ltb_spec l i) as [Hli|Hli].
      * rewrite (proj1 K); [apply HF; lia|]. intros [k [Hk Ek]]. lia.
      * specialize (HV (l - i) ltac:(lia)). cbv beta in HV. replace (i + (l - i)) with l in HV by lia.
        replace (z + (i + 1 - 1) + (l - i)) with (z + l) in HV by lia. exact HV.
    + intros l Hl. destruct (Z.ltb_spec l i); [reflexivity|lia].
Qed.

Lemma forward_ok : forall M0 i s, tri M0 -> 1 <= i < n + 1 -> finv M0 i s ->
  exists s', est_forward (N := NR) n r ldr z i s = Some s' /\ finv M0 (i + 1) s'.
Proof.
  intros M0 i [M e] HT0 Hi [K0 [F [HF HI]]].
  assert (HT := tri_keep _ _ K0 HT0).
  assert (Hrow : forall i j, 1 <= i <= j -> j <= n -> forall M, tri M -> M (r + (i - 1 + ldr * (j - 1))) = Some (A (i - 1) (j - 1) : NR)).
  { intros i1 j1 H1 H2 M1 HT1. exact (HT1 (i1 - 1) (j1 - 1) ltac:(lia) ltac:(lia)). }
  unfold est_forward. rewrite (HF (i - 1) ltac:(lia)). rewrite (Hrow i i ltac:(lia) ltac:(lia) M HT).
  set (rii := A (i - 1) (i - 1)). set (e0 := sign (N := NR) e (nopp (n := NR) (F (i - 1)))). cbv zeta.
  assert (J : (i = 1 /\ e0 = Rabs rii /\ F (i - 1) = 0%R /\ rii = A 0 0 /\ (forall l, 0 <= l < n -> F l = 0%R)) \/ exists l, 0 <= l < i - 1 /\ F l <> 0%R).
  { destruct HI as [[H1 [H2 [H3 H4]]]|Hl]; [left|right; exact Hl]. split; [exact H1|]. unfold rii, e0. rewrite H1 in *.
    split; [|split; [apply H4; lia|split; [reflexivity|exact H4]]]. rewrite sign_0; [exact H2| |apply H4; lia]. rewrite H2. apply Rabs_pos. }
  clearbody e0. clear HI.
  match goal with |- context [if nlt ?p ?q then ?P else Some (M, ?Q)] =>
  assert (P1 : exists M1 (e1 : R) F1, (if nlt p q then P else Some (M, Q)) = Some (M1, e1) /\ kp (V z n) M M1 /\ vec M1 z n F1 /\
      (rii <> 0%R -> (i = 1 /\ e1 = Rabs (A 0 0) /\ (forall l, 0 <= l < n -> F1 l = 0%R)) \/ exists l, 0 <= l < i - 1 /\ F1 l <> 0%R)) end.
  { nr. destruct (Rlt_bool_spec (Rabs rii) (Rabs (e0 - F (i - 1)))) as [Hlt|Hge].
    - destruct (scal_vec M z n F (est_factor (N := NR) rii (e0 - F (i - 1)%Z)%R) HF) as [M1 [E1 [V1 K1]]].
      rewrite E1. eexists. eexists. eexists. split; [reflexivity|]. split; [exact K1|]. split; [exact V1|].
      intros Hr. destruct J as [[H1 [H2 [H3 [H4 H5]]]]|[l [H1 H2]]].
      + exfalso. rewrite H2, H3, Rminus_0_r, Rabs_Rabsolu in Hlt. lra.
      + right. exists l. split; [exact H1|]. destruct (half_factor rii _ Hlt) as [_ [_ P]]. specialize (P Hr).
        intros E. apply Rmult_integral in E. destruct E as [E|E]; [lra|exact (H2 E)].
    - exists M, e0, F. split; [reflexivity|]. split; [apply kp_refl|]. split; [exact HF|]. intros Hr.
      destruct J as [[H1 [H2 [H3 [H4 H5]]]]|HI]; [left|right; exact HI].
      split; [exact H1|]. split; [rewrite <- H4; exact H2|exact H5]. }
  destruct P1 as [M1 [e1 [F1 [E1 [K1 [V1 Q1]]]]]]. rewrite E1. clear E1.
  assert (HT1 := tri_keep _ _ K1 HT).
  rewrite (V1 (i - 1) ltac:(lia)).
  match goal with |- context [if ?c then (ONE, ONE) else ?q] => set (ww := if c then (ONE, ONE) else q) end.
  assert (Hww : (forall (v : R), v = fst ww \/ v = snd ww -> v <> 0%R) \/ exists l, 0 <= l < i - 1 /\ F1 l <> 0%R).
  { unfold ww, ZERO, ONE. nr. zo. destruct (Req_bool_spec rii 0) as [E|E].
    - left. cbn [fst snd]. intros v [->| ->]; lra.
    - destruct (Q1 E) as [[H1 [H2 H3]]|Hl]; [|right; exact Hl]. left. cbn [fst snd].
      rewrite (H3 (i - 1) ltac:(lia)), H2. assert (Pr : (0 < Rabs (A 0 0))%R).
      { apply Rabs_pos_lt. subst i. exact E. }
      assert (Ir := Rinv_neq_0_compat _ E).
      intros v [->| ->]; unfold Rdiv; intros Ev; apply Rmult_integral in Ev; destruct Ev as [Ev|Ev]; lra. }
  clearbody ww. destruct ww as [w wm]. cbn [fst snd] in Hww.
  match goal with |- context [for_up (i + 1) (n + 1) ?body ?s] => destruct (up_def (i + 1) (n + 1) body s ltac:(lia)) as [sm Esm] end.
  { intros j t Hj. rewrite (V1 (j - 1) ltac:(lia)). rewrite (Hrow i j ltac:(lia) ltac:(lia) M1 HT1). eexists; reflexivity. }
  rewrite Esm. clear Esm.
  match goal with |- context [if i <? n then ?A else ?B] =>
    assert (P2 : exists M2 e2 F2, (if i <? n then A else B) = Some (M2, e2) /\ kp (V z n) M1 M2 /\ vec M2 z n F2 /\
      (forall l, 0 <= l < i -> F2 l = F1 l)) end.
  { destruct (Z.ltb_spec i n) as [Hin|Hin].
    - destruct (axpy_tail i w M1 F1 ltac:(lia) HT1 V1) as [M2 [F2 [E2 [K2 [V2 L2]]]]]. rewrite E2.
      destruct (asum_def (n - i) (z + (i + 1 - 1)) M2) as [v Ev].
      { intros k Hk. replace (z + (i + 1 - 1) + k) with (z + (i + k)) by lia. rewrite (V2 (i + k) ltac:(lia)). discriminate. }
      rewrite Ev. eexists. eexists. exists F2. split; [reflexivity|]. auto.
    - eexists. eexists. exists F1. split; [reflexivity|]. split; [apply kp_refl|]. split; [exact V1|]. auto. }
  destruct P2 as [M2 [s2 [F2 [-> [K2 [V2 L2]]]]]]. assert (HT2 := tri_keep _ _ K2 HT1).
  match goal with |- context [if (s2 <? sm)%num then ?A else ?B] =>
    assert (P3 : exists M3 w3 F3, (if (s2 <? sm)%num then A else B) = Some (M3, w3) /\ kp (V z n) M2 M3 /\ vec M3 z n F3 /\
      (forall l, 0 <= l < i -> F3 l = F2 l) /\ (w3 = w \/ w3 = wm)) end.
  { destruct (s2 <? sm)%num.
    2: { eexists; eexists; exists F2; split; [reflexivity|]. split; [apply kp_refl|]. auto. }
    destruct (Z.ltb_spec i n) as [Hin|Hin]; cbn [andb].
    2: { eexists; eexists; exists F2; split; [reflexivity|]. split; [apply kp_refl|]. auto. }
    destruct (negb _).
    2: { eexists; eexists; exists F2; split; [reflexivity|]. split; [apply kp_refl|]. auto. }
    match goal with |- context [axpy (n - i) ?t _ _ _ _ M2] => destruct (axpy_tail i t M2 F2 ltac:(lia) HT2 V2) as [M3 [F3 [E3 [K3 [V3 L3]]]]] end.
    rewrite E3. eexists. eexists. exists F3. split; [reflexivity|]. auto. }
  destruct P3 as [M3 [w3 [F3 [-> [K3 [V3 [L3 Hw]]]]]]].
  destruct (store_vec M3 z n F3 (i - 1) w3 V3 ltac:(lia)) as [M4 [E4 [V4 K4]]]. rewrite E4.
  eexists. split; [reflexivity|]. split.
  - eapply kp_trans; [exact K0|]. eapply kp_trans; [exact K1|]. eapply kp_trans; [exact K2|]. eapply kp_trans; [exact K3|].
    eapply kp_one; [|exact K4]. exists (i - 1). split; [lia|reflexivity].
  - eexists. split; [exact V4|]. right. destruct Hww as [Hww|[l [Hl Hne]]].
    + exists (i - 1). split; [lia|]. rewrite Z.eqb_refl. apply Hww, Hw.
    + exists l. split; [lia|]. destruct (Z.eqb_spec l (i - 1)); [lia|]. rewrite L3, L2 by lia. exact Hne.
Qed.

(** The second part: R z = y, up to the scaling *)
Definition binv (M0 : mem) (j : Z) (s : mem * NR) : Prop :=
  let '(M, yn) := s in kp (V z n) M0 M /\ exists F Y, vec M z n F /\ (yn : R) = norm n Y /\
    (forall k, 0 <= k < j -> (F k + sumz j n (fun l => A k l * F l))%R = Y k) /\
    (forall k, j <= k < n -> (sumz k n (fun l => A k l * F l))%R = Y k) /\
    ((0 < norm n Y)%R \/ exists l, j <= l < n /\ F l <> 0%R).

Lemma backward_ok : forall M0 j s, tri M0 -> 1 <= j <= n -> binv M0 j s ->
  exists s', est_backward (N := NR) n r ldr z j s = Some s' /\ binv M0 (j - 1) s'.
Proof.
  intros M0 j [M yn] HT0 Hj [K0 [F [Y [HF [Hy [B1 [B2 B3]]]]]]].
  assert (HT := tri_keep _ _ K0 HT0). set (c := j - 1) in *.
  unfold est_backward. fold c. rewrite (HF c ltac:(unfold c; lia)).
  assert (Er : forall M, tri M -> M (r + (c + ldr * c)) = Some (A c c : NR)) by (intros M1 HT1; apply HT1; unfold c; lia).
  rewrite (Er M HT). set (rjj := A c c).
  match goal with |- context [if nlt ?p ?q then ?P else Some (M, ?Q)] =>
  assert (P1 : exists M1 (y1 : R) F1 Y1, (if nlt p q then P else Some (M, Q)) = Some (M1, y1) /\ kp (V z n) M M1 /\ vec M1 z n F1 /\ y1 = norm n Y1 /\
      (forall k, 0 <= k < j -> (F1 k + sumz j n (fun l => A k l * F1 l))%R = Y1 k) /\
      (forall k, j <= k < n -> (sumz k n (fun l => A k l * F1 l))%R = Y1 k) /\
      (rjj = 0%R -> F1 c = 0%R) /\ (rjj <> 0%R -> (0 < norm n Y1)%R \/ exists l, j <= l < n /\ F1 l <> 0%R)) end.
  { nr. destruct (Rlt_bool_spec (Rabs rjj) (Rabs (F c))) as [Hlt|Hge].
    - destruct (half_factor _ _ Hlt) as [T0 [T1 T2]]. set (t := est_factor (N := NR) rjj (F c)) in *.
      destruct (scal_vec M z n F t HF) as [M1 [E1 [V1 K1]]].
      rewrite E1. eexists. eexists. exists (fun l => t * F l)%R, (fun l => t * Y l)%R. split; [reflexivity|].
      split; [exact K1|]. split; [exact V1|].
      assert (St : forall k lo, sumz lo n (fun l => A k l * (t * F l))%R = (t * sumz lo n (fun l => A k l * F l))%R).
      { intros k lo. rewrite <- sumz_scal. apply sumz_ext. intros. ring. }
      split; [rewrite norm_scal, Hy, (Rabs_pos_eq t) by exact T0; apply Rmult_comm|].
      split; [intros k Hk; rewrite St, <- (B1 k Hk); ring|]. split; [intros k Hk; rewrite St, <- (B2 k Hk); ring|].
      split; [intros E; rewrite (T1 E); ring|]. intros E. specialize (T2 E).
      destruct B3 as [P|[l [Hl Hne]]]; [left|right].
      + rewrite norm_scal, Rabs_pos_eq by exact T0. nra.
      + exists l. split; [exact Hl|]. intros E0. apply Rmult_integral in E0. destruct E0; [lra|contradiction].
    - exists M, yn, F, Y. split; [reflexivity|]. split; [apply kp_refl|]. split; [exact HF|]. split; [exact Hy|].
      split; [exact B1|]. split; [exact B2|]. split; [|intros _; exact B3]. intros E. rewrite E, Rabs_R0 in Hge.
      destruct (Req_dec (F c) 0) as [E0|E0]; [exact E0|]. pose proof (Rabs_pos_lt _ E0). lra. }
  destruct P1 as [M1 [y1 [F1 [Y1 [E1 [K1 [V1 [Hy1 [C1 [C2 [C3 C4]]]]]]]]]]]. rewrite E1. clear E1.
  assert (HT1 := tri_keep _ _ K1 HT).
  rewrite (V1 c ltac:(unfold c; lia)).
  set (w := if neq (n := NR) (rjj : NR) ZERO then ONE else ndiv (n := NR) (F1 c : NR) (rjj : NR)).
  assert (Hw : (rjj * w = F1 c)%R /\ (rjj = 0%R -> w = 1%R)).
  { unfold w, ZERO, ONE. nr. destruct (Req_bool_spec rjj (IZR 0)) as [E|E]; zo.
    - split; [rewrite (C3 E), E; ring|reflexivity].
    - split; [field; exact E|]. intros E0. exfalso. exact (E E0). }
  destruct Hw as [Hw1 Hw2].
  destruct (store_vec M1 z n F1 c w V1 ltac:(unfold c; lia)) as [M2 [E2 [V2 K2]]]. rewrite E2.
  apply (kp_one (V z n)) in K2; [|exists c; unfold c; split; [lia|reflexivity]]. assert (HT2 := tri_keep _ _ K2 HT1).
  rewrite (V2 c ltac:(unfold c; lia)). rewrite Z.eqb_refl.
  destruct (axpy_vec M2 z c (fun l => F1 l) (- w)%R (r + (1 - 1 + ldr * c)) 1 (fun k => A k c)) as [M3 [E3 [V3 K3]]].
  { intros l Hl. rewrite (V2 l ltac:(unfold c in *; lia)). destruct (Z.eqb_spec l c); [lia|reflexivity]. }
  { intros l Hl. rewrite elt_1. replace (r + (1 - 1 + ldr * c) + l) with (entry r ldr l c) by (unfold entry; lia).
    apply HT2; unfold c in *; lia. }
  { intros l Hl. rewrite elt_1. replace (r + (1 - 1 + ldr * c) + l) with (entry r ldr l c) by (unfold entry; lia).
    intros [k [Hk Ek]]. apply (Hap (entry r ldr l c)); [exists l, c; unfold c in *; repeat split; lia|].
    exists k. unfold c in *. split; [lia|exact Ek]. }
  change (nopp (n := NR) w) with (- w)%R. rewrite E3.
  eexists. split; [reflexivity|]. split.
  { eapply kp_trans; [exact K0|]. eapply kp_trans; [exact K1|]. eapply kp_trans; [exact K2|].
    eapply kp_weak; [|exact K3]. intros p [k [Hk ->]]. exists k. unfold c in *. split; lia. }
  set (F2 := fun l => if l <? c then (F1 l + - w * A l c)%R else if l =? c then w else F1 l).
  assert (V4 : vec M3 z n F2).
  { intros l Hl. unfold F2. destruct (Z.ltb_spec l c) as [Hlc|Hlc]; [apply V3; lia|].
    rewrite (proj1 K3); [apply V2; exact Hl|]. intros [k [Hk Ek]]. lia. }
  assert (Tail : forall k, sumz j n (fun l => A k l * F2 l)%R = sumz j n (fun l => A k l * F1 l)%R).
  { intros k. apply sumz_ext. intros l Hl. unfold F2. destruct (Z.ltb_spec l c); [unfold c in *; lia|].
    destruct (Z.eqb_spec l c); [unfold c in *; lia|reflexivity]. }
  assert (Fc : F2 c = w) by (unfold F2; rewrite Z.ltb_irrefl, Z.eqb_refl; reflexivity).
  assert (Head : forall k, sumz c n (fun l => A k l * F2 l)%R = (A k c * w + sumz j n (fun l => A k l * F1 l))%R).
  { intros k. rewrite sumz_left by (unfold c; lia). rewrite Fc. replace (c + 1) with j by (unfold c; lia). rewrite Tail. reflexivity. }
  exists F2, Y1. split; [exact V4|]. split; [exact Hy1|]. split; [|split].
  - intros k Hk. rewrite Head. rewrite <- (C1 k ltac:(unfold c in *; lia)). unfold F2. destruct (Z.ltb_spec k c); [ring|lia].
  - intros k Hk. destruct (Z.eq_dec k c) as [->|Hkc].
    + rewrite Head. fold rjj. rewrite Hw1. apply C1. unfold c; lia.
    + rewrite <- (C2 k ltac:(unfold c in *; lia)). apply sumz_ext. intros l Hl. unfold F2.
      destruct (Z.ltb_spec l c); [lia|]. destruct (Z.eqb_spec l c); [lia|reflexivity].
  - destruct (Req_dec rjj 0) as [E|E].
    + right. exists c. split; [unfold c; lia|]. rewrite Fc, (Hw2 E). lra.
    + destruct (C4 E) as [P|[l [Hl Hne]]]; [left; exact P|]. right. exists l. split; [unfold c; lia|].
      unfold F2. destruct (Z.ltb_spec l c); [unfold c in *; lia|]. destruct (Z.eqb_spec l c); [unfold c in *; lia|exact Hne].
Qed.

Lemma tri_mulv : forall F k, 0 <= k < n -> mulv n (tri_mat true false A) F k = sumz k n (fun l => A k l * F l)%R.
Proof.
  intros F k Hk. unfold mulv. rewrite (sumz_split 0 k n) by lia. rewrite (sumz_zero 0 k).
  - rewrite Rplus_0_l. apply sumz_ext. intros l Hl. unfold tri_mat. destruct (Z.eqb_spec k l) as [->|]; [reflexivity|].
    destruct (Z.ltb_spec k l); [reflexivity|lia].
  - intros l Hl. unfold tri_mat. destruct (Z.eqb_spec k l); [lia|]. destruct (Z.ltb_spec k l); [lia|]. ring.
Qed.

Lemma estsv_exact : forall M, tri M -> (forall l, 0 <= l < n -> M (z + l) <> None) ->
  exists (s : R) M' F, estsv (N := NR) n r ldr z M = Some (s, M') /\ kp (V z n) M M' /\ vec M' z n F /\
    norm n F = 1%R /\ s = norm n (mulv n (tri_mat true false A) F).
Proof.
  intros M HT Hz. unfold estsv, LaModel.mem.
  destruct (for_up_inv (fun j M' => kp (V z n) M M' /\ forall l, 0 <= l < j -> M' (z + l) = Some (0%R : NR)) 0 n
              (fun i => zero_cell (N := NR) (z + i)) M) as [M1 [E1 [K1 Z1]]].
  { lia. }
  { split; [apply kp_refl|]. intros; lia. }
  { intros j M1 Hj [K1 Z1]. unfold zero_cell.
    assert (Hd : M1 (z + j) <> None) by (apply K1, Hz, Hj). destruct (M1 (z + j)) as [v|] eqn:Ev; [|congruence].
    destruct (store_ok (N := NR) M1 (z + j) v ZERO Ev) as [M2 [E2 [A2 B2]]]. exists M2. split; [exact E2|]. split.
    - eapply kp_trans; [exact K1|]. split.
      + intros p Hp. apply B2. intros ->. apply Hp. exists j. auto.
      + intros p Hp. destruct (Z.eq_dec p (z + j)) as [->|Hne]; [congruence|]. rewrite B2 by exact Hne. exact Hp.
    - intros l Hl. destruct (Z.eq_dec l j) as [->|Hne]; [exact A2|]. rewrite B2 by lia. apply Z1. lia. }
  rewrite E1. assert (HT1 := tri_keep _ _ K1 HT).
  replace (r + (1 - 1 + ldr * (1 - 1))) with (entry r ldr 0 0) by (unfold entry; lia).
  rewrite (HT1 0 0 ltac:(lia) ltac:(lia)). cbv zeta.
  change (nabs (n := NR) (A 0 0)) with (Rabs (A 0 0)).
  change (neq (n := NR) (Rabs (A 0 0)) ZERO) with (Req_bool (Rabs (A 0 0)) 0).
  destruct (Req_bool_spec (Rabs (A 0 0)) 0) as [E0|E0].
  { (* the first element of the diagonal is zero *)
    assert (A0 : A 0 0 = 0%R).
    { destruct (Req_dec (A 0 0) 0) as [E|E]; [exact E|]. pose proof (Rabs_pos_lt _ E). lra. }
    destruct (store_vec M1 z n (fun _ => 0%R) 0 1%R) as [M2 [E2 [V2 K2]]]; [exact Z1|lia|].
    replace (z + (1 - 1)) with (z + 0) by lia. change (ONE (N := NR)) with (1%R : NR). rewrite E2.
    eexists. exists M2. eexists. split; [reflexivity|]. split; [|split; [exact V2|]].
    - eapply kp_trans; [exact K1|]. eapply kp_one; [|exact K2]. exists 0. split; lia.
    - split.
      + unfold norm, dotp. rewrite sumz_left by lia. rewrite Z.eqb_refl. rewrite sumz_zero.
        * rewrite Rplus_0_r, Rmult_1_r. apply sqrt_1.
        * intros k Hk. destruct (Z.eqb_spec k 0); [lia|ring].
      + symmetry. rewrite (norm_ext n _ (fun _ => 0 * 0)%R).
        * rewrite (norm_scal n (fun _ => 0%R) 0), Rabs_R0. change (ZERO (N := NR)) with 0%R. ring.
        * intros k Hk. rewrite tri_mulv by exact Hk. rewrite sumz_zero; [ring|]. intros l Hl.
          destruct (Z.eqb_spec l 0) as [->|]; [|ring]. assert (k = 0) by lia. subst k. rewrite A0. ring. }
  assert (A0 : A 0 0 <> 0%R) by (intros E; apply E0; rewrite E; apply Rabs_R0).
  destruct (for_up_inv (finv M1) 1 (n + 1) (est_forward (N := NR) n r ldr z) (M1, Rabs (A 0 0) : NR)) as [[M2 e] [E2 [K2 [F [V2 P2]]]]].
  { lia. }
  { split; [apply kp_refl|]. exists (fun _ => 0%R). split; [exact Z1|]. left. auto. }
  { intros j s Hj Hs. apply forward_ok; assumption. }
  rewrite E2. rewrite (nrm2_vec M2 z n F V2).
  destruct P2 as [[H1 _]|[l [Hl Hne]]]; [lia|].
  assert (HT2 := tri_keep _ _ K2 HT1).
  destruct (for_down_inv (fun j => binv M2 (j - 1)) n 1 (est_backward (N := NR) n r ldr z) (M2, norm n F : NR)) as [[M3 yn] [E3 [K3 [G [Y [V3 [Hy [B1 [B2 B3]]]]]]]]].
  { lia. }
  { replace (n + 1 - 1) with n by lia. split; [apply kp_refl|]. exists F, F. split; [exact V2|]. split; [reflexivity|]. split; [|split].
    - intros k Hk. rewrite sumz_empty by lia. ring.
    - intros; lia.
    - left. apply norm_pos. exists l. split; [lia|exact Hne]. }
  { intros j s Hj Hs. replace (j + 1 - 1) with j in Hs by lia. apply backward_ok; assumption. }
  rewrite E3. rewrite (nrm2_vec M3 z n G V3).
  change (1 - 1) with 0 in *.
  assert (Hm : forall k, 0 <= k < n -> mulv n (tri_mat true false A) G k = Y k).
  { intros k Hk. rewrite tri_mulv by exact Hk. apply B2. lia. }
  assert (Gp : (0 < norm n G)%R).
  { destruct B3 as [P|[i [Hi Hg]]]; [|apply norm_pos; exists i; split; [lia|exact Hg]].
    destruct (nonzero_or n G) as [Hg|Hg]; [apply norm_pos, Hg|]. exfalso.
    assert (E : norm n Y = norm n (fun _ => 0 * 0)%R).
    { apply norm_ext. intros k Hk. rewrite <- (B2 k ltac:(lia)). rewrite sumz_zero; [ring|]. intros i Hi. rewrite Hg by lia. ring. }
    rewrite (norm_scal n (fun _ => 0%R) 0), Rabs_R0 in E. lra. }
  change (ndiv (n := NR) ONE (norm n G)) with (1 / norm n G)%R.
  destruct (scal_vec M3 z n G (1 / norm n G)%R V3) as [M4 [E4 [V4 K4]]]. rewrite E4.
  assert (Ip : (0 < 1 / norm n G)%R) by (apply Rdiv_lt_0_compat; lra).
  eexists. exists M4. eexists. split; [reflexivity|]. split; [|split; [exact V4|]].
  - eapply kp_trans; [exact K1|]. eapply kp_trans; [exact K2|]. eapply kp_trans; [exact K3|exact K4].
  - split.
    + rewrite norm_scal, Rabs_pos_eq by lra. field. lra.
    + nr. rewrite Hy. rewrite (norm_ext n (mulv n (tri_mat true false A) (fun l => 1 / norm n G * G l)%R) (fun k => 1 / norm n G * Y k)%R).
      * rewrite norm_scal, (Rabs_pos_eq (1 / norm n G)) by lra. ring.
      * intros k Hk. rewrite <- Hm by exact Hk. unfold mulv. rewrite <- sumz_scal. apply sumz_ext. intros. ring.
Qed.
End Est.
End Exact.
