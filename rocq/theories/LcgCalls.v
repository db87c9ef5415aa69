(** * The parts of the conjugate gradient routines of lcg.c in exact arithmetic *)
From Coq Require Import ZArith Reals List Bool Lia Lra.
From Flocq Require Import Core.
From Verif Require Import Base Num NumFacts OrdFacts LaModel LaLoops LaSpec LaMem LaBlas1 LaBlas1R LaBlas2 LcgModel LcgSpec LcgVec.
Import ListNotations.
Local Open Scope Z_scope.

Section Exact.
Variables H I : R.
Notation NR := (NumR H I).
Notation mem := (Z -> option NR).
Notation has := (has_vec (N := NR)).

Lemma has_ext : forall (M : mem) a n (U V : Z -> R), has M a n 1 U -> same n U V -> has M a n 1 V.
Proof. intros M a n U V HU E i Hi. rewrite (HU i Hi). f_equal. apply E. exact Hi. Qed.

Lemma has_fun : forall (M : mem) a n (U V : Z -> R), has M a n 1 U -> has M a n 1 V -> same n U V.
Proof. intros M a n U V HU HV i Hi. specialize (HU i Hi). specialize (HV i Hi). rewrite HU in HV. injection HV as E. exact E. Qed.

Lemma keep : forall (M M' : mem) a c n (U : Z -> R), only_vec M M' a n 1 -> vec_apart a n 1 c n 1 -> has M c n 1 U -> has M' c n 1 U.
Proof.
  intros M M' a c n U F Hap HU i Hi. rewrite F; [apply HU; exact Hi|]. intros j Hj. apply not_eq_sym, Hap; assumption.
Qed.

Lemma apart_sym : forall a b n, vec_apart a n 1 b n 1 -> vec_apart b n 1 a n 1.
Proof. intros a b n Hap i j Hi Hj. apply not_eq_sym, Hap; assumption. Qed.

Lemma axpy1 : forall n (a : R) u v (M : mem) (U V : Z -> R), has M u n 1 U -> has M v n 1 V -> vec_apart v n 1 u n 1 ->
  exists M', axpy (N := NR) n a u 1 v 1 M = Some M' /\ has M' v n 1 (fun i => V i + a * U i)%R /\ only_vec M M' v n 1.
Proof.
  intros n a u v M U V HU HV Hap.
  destruct (axpy_spec (N := NR) n a u 1 v 1 M U V HU HV ltac:(lia)) as [M' [E [B F]]].
  { intros i j Hi Hj. apply Hap; lia. }
  exists M'. split; [exact E|]. split; [|exact F]. intros i Hi. rewrite (B i Hi). f_equal. rewrite axpy_elt_exact. rring.
Qed.

Lemma copy1 : forall n u v (M : mem) (U V : Z -> R), has M u n 1 U -> has M v n 1 V -> vec_apart v n 1 u n 1 ->
  exists M', copy (N := NR) n u 1 v 1 M = Some M' /\ has M' v n 1 U /\ only_vec M M' v n 1.
Proof.
  intros n u v M U V HU HV Hap. apply (copy_spec (N := NR) n u 1 v 1 M U V HU HV ltac:(lia)).
  intros i j Hi Hj. apply Hap; lia.
Qed.

Lemma zero1 : forall n u (M : mem) (U : Z -> R), has M u n 1 U ->
  exists M', zero (N := NR) n u 1 M = Some M' /\ has M' u n 1 (fun _ => 0%R) /\ only_vec M M' u n 1.
Proof. intros n u M U HU. apply (zero_spec (N := NR) n u 1 M U ltac:(lia) HU). Qed.

Lemma dot1 : forall n u v (M : mem) (U V : Z -> R), has M u n 1 U -> has M v n 1 V ->
  dot (N := NR) n u 1 v 1 M = Some (dotp n U V).
Proof. intros n u v M U V HU HV. apply (dot_spec H I); assumption. Qed.

Lemma update_p_spec : forall n p z (beta : R) (M : mem) (P V : Z -> R), 0 <= n -> has M z n 1 V -> has M p n 1 P ->
  vec_apart z n 1 p n 1 ->
  exists M', update_p (N := NR) n p z beta M = Some M' /\ has M' p n 1 (fun i => V i + beta * P i)%R /\ only_vec M M' p n 1.
Proof.
  intros n p z beta M P V Hn HV HP Hap. unfold update_p.
  destruct (map_up (N := NR) 0 n (fun i => p + i) (fun i => V i + beta * P i)%R
     (fun i M => do zi <- M (z + i)%Z; do pi <- M (p + i)%Z; store M (p + i)%Z (nadd (n := NR) zi (nmul (n := NR) beta pi))) M Hn)
    as [M' [E [B F]]].
  - intros i j Hi Hj Ep. lia.
  - intros j M1 Hj Fr.
    assert (Ez : M1 (z + j) = Some (V j)).
    { rewrite Fr; [specialize (HV j Hj); rewrite elt_1 in HV; exact HV|].
      intros i Hi Ei. apply (Hap j i); try lia. rewrite !elt_1. exact Ei. }
    assert (Epp : M1 (p + j) = Some (P j)).
    { rewrite Fr; [specialize (HP j Hj); rewrite elt_1 in HP; exact HP|]. intros i Hi. lia. }
    rewrite Ez, Epp.
    destruct (store_ok (N := NR) M1 (p + j) (P j) (V j + beta * P j)%R Epp) as [M2 [E2 [E3 F3]]].
    exists M2. split; [exact E2|]. split; [exact E3|exact F3].
  - exists M'. split; [exact E|]. split.
    + intros i Hi. rewrite elt_1. apply B. exact Hi.
    + intros p0 Hp0. apply F. intros i Hi. specialize (Hp0 i Hi). rewrite elt_1 in Hp0. exact Hp0.
Qed.

Lemma next_norm_spec : forall n p x (alpha : R) (M : mem) (P X : Z -> R), 0 <= n -> has M p n 1 P -> has M x n 1 X ->
  next_norm (N := NR) n p x alpha M = Some (sqrt (dotp n (fun i => X i + alpha * P i)%R (fun i => X i + alpha * P i)%R)).
Proof.
  intros n p x alpha M P X Hn HP HX. unfold next_norm.
  assert (E : for_up 0 n (fun i sum => do xi <- M (x + i)%Z; do pi <- M (p + i)%Z;
              let tmp := nadd (n := NR) xi (nmul (n := NR) alpha pi) in Some (nadd (n := NR) sum (nmul (n := NR) tmp tmp))) (0%R : NR)
            = Some (dotp n (fun i => X i + alpha * P i)%R (fun i => X i + alpha * P i)%R)).
  { apply (sum_up H I n _ (fun i => (X i + alpha * P i) * (X i + alpha * P i))%R Hn).
    intros j t Hj. specialize (HP j Hj). specialize (HX j Hj). rewrite elt_1 in HP, HX. rewrite HP, HX. reflexivity. }
  exact (f_equal (fun o => do sum <- o; Some (nsqrt (n := NR) sum)) E).
Qed.

Lemma sub_loop_spec : forall n q r (M : mem) (Q V : Z -> R), 0 <= n -> has M q n 1 Q -> has M r n 1 V -> vec_apart r n 1 q n 1 ->
  exists M', for_up 0 n (fun i M => do qi <- M (q + i)%Z; sub_cell (N := NR) (r + i)%Z qi M) M = Some M' /\
    has M' r n 1 (fun i => V i - Q i)%R /\ only_vec M M' r n 1.
Proof.
  intros n q r M Q V Hn HQ HV Hap.
  destruct (map_up (N := NR) 0 n (fun i => r + i) (fun i => V i - Q i)%R
     (fun i M => do qi <- M (q + i)%Z; sub_cell (N := NR) (r + i)%Z qi M) M Hn) as [M' [E [B F]]].
  - intros i j Hi Hj Ep. lia.
  - intros j M1 Hj Fr.
    assert (Eq : M1 (q + j) = Some (Q j)).
    { rewrite Fr; [specialize (HQ j Hj); rewrite elt_1 in HQ; exact HQ|].
      intros i Hi Ei. apply (Hap i j); try lia. rewrite !elt_1. lia. }
    assert (Er : M1 (r + j) = Some (V j)).
    { rewrite Fr; [specialize (HV j Hj); rewrite elt_1 in HV; exact HV|]. intros i Hi. lia. }
    rewrite Eq. unfold sub_cell. rewrite Er.
    destruct (store_ok (N := NR) M1 (r + j) (V j) (V j - Q j)%R Er) as [M2 [E2 [E3 F3]]].
    exists M2. split; [exact E2|]. split; [exact E3|exact F3].
  - exists M'. split; [exact E|]. split.
    + intros i Hi. rewrite elt_1. apply B. exact Hi.
    + intros p0 Hp0. apply F. intros i Hi. specialize (Hp0 i Hi). rewrite elt_1 in Hp0. exact Hp0.
Qed.

(** ** Search direction *)
Lemma direction_spec : forall n p r z rho (M : mem) (P V W : Z -> R), 0 <= n ->
  has M p n 1 P -> has M r n 1 V -> has M z n 1 W -> vec_apart z n 1 p n 1 ->
  exists rho' st M', direction (N := NR) n p r z rho M = Some (rho', st, M') /\
    rho0 rho' = rho0 rho /\ rho1 rho' = dotp n V W /\ rho2 rho' = rho2 rho /\ rho4 rho' = rho4 rho /\
    (((dotp n V W < 0)%R /\ st = CG_NON_CONVEX /\ M' = M) \/
     (dotp n V W = 0%R /\ st = CG_FINISH /\ M' = M) \/
     ((0 < dotp n V W)%R /\ st = CG_AP /\
        has M' p n 1 (fun i => W i + rho3 rho' * P i)%R /\ only_vec M M' p n 1 /\
        ((0 < rho0 rho)%R /\ rho3 rho' = (dotp n V W / rho0 rho)%R \/ (rho0 rho <= 0)%R /\ rho3 rho' = 0%R))).
Proof.
  intros n p r z rho M P V W Hn HP HV HW Hap. unfold direction.
  pose proof (dot1 n r z M V W HV HW) as Ed. set (rz := dotp n V W) in *. clearbody rz.
  rewrite Ed. cbn [rho0 rho1 rho2 rho3 rho4]. unfold ZERO. nrg.
  destruct (Rle_bool_spec rz 0) as [L|L].
  - exists (mkrho (N := NR) (rho0 rho) rz (rho2 rho) (rho3 rho) (rho4 rho)), (if Rlt_bool rz 0 then CG_NON_CONVEX else CG_FINISH), M.
    split; [reflexivity|]. cbn [rho0 rho1 rho2 rho3 rho4]. repeat (split; [reflexivity|]).
    destruct (Rlt_bool_spec rz 0) as [L2|L2]; [left; auto|right; left]. split; [lra|auto].
  - destruct (Rlt_bool_spec 0 (rho0 rho)) as [L2|L2].
    + destruct (update_p_spec n p z (rz / rho0 rho)%R M P W Hn HW HP Hap) as [M' [E [B F]]].
      exists (mkrho (N := NR) (rho0 rho) rz (rho2 rho) (rz / rho0 rho)%R (rho4 rho)), CG_AP, M'.
      split. { rewrite E. reflexivity. }
      cbn [rho0 rho1 rho2 rho3 rho4]. repeat (split; [reflexivity|]). right; right. split; [exact L|]. split; [reflexivity|].
      split; [exact B|]. split; [exact F|]. left. split; [exact L2|reflexivity].
    + destruct (copy1 n z p M W P HW HP (apart_sym _ _ _ Hap)) as [M' [E [B F]]].
      exists (mkrho (N := NR) (rho0 rho) rz (rho2 rho) 0%R (rho4 rho)), CG_AP, M'.
      split. { rewrite E. reflexivity. }
      cbn [rho0 rho1 rho2 rho3 rho4]. repeat (split; [reflexivity|]). right; right. split; [exact L|]. split; [reflexivity|].
      split; [intros i Hi; rewrite (B i Hi); f_equal; rring|]. split; [exact F|]. right. split; [exact L2|reflexivity].
Qed.

(** ** Root of the boundary *)
Lemma root_core : forall a b c d : R, (0 < a)%R -> (c < 0)%R -> (0 < d)%R ->
  exists t : R,
    (if Rlt_bool 0 (b * (1 / d) * (b * (1 / d)) - a * (1 / d) * (c * (1 / d)))
     then if Rle_bool 0 (b * (1 / d))
          then Some (- (c * (1 / d)) / (sqrt (b * (1 / d) * (b * (1 / d)) - a * (1 / d) * (c * (1 / d))) + b * (1 / d)))
          else Some ((sqrt (b * (1 / d) * (b * (1 / d)) - a * (1 / d) * (c * (1 / d))) - b * (1 / d)) / (a * (1 / d)))
     else None)%R = Some t /\ (0 < t)%R /\ (a * t * t + 2 * b * t + c = 0)%R.
Proof.
  intros a b c d Ha Hc Hd.
  set (k := (1 / d)%R). assert (Hk : (0 < k)%R) by (unfold k; apply Rdiv_lt_0_compat; lra). clearbody k. clear d Hd.
  set (a' := (a * k)%R). set (b' := (b * k)%R). set (c' := (c * k)%R).
  assert (Ha' : (0 < a')%R) by (unfold a'; apply Rmult_lt_0_compat; assumption).
  assert (Hc' : (c' < 0)%R) by (unfold c'; nra).
  assert (Hac : (0 < b' * b' - a' * c')%R) by nra.
  destruct (Rlt_bool_spec 0 (b' * b' - a' * c')) as [_|L]; [|lra].
  set (e := sqrt (b' * b' - a' * c')).
  assert (He : (0 < e)%R) by (apply sqrt_lt_R0; exact Hac).
  assert (Ee : (e * e = b' * b' - a' * c')%R) by (apply sqrt_sqrt; lra).
  clearbody e.
  assert (Hroot : forall t, (a' * t * t + 2 * b' * t + c' = 0)%R -> (a * t * t + 2 * b * t + c = 0)%R).
  { intros t E. unfold a', b', c' in E. apply (Rmult_eq_reg_r k); [|lra]. rewrite Rmult_0_l. rewrite <- E. ring. }
  destruct (Rle_bool_spec 0 b') as [Lb|Lb].
  - exists (- c' / (e + b'))%R. split; [reflexivity|]. split.
    + apply Rdiv_lt_0_compat; lra.
    + apply Hroot. apply (Rmult_eq_reg_r ((e + b') * (e + b'))); [|nra]. rewrite Rmult_0_l.
      transitivity (c' * (a' * c' - 2 * b' * (e + b') + (e + b') * (e + b')))%R; [field; lra|].
      replace (a' * c' - 2 * b' * (e + b') + (e + b') * (e + b'))%R with (e * e - (b' * b' - a' * c'))%R by ring. rewrite Ee. ring.
  - exists ((e - b') / a')%R. split; [reflexivity|]. split.
    + apply Rdiv_lt_0_compat; lra.
    + apply Hroot. apply (Rmult_eq_reg_r a'); [|lra]. rewrite Rmult_0_l.
      transitivity (e * e - (b' * b' - a' * c'))%R; [field; lra|]. rewrite Ee. ring.
Qed.

Lemma root_spec : forall a b c : R, (0 < a)%R -> (c < 0)%R ->
  exists t : R, boundary_root (N := NR) a b c = Some t /\ (0 < t)%R /\ (a * t * t + 2 * b * t + c = 0)%R.
Proof.
  intros a b c Ha Hc.
  set (d1 := if Rlt_bool (Rabs a) (Rabs b) then Rabs b else Rabs a).
  destruct (root_core a b c (if Rlt_bool d1 (Rabs c) then Rabs c else d1) Ha Hc) as [t [E [P Q]]].
  { assert (0 < Rabs a)%R by (apply Rabs_pos_lt; lra). assert (0 < Rabs c)%R by (apply Rabs_pos_lt; lra).
    unfold d1. destruct (Rlt_bool_spec (Rabs a) (Rabs b)) as [Z1|Z1].
    - destruct (Rlt_bool_spec (Rabs b) (Rabs c)); lra.
    - destruct (Rlt_bool_spec (Rabs a) (Rabs c)); lra. }
  exists t. split; [exact E|]. split; assumption.
Qed.

End Exact.
