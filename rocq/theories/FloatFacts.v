(** * IEEE arithmetic: neutral elements, and equality up to the sign of zero *)
From Coq Require Import ZArith Reals Bool Lra Lia Psatz.
From Flocq Require Import Core BinarySingleNaN.
From Verif Require Import Num.

Section Float.
Variables prec emax : Z.
Context (Hp : Prec_gt_0 prec) (Hm : Prec_lt_emax prec emax).
Notation F := (binary_float prec emax).
Notation "x ⊕ y" := (@Bplus prec emax Hp Hm mode_NE x y) (at level 50, left associativity).
Notation "x ⊗ y" := (@Bmult prec emax Hp Hm mode_NE x y) (at level 40, left associativity).

(** Equal, or both zeros. *)
Definition eqz (a b : F) : Prop := a = b \/ (exists s t, a = B754_zero s /\ b = B754_zero t).

Lemma eqz_refl a : eqz a a.
Proof. left; reflexivity. Qed.
Lemma eqz_sym a b : eqz a b -> eqz b a.
Proof. intros [->|(s & t & -> & ->)]; [left|right]; eauto. Qed.
Lemma eqz_trans a b c : eqz a b -> eqz b c -> eqz a c.
Proof.
  intros [->|(s & t & -> & ->)]; auto. intros [<-|(s' & t' & Hs & ->)]; right; eauto.
Qed.

Lemma Bplus_comm x y : x ⊕ y = y ⊕ x.
Proof.
  destruct x as [sx|sx| |sx mx ex Hx], y as [sy|sy| |sy my ey Hy]; simpl; auto.
  - destruct sx, sy; reflexivity.
  - destruct sx, sy; reflexivity.
  - rewrite Z.min_comm. f_equal. unfold Fplus_naive. apply Z.add_comm.
Qed.

Lemma Bminus_opp x y : @Bminus prec emax Hp Hm mode_NE x y = x ⊕ Bopp y.
Proof. destruct x as [sx|sx| |sx mx ex Hx], y as [sy|sy| |sy my ey Hy]; reflexivity. Qed.

Lemma Bplus_eqz a a' b b' : eqz a a' -> eqz b b' -> eqz (a ⊕ b) (a' ⊕ b').
Proof.
  intros [->|(s & t & -> & ->)] [->|(s' & t' & -> & ->)].
  - left; reflexivity.
  - destruct a' as [u|u| |u mu eu Hu]; simpl; try (left; reflexivity).
    right. destruct u, s', t'; simpl; eauto.
  - destruct b' as [u|u| |u mu eu Hu]; simpl; try (left; reflexivity).
    right. destruct u, s, t; simpl; eauto.
  - right. destruct s, t, s', t'; simpl; eauto.
Qed.

Lemma Bplus_zero_l s x : eqz (B754_zero s ⊕ x) x.
Proof.
  destruct x as [t|t| |t m e H]; simpl; try (left; reflexivity).
  right. destruct s, t; simpl; eauto.
Qed.
Lemma Bplus_zero_r s x : eqz (x ⊕ B754_zero s) x.
Proof. rewrite Bplus_comm. apply Bplus_zero_l. Qed.

Lemma Bmult_zero_l s x : is_finite x = true -> exists t, B754_zero s ⊗ x = B754_zero t.
Proof. destruct x as [t|t| |t m e H]; simpl; try discriminate; eauto. Qed.

Lemma fin_format (x : F) : generic_format radix2 (FLT_exp (SpecFloat.emin prec emax) prec) (B2R x).
Proof. apply generic_format_B2R. Qed.

Lemma B2R_lt_emax (x : F) : (Rabs (B2R x) < bpow radix2 emax)%R.
Proof. apply abs_B2R_lt_emax. Qed.

Lemma FofZ_small (k : Z) : (Z.abs k <= 1)%Z -> B2R (FofZ prec emax Hp Hm k) = IZR k /\
   is_finite (FofZ prec emax Hp Hm k) = true /\ Bsign (FofZ prec emax Hp Hm k) = Z.ltb k 0.
Proof.
  intros Hk. unfold FofZ.
  pose proof (binary_normalize_correct prec emax Hp Hm mode_NE k 0 false) as H.
  assert (Hf : F2R (Float radix2 k 0) = IZR k) by (unfold F2R; simpl; lra).
  cbv zeta in H. rewrite Hf in H.
  assert (G : generic_format radix2 (FLT_exp (SpecFloat.emin prec emax) prec) (IZR k)).
  { rewrite <- Hf. apply generic_format_FLT. exists (Float radix2 k 0); auto; simpl.
    - apply Z.le_lt_trans with 1%Z; auto. apply (Zpower_gt_1 radix2 prec). apply Hp.
    - unfold SpecFloat.emin. pose proof Hm. pose proof Hp. unfold Prec_lt_emax, Prec_gt_0 in *. lia. }
  rewrite round_generic in H; auto with typeclass_instances.
  rewrite Rlt_bool_true in H.
  - destruct H as (H1 & H2 & H3). repeat split; auto. rewrite H3.
    destruct k as [|p|p]; simpl.
    + rewrite Rcompare_Eq by lra. reflexivity.
    + rewrite Rcompare_Gt by (apply IZR_lt; lia). reflexivity.
    + rewrite Rcompare_Lt by (apply IZR_lt; lia). reflexivity.
  - apply Rle_lt_trans with 1%R.
    + rewrite <- abs_IZR. apply IZR_le. lia.
    + apply (bpow_lt radix2 0 emax). pose proof Hm. pose proof Hp. unfold Prec_lt_emax, Prec_gt_0 in *. lia.
Qed.

Lemma FofZ_0 : FofZ prec emax Hp Hm 0 = B754_zero false.
Proof. reflexivity. Qed.

Lemma Bmult_unit (k : Z) (x : F) : Z.abs k = 1%Z ->
  FofZ prec emax Hp Hm k ⊗ x = if Z.ltb k 0 then Bopp x else x.
Proof.
  intros Hk. destruct (FofZ_small k) as (V & Fi & S); [lia|].
  set (u := FofZ prec emax Hp Hm k) in *. clearbody u.
  assert (Hk1 : k = 1%Z \/ k = (-1)%Z) by lia.
  destruct u as [su|su| |su mu eu Hu]; try discriminate.
  { exfalso. simpl in V. destruct Hk1; subst k; lra. }
  destruct x as [sx|sx| |sx mx ex Hx]; try (simpl in S |- *; subst su; destruct Hk1; subst k; simpl; reflexivity).
  - simpl in S |- *; subst su; destruct Hk1; subst k; destruct sx; reflexivity.
  - simpl in S |- *; subst su; destruct Hk1; subst k; destruct sx; reflexivity.
  - set (x := B754_finite sx mx ex Hx). set (u := B754_finite su mu eu Hu) in *.
    pose proof (Bmult_correct prec emax Hp Hm mode_NE u x) as M. rewrite V in M.
    assert (R1 : (IZR k * B2R x)%R = B2R (if Z.ltb k 0 then Bopp x else x)).
    { destruct Hk1; subst k; [change (1 <? 0)%Z with false|change (-1 <? 0)%Z with true]; cbv iota; rewrite ?B2R_Bopp; generalize (B2R x); intros r; lra. }
    rewrite R1 in M. rewrite round_generic in M; auto with typeclass_instances.
    2: apply fin_format.
    rewrite Rlt_bool_true in M by apply B2R_lt_emax.
    destruct M as (M1 & M2 & M3).
    apply B2R_Bsign_inj.
    + rewrite M2. reflexivity.
    + destruct Hk1; subst k; reflexivity.
    + exact M1.
    + rewrite M3.
      * rewrite S. destruct Hk1; subst k; unfold x; destruct sx; reflexivity.
      * destruct (u ⊗ x); simpl in M2 |- *; auto; discriminate.
Qed.

Lemma Beqb_eqz (x y : F) : Beqb x y = true -> eqz x y.
Proof.
  destruct x as [sx|sx| |sx mx ex Hx], y as [sy|sy| |sy my ey Hy]; intros H;
    try discriminate; try (destruct sx; discriminate); try (destruct sy; discriminate).
  - right; eauto.
  - left. destruct sx, sy; try discriminate; reflexivity.
  - left. rewrite Beqb_correct in H by reflexivity. apply B2R_inj; auto.
    revert H. case Req_bool_spec; auto; discriminate.
Qed.

Lemma Beqb_unit (k : Z) (x : F) : Z.abs k = 1%Z -> Beqb x (FofZ prec emax Hp Hm k) = true -> x = FofZ prec emax Hp Hm k.
Proof.
  intros Hk He. destruct (Beqb_eqz _ _ He) as [H|(s & t & H1 & H2)]; auto.
  destruct (FofZ_small k) as (V & _); [lia|]. rewrite H2 in V. simpl in V. exfalso.
  apply (eq_IZR 0 k) in V. lia.
Qed.

Lemma Beqb_zero (x : F) : Beqb x (FofZ prec emax Hp Hm 0) = true -> exists s, x = B754_zero s.
Proof.
  intros He. destruct (Beqb_eqz _ _ He) as [H|(s & t & H1 & H2)]; eauto.
Qed.
End Float.
