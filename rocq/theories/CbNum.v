(** * The arithmetics for which the accesses of COBYLA are correct: exact reals, double and single precision *)
From Coq Require Import ZArith Reals Bool Lra.
From Flocq Require Import Core BinarySingleNaN.
From Verif Require Import Num NumFacts CbSpec.
Local Open Scope R_scope.

Lemma CbLawsR H I : CbLaws (NumR H I).
Proof.
  split; [apply Req_bool_true; reflexivity|]. intros a r Ha t. cbn [nlt nmul nQ NumR]. intros E.
  assert (Hs : 0 <= t).
  { unfold t. cbn [ndiv nZ nsqrt NumR]. destruct (Req_dec (R_sqrt.sqrt a) 0) as [->|Nz].
    - unfold Rdiv. rewrite Rinv_0. lra.
    - apply Rmult_le_pos; [lra|]. apply Rlt_le, Rinv_0_lt_compat. pose proof (sqrt_pos a). lra. }
  clearbody t. cbn [num NumR] in *. revert E. case Rlt_bool_spec; [intros E _|discriminate]. apply Rlt_bool_true. lra.
Qed.

Section IEEE.
Variables prec emax : Z.
Context (Hp : Prec_gt_0 prec) (Hm : Prec_lt_emax prec emax).
Notation bf := (binary_float prec emax).
Notation F := (NumF prec emax Hp Hm).
Notation rnd := (round radix2 (SpecFloat.fexp prec emax) (round_mode mode_NE)).

Lemma inf_eq (x : bf) s : B2SF x = SpecFloat.S754_infinity s -> x = B754_infinity s.
Proof. destruct x; cbn; intros E; try discriminate; injection E as ->; reflexivity. Qed.
Lemma sign_fin (x : bf) : is_finite x = true -> Bsign x = false -> 0 <= B2R x.
Proof.
  destruct x as [s|s| |s m e]; cbn; try discriminate; intros _ E; [lra|]. subst s. apply F2R_ge_0. cbn. apply Pos2Z.is_nonneg.
Qed.

Lemma mult_sign (b : bf) : Bsign (Bmult mode_NE b b) = false.
Proof.
  destruct (is_nan (Bmult mode_NE b b)) eqn:E; [destruct (Bmult mode_NE b b); try discriminate; reflexivity|].
  pose proof (Bmult_correct prec emax Hp Hm mode_NE b b) as H. rewrite xorb_nilpotent in H. destruct (Rlt_bool _ _).
  - apply H, E.
  - rewrite (inf_eq _ _ H). reflexivity.
Qed.
Lemma plus_sign (x y : bf) : Bsign x = false -> Bsign y = false -> Bsign (Bplus mode_NE x y) = false.
Proof.
  intros Sx Sy. destruct (is_finite x) eqn:Fx, (is_finite y) eqn:Fy.
  - pose proof (Bplus_correct prec emax Hp Hm mode_NE x y Fx Fy) as H. pose proof (sign_fin x Fx Sx). pose proof (sign_fin y Fy Sy).
    destruct (Rlt_bool _ _).
    + destruct H as (_ & _ & ->). destruct (Rcompare_spec (B2R x + B2R y) 0); [lra| |reflexivity]. rewrite Sx. reflexivity.
    + destruct H as [H _]. rewrite Sx in H. rewrite (inf_eq _ _ H). reflexivity.
  - destruct y as [s|s| |s m e]; try discriminate; cbn in Sy; destruct x as [t|t| |t m e]; try discriminate; cbn in Sx |- *; auto.
  - destruct x as [s|s| |s m e]; try discriminate; cbn in Sx; destruct y as [t|t| |t m e]; try discriminate; cbn in Sy |- *; auto.
  - destruct x as [s|s| |s m e]; try discriminate; destruct y as [t|t| |t m' e']; try discriminate; cbn in Sx, Sy |- *; subst; auto.
Qed.
Lemma sumsq_sign (a : F) : sumsq a -> Bsign (a : bf) = false.
Proof.
  induction 1 as [|a b _ IH]; [reflexivity|]. cbn. apply plus_sign; [exact IH|apply mult_sign].
Qed.
Lemma sqrt_sign (a : bf) : Bsign a = false -> Bsign (Bsqrt mode_NE a) = false.
Proof.
  intros S. destruct (is_nan (Bsqrt mode_NE a)) eqn:E; [destruct (Bsqrt mode_NE a); try discriminate; reflexivity|].
  pose proof (Bsqrt_correct prec emax Hp Hm mode_NE a) as (_ & _ & H). rewrite H; auto.
Qed.
Lemma div_sign (x y : bf) : Bsign x = false -> Bsign y = false -> Bsign (Bdiv mode_NE x y) = false.
Proof.
  intros Sx Sy. destruct (is_nan (Bdiv mode_NE x y)) eqn:E; [destruct (Bdiv mode_NE x y); try discriminate; reflexivity|].
  destruct (Req_dec (B2R y) 0) as [Y|Y].
  - destruct y as [s|s| |s m e]; cbn in Sy; subst.
    + destruct x as [t|t| |t m' e']; cbn in Sx |- *; subst; auto.
    + destruct x as [t|t| |t m' e']; cbn in Sx |- *; subst; auto.
    + destruct x as [t|t| |t m' e']; cbn in Sx |- *; subst; auto.
    + exfalso. revert Y. cbn. apply Rgt_not_eq. apply F2R_gt_0. reflexivity.
  - pose proof (Bdiv_correct prec emax Hp Hm mode_NE x y Y) as H. rewrite Sx, Sy in H. destruct (Rlt_bool _ _).
    + apply H, E.
    + rewrite (inf_eq _ _ H). reflexivity.
Qed.

Lemma key_nonneg (x : bf) k : Bsign x = false -> fkey prec emax x = Some k -> 0 <= k.
Proof.
  intros S. pose proof (bpow_gt_0 radix2 emax). destruct x as [s|s| |s m e]; cbn in S; subst; cbn [fkey]; intros [= <-].
  - cbn. lra.
  - lra.
  - apply (sign_fin (B754_finite false m e e0)); reflexivity.
Qed.

(** The product by a larger factor *)
Lemma mult_mono (p q r : bf) k : is_finite_strict p = true -> is_finite_strict q = true -> 0 < B2R p <= B2R q ->
  fkey prec emax (Bmult mode_NE p r) = Some k -> 0 < k -> exists k', fkey prec emax (Bmult mode_NE q r) = Some k' /\ k <= k'.
Proof.
  intros Fp Fq [P1 P2] E K. pose proof (bpow_gt_0 radix2 emax) as BP.
  assert (SP : Bsign p = false).
  { destruct p as [s|s| |s m e]; try discriminate. cbn in P1 |- *. destruct s; [|reflexivity]. exfalso. revert P1. apply Rle_not_lt.
    apply F2R_le_0. cbn. apply Pos2Z.neg_is_nonpos. }
  assert (SQ : Bsign q = false).
  { assert (0 < B2R q) as P3 by lra. destruct q as [s|s| |s m e]; try discriminate. cbn in P3 |- *. destruct s; [|reflexivity].
    exfalso. revert P3. apply Rle_not_lt. apply F2R_le_0. cbn. apply Pos2Z.neg_is_nonpos. }
  assert (Fp' : is_finite p = true) by (destruct p; try discriminate; reflexivity).
  assert (Fq' : is_finite q = true) by (destruct q; try discriminate; reflexivity).
  destruct (is_finite r) eqn:Fr.
  - pose proof (Bmult_correct prec emax Hp Hm mode_NE p r) as H1. pose proof (Bmult_correct prec emax Hp Hm mode_NE q r) as H2.
    cbn [xorb] in *. rewrite SP in H1. rewrite SQ in H2. rewrite xorb_false_l in H1, H2.
    assert (R0 : 0 < B2R r).
    { apply Rnot_le_lt. intros R0. assert (Z1 : rnd (B2R p * B2R r) <= 0).
      { replace 0 with (rnd 0) by (apply round_0; auto with typeclass_instances). apply round_le; [apply fexp_correct; auto|auto with typeclass_instances|].
        assert (0 <= B2R p * - B2R r) by (apply Rmult_le_pos; lra). lra. }
      destruct (Rlt_bool _ _) eqn:L1 in H1.
      - destruct H1 as (V & W & _). rewrite Fp', Fr in W. rewrite fkey_finite in E by exact W. injection E as <-. lra.
      - destruct (Bsign r) eqn:SR.
        + rewrite (inf_eq _ _ H1) in E. cbn in E. injection E as <-. lra.
        + pose proof (sign_fin r Fr SR). assert (B2R r = 0) as Z0 by lra. rewrite Z0, Rmult_0_r, round_0, Rabs_R0 in L1 by auto with typeclass_instances.
          revert L1. case Rlt_bool_spec; [discriminate|lra]. }
    assert (SR : Bsign r = false).
    { destruct r as [s|s| |s m e]; try discriminate; [cbn in R0; lra|]. cbn in R0 |- *. destruct s; [|reflexivity]. exfalso. revert R0. apply Rle_not_lt.
      apply F2R_le_0. cbn. apply Pos2Z.neg_is_nonpos. }
    rewrite SR in H1, H2.
    assert (M : rnd (B2R p * B2R r) <= rnd (B2R q * B2R r)).
    { apply round_le; [apply fexp_correct; auto|auto with typeclass_instances|]. apply Rmult_le_compat_r; lra. }
    assert (M0 : 0 <= rnd (B2R p * B2R r)).
    { replace 0 with (rnd 0) by (apply round_0; auto with typeclass_instances). apply round_le; [apply fexp_correct; auto|auto with typeclass_instances|].
      apply Rmult_le_pos; lra. }
    destruct (Rlt_bool _ _) eqn:L2 in H2.
    + destruct H2 as (V2 & W2 & _). rewrite Fq', Fr in W2. exists (B2R (Bmult mode_NE q r)). split; [apply fkey_finite, W2|].
      rewrite V2. destruct (Rlt_bool _ _) eqn:L1 in H1.
      * destruct H1 as (V1 & W1 & _). rewrite Fp', Fr in W1. rewrite fkey_finite in E by exact W1. injection E as <-. lra.
      * exfalso. revert L1 L2. rewrite !Rabs_pos_eq by lra. do 2 (case Rlt_bool_spec; try discriminate). intros. lra.
    + rewrite (inf_eq _ _ H2). exists (bpow radix2 emax). split; [reflexivity|].
      destruct (Rlt_bool _ _) eqn:L1 in H1.
      * destruct H1 as (V1 & W1 & _). rewrite Fp', Fr in W1. rewrite fkey_finite in E by exact W1. injection E as <-. rewrite V1.
        revert L1. case Rlt_bool_spec; [|discriminate]. intros L _. rewrite Rabs_pos_eq in L by lra. lra.
      * rewrite (inf_eq _ _ H1) in E. cbn in E. injection E as <-. lra.
  - destruct p as [s|s| |s m e]; try discriminate. cbn in SP. subst s. destruct q as [s|s| |s m' e']; try discriminate. cbn in SQ. subst s.
    destruct r as [s|s| |s m'' e'']; try discriminate. cbn in E. exists k. cbn. split; [exact E|lra].
Qed.

Lemma CbLawsF : Bsign (nZ 1 : F) = false -> is_finite_strict (nQ 1 4 : F) = true -> is_finite_strict (nQ 21 10 : F) = true ->
  0 < B2R (nQ 1 4 : F) <= B2R (nQ 21 10 : F) -> CbLaws F.
Proof.
  intros S1 F1 F2 H12. split.
  - rewrite (key_eq _ (OrdF prec emax Hp Hm)). cbn [key OrdF]. change (nZ 0 : F) with (B754_zero false : bf). cbn.
    apply Req_bool_true. reflexivity.
  - intros a r Ha t. rewrite !(key_lt _ (OrdF prec emax Hp Hm)). cbn [key OrdF].
    assert (St : Bsign (t : bf) = false).
    { unfold t. apply div_sign; [|apply sqrt_sign, sumsq_sign, Ha].
      exact S1. }
    clearbody t. destruct (fkey prec emax t) as [kt|] eqn:Et; [|discriminate].
    pose proof (key_nonneg t kt St Et).
    change (nmul (nQ 1 4) r) with (Bmult mode_NE (nQ 1 4 : F) r). change (nmul (nQ 21 10) r) with (Bmult mode_NE (nQ 21 10 : F) r).
    destruct (fkey prec emax (Bmult mode_NE (nQ 1 4 : F) r)) as [k|] eqn:Ek; [|discriminate]. case Rlt_bool_spec; [intros L _|discriminate].
    destruct (mult_mono _ _ r k F1 F2 H12 Ek) as (k' & -> & L'); [lra|]. apply Rlt_bool_true. lra.
Qed.
End IEEE.

Lemma quarter_le (prec emax : Z) (p q : binary_float prec emax) :
  is_finite p = true -> is_finite q = true -> Bltb (B754_zero false) p = true -> Bleb p q = true -> 0 < B2R p <= B2R q.
Proof.
  intros Fp Fq. unfold Bltb, Bleb, SpecFloat.SFltb, SpecFloat.SFleb.
  change (SpecFloat.SFcompare (B2SF (B754_zero false)) (B2SF p)) with (Bcompare (B754_zero false) p).
  change (SpecFloat.SFcompare (B2SF p) (B2SF q)) with (Bcompare p q).
  rewrite !Bcompare_correct by auto. cbn [B2R]. do 2 (case Rcompare_spec; try discriminate; intros ? ?); lra.
Qed.
Lemma CbLawsD : CbLaws NumD.
Proof. apply CbLawsF; [vm_compute; reflexivity|vm_compute; reflexivity|vm_compute; reflexivity|]. apply quarter_le; vm_compute; reflexivity. Qed.
Lemma CbLawsS : CbLaws NumS.
Proof. apply CbLawsF; [vm_compute; reflexivity|vm_compute; reflexivity|vm_compute; reflexivity|]. apply quarter_le; vm_compute; reflexivity. Qed.
