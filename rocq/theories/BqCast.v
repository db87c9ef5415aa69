(** * The arithmetic facts used by bobyqa_optimize: conversion to an index and difference of the bounds *)
From Coq Require Import ZArith Reals List Bool Lia Lra.
From Flocq Require Import Core BinarySingleNaN Relative.
From Verif Require Import Num NumFacts BqLang BqModel BqSpec.
Local Open Scope Z_scope.

(** ** Truncation *)
Lemma truncn_spec {N : Num} k : forall i (v : N) s iw s', truncn k i v s = Ret iw s' ->
  i <= iw < i + Z.of_nat k /\ nlt v (nZ (iw + 1)) = true /\ (iw = i \/ nlt v (nZ iw) = false).
Proof.
  induction k as [|k IH]; intros i v s iw s'; cbn [truncn]; [discriminate|].
  destruct (nlt v (nZ (i + 1))) eqn:E.
  - intros H. injection H as <- _. repeat split; auto; lia.
  - intros H. destruct (IH _ _ _ _ _ H) as (H1 & H2 & H3). split; [lia|]. split; [exact H2|].
    destruct H3 as [->|H3]; auto.
Qed.

Lemma trunc_spec {N : Num} lim (v : N) s iw s' : nlt v (nZ 0) = false -> trunc lim v s = Ret iw s' ->
  0 <= iw <= Z.max 0 lim /\ nlt v (nZ (iw + 1)) = true /\ nlt v (nZ iw) = false.
Proof.
  intros Hv. unfold trunc. rewrite Hv. intros H. destruct (truncn_spec _ _ _ _ _ _ H) as (H1 & H2 & [->|H3]);
    (split; [lia|auto]).
Qed.

Lemma cast_ok_R H I n npt : 2 <= n -> cast_ok (NumR H I) n npt.
Proof.
  intros Hn k iw s s' Hk E. apply trunc_spec in E.
  2:{ apply Rlt_bool_false. apply Rle_mult_inv_pos; [|apply (IZR_lt 0); lia]. cbn.
      assert (IZR 1 <= IZR (k - (n + 1)))%R by (apply IZR_le; lia). lra. }
  destruct E as (H1 & H2 & H3). cbn in H2, H3.
  assert (Hp : (0 < IZR n)%R) by (apply (IZR_lt 0); lia).
  set (v := ((IZR (k - (n + 1)) - 1 / 2) / IZR n)%R) in *.
  assert (Ev : (v * IZR n = IZR (k - (n + 1)) - 1 / 2)%R) by (unfold v; field; lra). clearbody v.
  revert H2; case Rlt_bool_spec; [intros H2 _|discriminate].
  revert H3; case Rlt_bool_spec; [discriminate|intros H3 _].
  assert (A : (IZR (iw * n) <= IZR (k - (n + 1)) - 1 / 2)%R).
  { rewrite mult_IZR, <- Ev. apply Rmult_le_compat_r; [lra|exact H3]. }
  assert (B : (IZR (k - (n + 1)) - 1 / 2 < IZR ((iw + 1) * n))%R).
  { rewrite mult_IZR, <- Ev. apply Rmult_lt_compat_r; [lra|exact H2]. }
  assert (iw * n < k - (n + 1)) by (apply lt_IZR; lra).
  assert (k - (n + 1) < (iw + 1) * n + 1) by (apply lt_IZR; rewrite plus_IZR; lra). lia.
Qed.

(** ** IEEE 754 double precision *)
Local Notation fexp := (SpecFloat.fexp 53 1024).
Local Notation rnd := (round radix2 fexp (round_mode mode_NE)).

Lemma D_format_Z z e : Z.abs z <= 2 ^ 53 -> -1074 <= e -> generic_format radix2 fexp (IZR z * bpow radix2 e).
Proof.
  intros Hz He. destruct (Z.eq_dec (Z.abs z) (2 ^ 53)) as [Ez|Ez].
  - assert (Hg : generic_format radix2 fexp (bpow radix2 (53 + e))).
    { apply generic_format_bpow. change fexp with (FLT_exp (3 - 1024 - 53) 53). unfold FLT_exp. lia. }
    assert (E53 : IZR (2 ^ 53) = bpow radix2 53) by reflexivity.
    destruct (Z.abs_spec z) as [[_ E]|[_ E]].
    + replace z with (2 ^ 53)%Z by lia. rewrite E53, <- bpow_plus. exact Hg.
    + replace z with (- 2 ^ 53)%Z by lia. rewrite opp_IZR, E53, Ropp_mult_distr_l_reverse, <- bpow_plus.
      apply generic_format_opp, Hg.
  - apply generic_format_FLT. exists (Float radix2 z e); cbn; [reflexivity|lia|lia].
Qed.

Lemma D_lt_max x : (Rabs x <= IZR (2 ^ 60))%R -> Rlt_bool (Rabs (rnd x)) (bpow radix2 1024) = true.
Proof.
  intros H. apply Rlt_bool_true. apply Rle_lt_trans with (bpow radix2 60).
  - apply abs_round_le_generic; [apply FLT_exp_valid; reflexivity|apply valid_rnd_N| |exact H].
    apply generic_format_bpow. cbn. lia.
  - apply bpow_lt. lia.
Qed.

Lemma D_Z z : Z.abs z <= 2 ^ 53 -> B2R (nZ z : NumD) = IZR z /\ is_finite (nZ z : NumD) = true.
Proof.
  intros Hz. assert (H := binary_normalize_correct 53 1024 Hp53 Hm53 mode_NE z 0 false).
  assert (Hg := D_format_Z z 0 Hz ltac:(lia)).
  assert (E : F2R (Float radix2 z 0) = (IZR z * bpow radix2 0)%R) by reflexivity.
  rewrite E in H. rewrite Rmult_1_r in H, Hg.
  cbv zeta in H. rewrite D_lt_max in H.
  - destruct H as (H1 & H2 & _). split; [|exact H2]. cbn [nZ NumD NumF]. unfold FofZ. rewrite H1. apply round_generic; [apply valid_rnd_N|exact Hg].
  - rewrite <- abs_IZR. apply IZR_le. lia.
Qed.

Lemma D_half : B2R (nQ 1 2 : NumD) = (1 / 2)%R /\ is_finite (nQ 1 2 : NumD) = true.
Proof.
  destruct (D_Z 1 ltac:(lia)) as [A1 A2]. destruct (D_Z 2 ltac:(lia)) as [B1 B2].
  assert (H := Bdiv_correct 53 1024 Hp53 Hm53 mode_NE (nZ 1 : NumD) (nZ 2 : NumD)).
  rewrite A1, B1 in H. specialize (H ltac:(lra)).
  assert (Hg := D_format_Z 1 (-1) ltac:(lia) ltac:(lia)).
  assert (Eb : (IZR 1 * bpow radix2 (-1) = 1 / 2)%R) by (cbn; lra).
  rewrite Eb in Hg. rewrite D_lt_max in H.
  - destruct H as (H1 & H2 & _). split; [|rewrite <- A2; exact H2].
    etransitivity; [exact H1|]. apply round_generic; [apply valid_rnd_N|exact Hg].
  - rewrite Rabs_pos_eq by lra. assert (1 <= IZR (2 ^ 60))%R by (apply IZR_le; lia). lra.
Qed.

Lemma D_m_half m : 1 <= m <= 2 ^ 51 ->
  B2R (nsub (nZ m) (nQ 1 2) : NumD) = (IZR m - 1 / 2)%R /\ is_finite (nsub (nZ m) (nQ 1 2) : NumD) = true.
Proof.
  intros Hm. destruct (D_Z m ltac:(lia)) as [A1 A2]. destruct D_half as [B1 B2].
  assert (H := Bminus_correct 53 1024 Hp53 Hm53 mode_NE (nZ m : NumD) (nQ 1 2 : NumD) A2 B2).
  rewrite A1, B1 in H.
  assert (Hg := D_format_Z (2 * m - 1) (-1) ltac:(lia) ltac:(lia)).
  assert (Eb : (IZR (2 * m - 1) * bpow radix2 (-1) = IZR m - 1 / 2)%R) by (rewrite minus_IZR, mult_IZR; cbn; lra).
  rewrite Eb in Hg. rewrite D_lt_max in H.
  - destruct H as (H1 & H2 & _). split; [|exact H2]. etransitivity; [exact H1|]. apply round_generic; [apply valid_rnd_N|exact Hg].
  - assert (1 <= IZR m <= IZR (2 ^ 51))%R by (split; apply IZR_le; lia).
    assert (IZR (2 ^ 51) <= IZR (2 ^ 60))%R by (apply IZR_le; lia). rewrite Rabs_pos_eq; lra.
Qed.

Lemma D_quot m n : 1 <= m <= 2 ^ 51 -> 1 <= n <= 2 ^ 51 ->
  B2R (ndiv (nsub (nZ m) (nQ 1 2)) (nZ n) : NumD) = rnd ((IZR m - 1 / 2) / IZR n)
  /\ is_finite (ndiv (nsub (nZ m) (nQ 1 2)) (nZ n) : NumD) = true.
Proof.
  intros Hm Hn. destruct (D_m_half m Hm) as [A1 A2]. destruct (D_Z n ltac:(lia)) as [B1 B2].
  assert (H := Bdiv_correct 53 1024 Hp53 Hm53 mode_NE (nsub (nZ m) (nQ 1 2) : NumD) (nZ n : NumD)).
  assert (Hr : (1 <= IZR n)%R) by (apply IZR_le; lia).
  rewrite A1, B1 in H. specialize (H ltac:(lra)).
  rewrite D_lt_max in H.
  - destruct H as (H1 & H2 & _). split; [exact H1|rewrite <- A2; exact H2].
  - assert (1 <= IZR m <= IZR (2 ^ 51))%R by (split; apply IZR_le; lia).
    assert (IZR (2 ^ 51) <= IZR (2 ^ 60))%R by (apply IZR_le; lia).
    rewrite Rabs_pos_eq by (apply Rle_mult_inv_pos; lra).
    apply Rmult_le_reg_r with (IZR n); [lra|]. unfold Rdiv. rewrite Rmult_assoc, Rinv_l by lra. nra.
Qed.

Lemma cast_ok_D n npt : 2 <= n -> npt <= 2 ^ 51 -> cast_ok NumD n npt.
Proof.
  intros Hn Hnpt k iw s s' Hk E. set (m := k - (n + 1)) in *.
  assert (Hm : 1 <= m <= 2 ^ 51) by lia.
  destruct (D_quot m n Hm ltac:(lia)) as [V1 V2]. set (v := ndiv _ _) in *.
  assert (Kv := fkey_finite 53 1024 v V2).
  assert (R1 : (1 <= IZR m <= IZR (2 ^ 51))%R) by (split; apply IZR_le; lia).
  assert (Rn : (2 <= IZR n)%R) by (apply IZR_le; lia).
  set (q := ((IZR m - 1 / 2) / IZR n)%R) in *.
  assert (Eq : (q * IZR n = IZR m - 1 / 2)%R) by (unfold q; field; lra).
  assert (Hq : (0 < q)%R) by (apply Rmult_lt_reg_r with (IZR n); lra).
  assert (Z0 : B2R (nZ 0 : NumD) = 0%R /\ is_finite (nZ 0 : NumD) = true) by (apply D_Z; lia).
  assert (Hltb : forall z, Z.abs z <= 2 ^ 53 -> nlt (v : NumD) (nZ z) = Rlt_bool (rnd q) (IZR z)).
  { intros z Hz. destruct (D_Z z Hz) as [C1 C2]. rewrite (key_lt _ OrdD). cbn [key OrdD OrdF].
    rewrite Kv, (fkey_finite _ _ _ C2), C1, V1. reflexivity. }
  apply trunc_spec in E.
  2:{ rewrite Hltb by lia. apply Rlt_bool_false. apply round_ge_generic; [apply FLT_exp_valid; reflexivity|apply valid_rnd_N|apply generic_format_0|lra]. }
  destruct E as (H1 & H2 & H3).
  assert (Hrel : (Rabs (rnd q - q) <= / 2 * bpow radix2 (- 53 + 1) * Rabs q)%R).
  { apply (relative_error_N_FLT radix2 (3 - 1024 - 53) 53 ltac:(reflexivity)).
    rewrite Rabs_pos_eq by lra. apply Rle_trans with (bpow radix2 (-52)).
    - apply bpow_le. lia.
    - apply Rmult_le_reg_r with (IZR n); [lra|]. rewrite Eq.
      apply Rle_trans with (bpow radix2 (-52) * bpow radix2 51)%R.
      + apply Rmult_le_compat_l; [apply bpow_ge_0|]. change (bpow radix2 51) with (IZR (2 ^ 51)). apply IZR_le. lia.
      + rewrite <- bpow_plus. cbn. lra. }
  assert (Hqb : (q * bpow radix2 (-53) * IZR n < 1 / 2)%R).
  { replace (q * bpow radix2 (-53) * IZR n)%R with ((IZR m - 1 / 2) * bpow radix2 (-53))%R by (rewrite <- Eq; ring).
    assert (Q0 := bpow_gt_0 radix2 (-53)).
    apply Rle_lt_trans with (IZR (2 ^ 51) * bpow radix2 (-53))%R; [apply Rmult_le_compat_r; lra|].
    change (IZR (2 ^ 51)) with (bpow radix2 51). rewrite <- bpow_plus. cbn. lra. }
  rewrite (Rabs_pos_eq q) in Hrel by lra.
  assert (Hb : (rnd q <= q + q * bpow radix2 (-53))%R).
  { apply Rabs_le_inv in Hrel. replace (/ 2 * bpow radix2 (- 53 + 1))%R with (bpow radix2 (-53)) in Hrel; [lra|].
    rewrite bpow_plus. cbn. lra. }
  rewrite Hltb in H2, H3 by lia.
  revert H2; case Rlt_bool_spec; [intros H2 _|discriminate].
  revert H3; case Rlt_bool_spec; [discriminate|intros H3 _].
  assert (A : (IZR (iw * n) < IZR m)%R).
  { rewrite mult_IZR. apply Rle_lt_trans with ((q + q * bpow radix2 (-53)) * IZR n)%R; [apply Rmult_le_compat_r; lra|].
    rewrite Rmult_plus_distr_r, Eq. lra. }
  apply lt_IZR in A.
  assert (B : (q < IZR (iw + 1))%R).
  { apply Rnot_le_lt. intros C. apply (Rlt_not_le _ _ H2). apply round_ge_generic; [apply FLT_exp_valid; reflexivity|apply valid_rnd_N| |exact C].
    rewrite <- (Rmult_1_r (IZR (iw + 1))). apply (D_format_Z (iw + 1) 0); lia. }
  assert (B' : (IZR m < IZR ((iw + 1) * n + 1))%R).
  { rewrite plus_IZR, mult_IZR. assert (q * IZR n < IZR (iw + 1) * IZR n)%R by (apply Rmult_lt_compat_r; lra). lra. }
  apply lt_IZR in B'. lia.
Qed.

(** ** The difference of two bounds *)
Lemma D_lt0 (t : NumD) : nlt (nZ 0 : NumD) t = true -> exists b, fkey 53 1024 t = Some b /\ (0 < b)%R.
Proof.
  destruct (D_Z 0 ltac:(lia)) as [Z1 Z2]. rewrite (key_lt _ OrdD). cbn [key OrdD OrdF].
  rewrite (fkey_finite _ _ _ Z2), Z1. destruct (fkey 53 1024 t) as [b|]; [|discriminate].
  case Rlt_bool_spec; [|discriminate]. eauto.
Qed.

Lemma D_twice_pos (r : NumD) : nlt (nZ 0 : NumD) r = true -> nlt (nZ 0 : NumD) (nadd r r) = true.
Proof.
  intros H. destruct (D_lt0 r H) as (b & Kb & Hb).
  destruct (D_Z 0 ltac:(lia)) as [Z1 Z2]. rewrite (key_lt _ OrdD). cbn [key OrdD OrdF].
  rewrite (fkey_finite _ _ _ Z2), Z1. 
  destruct (is_finite r) eqn:Fr.
  - rewrite (fkey_finite _ _ _ Fr) in Kb. injection Kb as <-.
    assert (K := Bplus_correct 53 1024 Hp53 Hm53 mode_NE r r Fr Fr).
    change (nadd r r) with (@Bplus 53 1024 Hp53 Hm53 mode_NE r r).
    revert K. case Rlt_bool_spec; intros Ho K.
    + destruct K as (K1 & K2 & _). rewrite (fkey_finite _ _ _ K2), K1. apply Rlt_bool_true.
      apply Rlt_le_trans with (B2R r); [exact Hb|].
      apply round_ge_generic; [apply FLT_exp_valid; reflexivity|apply valid_rnd_N|apply generic_format_B2R|lra].
    + destruct K as [K _]. destruct r as [s|s| |s m e B]; try discriminate.
      destruct s; [exfalso; cbn in Hb; assert (Q := bpow_gt_0 radix2 e); revert Hb; unfold F2R; cbn;
        assert (IZR (Z.neg m) < 0)%R by (apply IZR_lt; lia); nra|].
      cbn [Bsign] in K. destruct (Bplus _ _ _) as [s|s| |s m' e' B']; cbn in K; try discriminate.
      injection K as ->. cbn. apply Rlt_bool_true. apply (IZR_lt 0). reflexivity.
  - destruct r as [s|[|]| |]; try discriminate.
    cbn. apply Rlt_bool_true. apply (IZR_lt 0). reflexivity.
Qed.

Lemma D_sub_neg (lo hi t : NumD) :
  nlt (nsub hi lo) t = false -> nlt (nZ 0 : NumD) t = true -> nlt hi lo = false.
Proof.
  intros H1 H2. destruct (nlt hi lo) eqn:E; [exfalso|reflexivity].
  destruct (D_lt0 t H2) as (b & Kb & Hb).
  rewrite (key_lt _ OrdD) in H1, E. cbn [key OrdD OrdF] in H1, E. rewrite Kb in H1.
  assert (P := bpow_gt_0 radix2 1024).
  destruct (is_finite hi) eqn:Fh.
  - destruct (is_finite lo) eqn:Fl.
    + rewrite (fkey_finite _ _ _ Fh), (fkey_finite _ _ _ Fl) in E. revert E. case Rlt_bool_spec; [intros E _|discriminate].
      assert (K := Bminus_correct 53 1024 Hp53 Hm53 mode_NE hi lo Fh Fl).
      change (nsub hi lo) with (@Bminus 53 1024 Hp53 Hm53 mode_NE hi lo) in H1.
      revert K. case Rlt_bool_spec; intros Ho K.
      * destruct K as (K1 & K2 & _). rewrite (fkey_finite _ _ _ K2), K1 in H1. revert H1. case Rlt_bool_spec; [discriminate|intros H1 _].
        assert (rnd (B2R hi - B2R lo) <= 0)%R; [|lra].
        apply round_le_generic; [apply FLT_exp_valid; reflexivity|apply valid_rnd_N|apply generic_format_0|lra].
      * destruct K as [K Ks].
        assert (Hs : Bsign hi = true).
        { destruct (Bsign hi) eqn:S; [reflexivity|exfalso]. destruct (Bsign lo) eqn:S'; [|discriminate].
          assert (0 <= B2R hi)%R by (destruct hi as [?|?| |s m e B]; try discriminate; cbn in *; subst; [lra|apply F2R_ge_0; cbn; lia]).
          assert (B2R lo <= 0)%R by (destruct lo as [?|?| |s m e B]; try discriminate; cbn in *; subst; [lra|apply F2R_le_0; cbn; lia]).
          lra. }
        rewrite Hs in K. destruct (Bminus _ _ _) as [s|s| |s m' e' B']; cbn in K; try discriminate.
        injection K as ->. cbn [fkey] in H1. revert H1. case Rlt_bool_spec; [discriminate|intros H1 _]. lra.
    + destruct lo as [s|[|]| |]; try discriminate.
      * rewrite (fkey_finite _ _ _ Fh) in E. cbn [fkey] in E. revert E. case Rlt_bool_spec; [intros E _|discriminate].
        assert (Q := abs_B2R_lt_emax 53 1024 hi). apply Rabs_lt_inv in Q. lra.
      * assert (Em : nsub hi (B754_infinity false : NumD) = B754_infinity true) by (destruct hi; try discriminate; reflexivity).
        rewrite Em in H1. cbn [fkey] in H1. revert H1. case Rlt_bool_spec; [discriminate|intros H1 _]. lra.
      * rewrite (fkey_finite _ _ _ Fh) in E. discriminate.
  - destruct hi as [s|[|]| |]; try discriminate.
    + destruct lo as [s|[|]| |]; cbn [fkey] in E.
      * cbn in H1. revert H1. case Rlt_bool_spec; [discriminate|intros H1 _]. lra.
      * revert E. case Rlt_bool_spec; [intros E _; lra|discriminate].
      * cbn in H1. revert H1. case Rlt_bool_spec; [discriminate|intros H1 _]. lra.
      * discriminate.
      * cbn in H1. revert H1. case Rlt_bool_spec; [discriminate|intros H1 _]. lra.
    + destruct (fkey 53 1024 lo) as [c|] eqn:Kc; cbn [fkey] in E; [|discriminate].
      revert E. case Rlt_bool_spec; [intros E _|discriminate].
      destruct (is_finite lo) eqn:Fl.
      * rewrite (fkey_finite _ _ _ Fl) in Kc. injection Kc as <-. assert (Q := abs_B2R_lt_emax 53 1024 lo). apply Rabs_lt_inv in Q. lra.
      * destruct lo as [s|[|]| |]; try discriminate; cbn [fkey] in Kc;
          apply (f_equal (fun o => match o with Some r => r | None => 0%R end)) in Kc; cbv beta iota in Kc; lra.
Qed.
