(** * The radius of the trust region: exact reals, double and single precision *)
From Coq Require Import ZArith Reals Bool Lia Lra Psatz.
From Flocq Require Import Core BinarySingleNaN.
From Verif Require Import Num NumFacts BqModel CbNum RhoSpec NwRho.
Local Open Scope R_scope.

(** ** The bounds of the radius, for any ordered arithmetic *)
Section Bounds.
Context {N : Num} (O : OrdLaws N) (L : RhoLaws N).
Ltac kk := rewrite ?(key_lt _ O), ?(key_le _ O), ?(key_eq _ O) in *.
Ltac kd := kk; repeat match goal with |- context [match key O ?x with _ => _ end] => destruct (key O x) as [?|] | H : context [match key O ?x with _ => _ end] |- _ => destruct (key O x) as [?|] end; try discriminate;
  repeat match goal with
  | H : Rlt_bool ?a ?b = _ |- _ => revert H; case (Rlt_bool_spec a b); intros ? ?; try discriminate
  | H : Rle_bool ?a ?b = _ |- _ => revert H; case (Rle_bool_spec a b); intros ? ?; try discriminate
  | H : Req_bool ?a ?b = _ |- _ => revert H; case (Req_bool_spec a b); intros ? ?; try discriminate
  | |- Rlt_bool _ _ = true => apply Rlt_bool_true
  | |- Rle_bool _ _ = true => apply Rle_bool_true
  | |- Rlt_bool _ _ = false => apply Rlt_bool_false
  | |- Rle_bool _ _ = false => apply Rle_bool_false
  | |- Req_bool _ _ = true => apply Req_bool_true
  end; try lra.

Lemma o_trans (a b c : N) : nle a b = true -> nle b c = true -> nle a c = true.
Proof. intros. kd. Qed.
Lemma o_ltle (a b : N) : nlt a b = true -> nle a b = true.
Proof. intros. kd. Qed.
Lemma o_lt_trans (a b c : N) : nlt a b = true -> nle b c = true -> nlt a c = true.
Proof. intros. kd. Qed.
Lemma o_total (a b : N) : nle a a = true -> nle b b = true -> nlt a b = false -> nle b a = true.
Proof. intros. kd. Qed.
Lemma o_total' (a b : N) : nle a a = true -> nle b b = true -> nle a b = false -> nle b a = true.
Proof. intros. kd. Qed.
Lemma o_pos (e : N) : nle e e = true -> nle e (nZ 0) = false -> nlt (nZ 0) e = true.
Proof. intros. pose proof (rl_zero L). kd. Qed.
Lemma o_anti (a b : N) : nle a b = true -> nlt a b = false -> neq b a = true.
Proof. intros. kd. Qed.
Lemma o_refl_r (a b : N) : nle a b = true -> nle b b = true.
Proof. intros. kd. Qed.
Lemma o_refl_l (a b : N) : nle a b = true -> nle a a = true.
Proof. intros. kd. Qed.
Lemma o_irr (a : N) : nlt a a = false.
Proof. kk. destruct (key O a); [|reflexivity]. apply Rlt_bool_false. lra. Qed.

Section Range.
Variables e : N.
Hypothesis He : nlt (nZ 0) e = true.
Lemma cb_next_range r : nlt e r = true -> nle e (cb_next e r) = true /\ nle (cb_next e r) r = true.
Proof.
  intros Hr. unfold cb_next. pose proof (o_refl_r _ _ (o_ltle _ _ He)) as E1. pose proof (rl_more L e He) as [E2 _].
  pose proof (rl_half L r (o_lt_trans _ _ _ He (o_ltle _ _ Hr))) as E3.
  destruct (nle (nmul (nQ 1 2) r) (nmul (nQ 3 2) e)) eqn:E; [split; [exact E1|apply o_ltle, Hr]|].
  split; [|exact E3]. eapply o_trans; [exact E2|]. apply o_total'; [exact (o_refl_l _ _ E3)|exact (o_refl_r _ _ E2)|exact E].
Qed.
Lemma nw_next_range r : nlt e r = true -> nle e (nw_next e r) = true /\ nle (nw_next e r) r = true.
Proof.
  intros Hr. unfold nw_next. pose proof (o_refl_r _ _ (o_ltle _ _ He)) as E1. cbv zeta.
  destruct (nle (ndiv r e) (nZ 16)) eqn:E; [split; [exact E1|apply o_ltle, Hr]|].
  destruct (nle (ndiv r e) (nZ 250)) eqn:E'; [apply (rl_sqrt L); assumption|apply (rl_tenth L); assumption].
Qed.
Lemma reduced_range next k r0 r : (forall r, nlt e r = true -> nle e (next r) = true /\ nle (next r) r = true) ->
  nle e r0 = true -> reduced e next k r0 r -> nle e r = true /\ nle r r0 = true.
Proof.
  intros Hn H0 H. induction H as [r|k r0 r H IH Hr]; [split; [exact H0|exact (o_refl_r _ _ H0)]|].
  destruct (IH H0) as [I1 I2]. destruct (Hn r Hr) as [I3 I4]. split; [exact I3|]. eapply o_trans; eassumption.
Qed.
(** Nothing follows [e] *)
Lemma reduced_last next k r0 r : reduced e next k r0 r -> nlt e r = false -> forall r', reduced e next 1 r r' -> False.
Proof. intros _ H r' K. inversion K as [|? ? ? K1 K2]; subst. inversion K1; subst. congruence. Qed.

Lemma DeltaLaws_ok : DeltaLaws N (fun r => nlt (nZ 0) r = true).
Proof.
  split.
  - intros d r Hr H. pose proof (rl_more L r Hr) as [_ K]. destruct (nlt d r) eqn:E; [|reflexivity].
    rewrite (o_trans d r _ (o_ltle _ _ E) K) in H. discriminate H.
  - intros d r Hr. unfold bmax. destruct (nle r d) eqn:E; [|apply o_irr]. destruct (nlt d r) eqn:E'; [|reflexivity].
    pose proof (o_lt_trans _ _ _ E' E) as E2. rewrite o_irr in E2. discriminate E2.
  - intros r _. apply o_irr.
Qed.
End Range.
End Bounds.

(** ** Exact reals *)
Lemma RhoLawsR H I : RhoLaws (NumR H I).
Proof.
  split; cbn [nlt nle neq nmul nQ nZ nsqrt ndiv NumR num].
  - apply Req_bool_true. reflexivity.
  - intros r. case Rlt_bool_spec; [|discriminate]. intros. apply Rle_bool_true. lra.
  - intros e. case Rlt_bool_spec; [|discriminate]. intros. split; apply Rle_bool_true; lra.
  - intros e r. case Rlt_bool_spec; [|discriminate]. intros E _. case Rlt_bool_spec; [|discriminate]. intros E' _.
    case Rle_bool_spec; [discriminate|]. intros Q1 _. case Rle_bool_spec; [|discriminate]. intros Q2 _.
    assert (K : 1 <= R_sqrt.sqrt (r / e) <= r / e).
    { split; [rewrite <- sqrt_1; apply sqrt_le_1; lra|]. rewrite <- (sqrt_square (r / e)) at 2 by lra. apply sqrt_le_1; nra. }
    assert (r = (r / e) * e) by (field; lra).
    split; apply Rle_bool_true; nra.
  - intros e r. case Rlt_bool_spec; [|discriminate]. intros E _. case Rlt_bool_spec; [|discriminate]. intros E' _.
    case Rle_bool_spec; [discriminate|]. intros Q1 _. assert (r = (r / e) * e) by (field; lra).
    split; apply Rle_bool_true; nra.
Qed.

(** ** Double and single precision *)
Section IEEE.
Variables prec emax : Z.
Context (Hp : Prec_gt_0 prec) (Hm : Prec_lt_emax prec emax).
Notation bf := (binary_float prec emax).
Notation F := (NumF prec emax Hp Hm).
Notation rnd := (round radix2 (SpecFloat.fexp prec emax) (round_mode mode_NE)).
Notation fkey := (fkey prec emax).

Lemma rnd_le x y : x <= y -> rnd x <= rnd y.
Proof. apply round_le; [apply (fexp_correct _ _ Hp)|apply valid_rnd_round_mode]. Qed.
Lemma rnd_B2R (y : bf) : rnd (B2R y) = B2R y.
Proof. apply round_generic; [auto with typeclass_instances|apply generic_format_B2R]. Qed.
Lemma pos_sign (x : bf) : 0 < B2R x -> Bsign x = false.
Proof.
  destruct x as [s|s| |s m e]; cbn; intros P; try lra. destruct s; [|reflexivity]. exfalso. revert P. apply Rle_not_lt.
  apply F2R_le_0. cbn. apply Pos2Z.neg_is_nonpos.
Qed.
Lemma pos_fin (x : bf) : 0 < B2R x -> is_finite x = true.
Proof. destruct x; cbn; intros; try reflexivity; lra. Qed.
Lemma fin_lt (x : bf) : is_finite x = true -> Rabs (B2R x) < bpow radix2 emax.
Proof. intros _. apply abs_B2R_lt_emax. Qed.
Lemma key_pos (x : bf) k : fkey x = Some k -> 0 < k ->
  (is_finite x = true /\ k = B2R x) \/ (x = B754_infinity false /\ k = bpow radix2 emax).
Proof.
  destruct x as [s|[|]| |s m e]; cbn [NumFacts.fkey]; intros [= <-] K.
  - left. split; reflexivity.
  - pose proof (bpow_gt_0 radix2 emax). lra.
  - right. split; reflexivity.
  - left. split; reflexivity.
Qed.

(** The product of two positive numbers: rounded, or infinite *)
Lemma mul_pos (c r : bf) : 0 < B2R c -> 0 < B2R r ->
  (is_finite (Bmult mode_NE c r) = true /\ B2R (Bmult mode_NE c r) = rnd (B2R c * B2R r)) \/
  (Bmult mode_NE c r = B754_infinity false /\ bpow radix2 emax <= rnd (B2R c * B2R r)).
Proof.
  intros Pc Pr. pose proof (Bmult_correct prec emax Hp Hm mode_NE c r) as H. rewrite (pos_sign c Pc), (pos_sign r Pr) in H.
  destruct (Rlt_bool _ _) eqn:L in H.
  - left. destruct H as (V & W & _). rewrite (pos_fin c Pc), (pos_fin r Pr) in W. auto.
  - right. split; [exact (inf_eq _ _ _ _ H)|]. revert L. case Rlt_bool_spec; [discriminate|]. intros L _. rewrite Rabs_pos_eq in L; [exact L|].
    replace 0 with (rnd 0) by (apply round_0; auto with typeclass_instances). apply rnd_le. apply Rmult_le_pos; lra.
Qed.
Lemma mul_ge (c r y : bf) : 0 < B2R c -> 0 < B2R r -> is_finite y = true -> B2R y <= B2R c * B2R r ->
  exists h, fkey (Bmult mode_NE c r) = Some h /\ B2R y <= h.
Proof.
  intros Pc Pr Fy H. destruct (mul_pos c r Pc Pr) as [[W V]|[W V]].
  - exists (B2R (Bmult mode_NE c r)). split; [apply fkey_finite, W|]. rewrite V, <- (rnd_B2R y). apply rnd_le, H.
  - rewrite W. exists (bpow radix2 emax). split; [reflexivity|]. pose proof (fin_lt y Fy) as K. apply Rabs_def2 in K. lra.
Qed.
Lemma mul_le (c r y : bf) : 0 < B2R c -> 0 < B2R r -> is_finite y = true -> B2R c * B2R r <= B2R y ->
  exists h, fkey (Bmult mode_NE c r) = Some h /\ h <= B2R y.
Proof.
  intros Pc Pr Fy H. pose proof (rnd_le _ _ H) as H'. rewrite rnd_B2R in H'. destruct (mul_pos c r Pc Pr) as [[W V]|[W V]].
  - exists (B2R (Bmult mode_NE c r)). split; [apply fkey_finite, W|]. rewrite V. exact H'.
  - exfalso. pose proof (fin_lt y Fy) as K. apply Rabs_def2 in K. lra.
Qed.
Lemma div_pos (r e : bf) : 0 < B2R r -> 0 < B2R e ->
  (is_finite (Bdiv mode_NE r e) = true /\ B2R (Bdiv mode_NE r e) = rnd (B2R r / B2R e)) \/
  (Bdiv mode_NE r e = B754_infinity false /\ bpow radix2 emax <= rnd (B2R r / B2R e)).
Proof.
  intros Pr Pe. pose proof (Bdiv_correct prec emax Hp Hm mode_NE r e) as H. rewrite (pos_sign r Pr), (pos_sign e Pe) in H.
  assert (Ne : B2R e <> 0) by lra. specialize (H Ne).
  assert (Q0 : 0 <= B2R r / B2R e) by (apply Rmult_le_pos; [lra|]; apply Rlt_le, Rinv_0_lt_compat; lra).
  destruct (Rlt_bool _ _) eqn:L in H.
  - left. destruct H as (V & W & _). rewrite (pos_fin r Pr) in W. auto.
  - right. split; [exact (inf_eq _ _ _ _ H)|]. revert L. case Rlt_bool_spec; [discriminate|]. intros L _. rewrite Rabs_pos_eq in L; [exact L|].
    replace 0 with (rnd 0) by (apply round_0; auto with typeclass_instances). apply rnd_le, Q0.
Qed.
(** A quotient larger than a number of the format *)
Lemma div_gt (r e c : bf) : 0 < B2R r -> 0 < B2R e -> is_finite c = true -> nle (Bdiv mode_NE r e : F) c = false -> B2R c < B2R r / B2R e.
Proof.
  intros Pr Pe Fc. rewrite (key_le _ (OrdF prec emax Hp Hm)). cbn [key OrdF]. rewrite (fkey_finite prec emax c Fc).
  intros H. apply Rnot_le_lt. intros K. pose proof (rnd_le _ _ K) as K'. rewrite rnd_B2R in K'.
  pose proof (fin_lt c Fc) as Kc. apply Rabs_def2 in Kc.
  destruct (div_pos r e Pr Pe) as [[W V]|[W V]]; [|lra]. rewrite (fkey_finite prec emax _ W) in H.
  revert H. case Rle_bool_spec; [discriminate|]. rewrite V. lra.
Qed.

Record consts : Prop := {
  k_half : 0 < B2R (nQ 1 2 : F) <= 1;
  k_more : 1 <= B2R (nQ 3 2 : F);
  k_tenth : 1 <= 250 * B2R (nQ 1 10 : F) <= 250;
  k_1 : is_finite (nZ 1 : F) = true /\ B2R (nZ 1 : F) = 1;
  k_16 : is_finite (nZ 16 : F) = true /\ B2R (nZ 16 : F) = 16;
  k_250 : is_finite (nZ 250 : F) = true /\ B2R (nZ 250 : F) = 250
}.
Hypothesis HC : consts.
Notation O := (OrdF prec emax Hp Hm).

Lemma lt_fin (x y : bf) : nlt (x : F) y = true -> nlt (nZ 0 : F) x = true ->
  0 < B2R x /\ ((is_finite y = true /\ B2R x < B2R y) \/ y = B754_infinity false).
Proof.
  rewrite !(key_lt _ O). cbn [key OrdF]. change (nZ 0 : F) with (B754_zero false : bf). cbn [NumFacts.fkey B2R].
  destruct (fkey x) as [kx|] eqn:Ex; [|discriminate]. destruct (fkey y) as [ky|] eqn:Ey; [|discriminate].
  case Rlt_bool_spec; [|discriminate]. intros A _. case Rlt_bool_spec; [|discriminate]. intros A' _.
  destruct (key_pos x kx Ex A') as [[Fx ->]|[-> ->]].
  - split; [exact A'|]. destruct (key_pos y ky Ey) as [[Fy ->]|[-> ->]]; [lra|left; split; [exact Fy|exact A]|right; reflexivity].
  - exfalso. destruct (key_pos y ky Ey) as [[Fy ->]|[-> ->]]; [pose proof (bpow_gt_0 radix2 emax); lra| |lra].
    pose proof (fin_lt y Fy) as K. apply Rabs_def2 in K. lra.
Qed.
Lemma inf_mul (c : bf) : 0 < B2R c -> Bmult mode_NE c (B754_infinity false) = B754_infinity false.
Proof. intros Pc. pose proof (pos_sign c Pc) as S. destruct c as [s|s| |s m e]; cbn in Pc; try lra. cbn in S. subst s. reflexivity. Qed.
Lemma inf_mul' (c : bf) : 0 < B2R c -> Bmult mode_NE (B754_infinity false) c = B754_infinity false.
Proof. intros Pc. pose proof (pos_sign c Pc) as S. destruct c as [s|s| |s m e]; cbn in Pc; try lra. cbn in S. subst s. reflexivity. Qed.
Lemma inf_div (c : bf) : 0 < B2R c -> Bdiv mode_NE (B754_infinity false) c = B754_infinity false.
Proof. intros Pc. pose proof (pos_sign c Pc) as S. destruct c as [s|s| |s m e]; cbn in Pc; try lra. cbn in S. subst s. reflexivity. Qed.
Lemma inf_le : nle (B754_infinity false : F) (B754_infinity false : bf) = true.
Proof. reflexivity. Qed.
Lemma le_inf (y : bf) : is_finite y = true -> nle (y : F) (B754_infinity false : bf) = true.
Proof. destruct y as [s|s| |s m e]; try discriminate; destruct s; reflexivity. Qed.

Lemma fle_ge (x y : bf) h : is_finite x = true -> fkey y = Some h -> B2R x <= h -> nle (x : F) y = true.
Proof. intros Fx E K. rewrite (key_le _ O). cbn [key OrdF]. rewrite (fkey_finite prec emax x Fx), E. apply Rle_bool_true, K. Qed.
Lemma fle_le (x y : bf) h : is_finite y = true -> fkey x = Some h -> h <= B2R y -> nle (x : F) y = true.
Proof. intros Fy E K. rewrite (key_le _ O). cbn [key OrdF]. rewrite (fkey_finite prec emax y Fy), E. apply Rle_bool_true, K. Qed.

Lemma pos_cases (r : bf) : nlt (nZ 0 : F) r = true -> (is_finite r = true /\ 0 < B2R r) \/ r = B754_infinity false.
Proof.
  rewrite (key_lt _ O). cbn [key OrdF]. change (nZ 0 : F) with (B754_zero false : bf). cbn [NumFacts.fkey B2R].
  destruct (fkey r) as [k|] eqn:E; [|discriminate]. case Rlt_bool_spec; [|discriminate]. intros A _.
  destruct (key_pos r k E A) as [[Fr ->]|[-> ->]]; auto.
Qed.

Lemma RhoLawsF : RhoLaws F.
Proof.
  split.
  - reflexivity.
  - intros r Hr. pose proof (k_half HC) as [C1 C2]. destruct (pos_cases r Hr) as [[Fr Pr]|E].
    + destruct (mul_le (nQ 1 2 : F) r r C1 Pr Fr) as (h & E & K); [nra|]. exact (fle_le _ _ h Fr E K).
    + rewrite E. change (nle (Bmult mode_NE (nQ 1 2 : F) (B754_infinity false) : F) (B754_infinity false : bf) = true).
      rewrite inf_mul by exact C1. reflexivity.
  - intros e He. pose proof (k_more HC) as C1. assert (C0 : 0 < B2R (nQ 3 2 : F)) by lra. destruct (pos_cases e He) as [[Fr Pr]|E].
    + split.
      * destruct (mul_ge (nQ 3 2 : F) e e C0 Pr Fr) as (h & E & K); [nra|]. exact (fle_ge _ _ h Fr E K).
      * destruct (mul_ge e (nQ 3 2 : F) e Pr C0 Fr) as (h & E & K); [nra|]. exact (fle_ge _ _ h Fr E K).
    + rewrite E. split.
      * change (nle (B754_infinity false : F) (Bmult mode_NE (nQ 3 2 : F) (B754_infinity false) : bf) = true).
        rewrite inf_mul by exact C0. reflexivity.
      * change (nle (B754_infinity false : F) (Bmult mode_NE (B754_infinity false) (nQ 3 2 : F) : bf) = true).
        rewrite inf_mul' by exact C0. reflexivity.
  - intros e r He Hr Q1 Q2. destruct (lt_fin e r Hr He) as [Pe [[Fr Hlt]|E]].
    + assert (Pr : 0 < B2R r) by lra. pose proof (pos_fin e Pe) as Fe.
      destruct (k_16 HC) as [F16 V16]. destruct (k_250 HC) as [F250 V250]. destruct (k_1 HC) as [F1 V1].
      change (ndiv r e) with (Bdiv mode_NE r e) in *. set (q := Bdiv mode_NE r e : bf) in *.
      pose proof (div_gt r e (nZ 16 : F) Pr Pe F16 Q1) as G. rewrite V16 in G.
      assert (Hq : is_finite q = true /\ 16 <= B2R q <= 250).
      { destruct (div_pos r e Pr Pe) as [[W V]|[W V]]; fold q in W, V.
        - split; [exact W|]. split.
          + rewrite V, <- V16, <- (rnd_B2R (nZ 16 : F)). apply rnd_le. rewrite V16. lra.
          + revert Q2. rewrite (key_le _ O). cbn [key OrdF]. rewrite (fkey_finite prec emax q W), (fkey_finite prec emax _ F250), V250.
            case Rle_bool_spec; [auto|discriminate].
        - exfalso. revert Q2. rewrite (key_le _ O). cbn [key OrdF]. rewrite W, (fkey_finite prec emax _ F250). cbn [NumFacts.fkey].
          case Rle_bool_spec; [|discriminate]. intros K _. pose proof (fin_lt _ F250) as K'. apply Rabs_def2 in K'. lra. }
      destruct Hq as [Fq Vq]. change (nsqrt (q : F)) with (Bsqrt mode_NE q).
      pose proof (Bsqrt_correct prec emax Hp Hm mode_NE q) as (Vs & _ & _). set (c := Bsqrt mode_NE q : bf) in *.
      assert (Hc : 1 <= B2R c <= 16).
      { rewrite Vs. split.
        - rewrite <- V1, <- (rnd_B2R (nZ 1 : F)). apply rnd_le. rewrite V1, <- sqrt_1. apply sqrt_le_1; lra.
        - rewrite <- V16, <- (rnd_B2R (nZ 16 : F)). apply rnd_le. rewrite V16. replace 16 with (R_sqrt.sqrt 256).
          + apply sqrt_le_1; lra.
          + replace 256 with (16 * 16) by lra. apply sqrt_square. lra. }
      assert (RE : B2R r = (B2R r / B2R e) * B2R e) by (field; lra).
      assert (Pc : 0 < B2R c) by lra. split.
      * destruct (mul_ge c e e Pc Pe Fe) as (h & E & K); [nra|]. exact (fle_ge _ _ h Fe E K).
      * destruct (mul_le c e r Pc Pe Fr) as (h & E & K); [nra|]. exact (fle_le _ _ h Fr E K).
    + exfalso. revert Q2. rewrite E. change (ndiv (B754_infinity false : F) e) with (Bdiv mode_NE (B754_infinity false) e).
      rewrite inf_div by exact Pe. destruct (k_250 HC) as [F250 _]. rewrite (key_le _ O). cbn [key OrdF]. rewrite (fkey_finite prec emax _ F250).
      cbn [NumFacts.fkey]. case Rle_bool_spec; [|discriminate]. intros K _. pose proof (fin_lt _ F250) as K'. apply Rabs_def2 in K'. lra.
  - intros e r He Hr Q2. pose proof (k_tenth HC) as [C1 C2]. assert (C0 : 0 < B2R (nQ 1 10 : F)) by lra.
    destruct (lt_fin e r Hr He) as [Pe [[Fr Hlt]|E]].
    + assert (Pr : 0 < B2R r) by lra. pose proof (pos_fin e Pe) as Fe. destruct (k_250 HC) as [F250 V250].
      pose proof (div_gt r e (nZ 250 : F) Pr Pe F250 Q2) as G. rewrite V250 in G.
      assert (RE : B2R r = (B2R r / B2R e) * B2R e) by (field; lra).
      split.
      * destruct (mul_ge (nQ 1 10 : F) r e C0 Pr Fe) as (h & E & K); [nra|]. exact (fle_ge _ _ h Fe E K).
      * destruct (mul_le (nQ 1 10 : F) r r C0 Pr Fr) as (h & E & K); [nra|]. exact (fle_le _ _ h Fr E K).
    + rewrite E. change (nmul (nQ 1 10) (B754_infinity false : F)) with (Bmult mode_NE (nQ 1 10 : F) (B754_infinity false)).
      rewrite inf_mul by exact C0. split; [apply le_inf, pos_fin, Pe|reflexivity].
Qed.
End IEEE.

Lemma sf_val prec emax (x : binary_float prec emax) m e : B2SF x = SpecFloat.S754_finite false m e ->
  is_finite x = true /\ B2R x = IZR (Zpos m) * bpow radix2 e.
Proof.
  intros H. rewrite <- SF2R_B2SF, H. destruct x as [s|s| |s m' e' B]; try discriminate H. split; reflexivity.
Qed.
Lemma constsD : consts 53 1024 Hp53 Hm53.
Proof.
  destruct (sf_val 53 1024 (nQ 1 2 : NumD) 4503599627370496 (-53)) as [_ V1]; [vm_compute; reflexivity|].
  destruct (sf_val 53 1024 (nQ 3 2 : NumD) 6755399441055744 (-52)) as [_ V2]; [vm_compute; reflexivity|].
  destruct (sf_val 53 1024 (nQ 1 10 : NumD) 7205759403792794 (-56)) as [_ V3]; [vm_compute; reflexivity|].
  destruct (sf_val 53 1024 (nZ 1 : NumD) 4503599627370496 (-52)) as [F4 V4]; [vm_compute; reflexivity|].
  destruct (sf_val 53 1024 (nZ 16 : NumD) 4503599627370496 (-48)) as [F5 V5]; [vm_compute; reflexivity|].
  destruct (sf_val 53 1024 (nZ 250 : NumD) 8796093022208000 (-45)) as [F6 V6]; [vm_compute; reflexivity|].
  change NumD with (NumF 53 1024 Hp53 Hm53) in *.
  split; [rewrite V1|rewrite V2|rewrite V3|rewrite V4|rewrite V5|rewrite V6]; try (split; [assumption|]); cbn; lra.
Qed.
Lemma constsS : consts 24 128 Hp24 Hm24.
Proof.
  destruct (sf_val 24 128 (nQ 1 2 : NumS) 8388608 (-24)) as [_ V1]; [vm_compute; reflexivity|].
  destruct (sf_val 24 128 (nQ 3 2 : NumS) 12582912 (-23)) as [_ V2]; [vm_compute; reflexivity|].
  destruct (sf_val 24 128 (nQ 1 10 : NumS) 13421773 (-27)) as [_ V3]; [vm_compute; reflexivity|].
  destruct (sf_val 24 128 (nZ 1 : NumS) 8388608 (-23)) as [F4 V4]; [vm_compute; reflexivity|].
  destruct (sf_val 24 128 (nZ 16 : NumS) 8388608 (-19)) as [F5 V5]; [vm_compute; reflexivity|].
  destruct (sf_val 24 128 (nZ 250 : NumS) 16384000 (-16)) as [F6 V6]; [vm_compute; reflexivity|].
  change NumS with (NumF 24 128 Hp24 Hm24) in *.
  split; [rewrite V1|rewrite V2|rewrite V3|rewrite V4|rewrite V5|rewrite V6]; try (split; [assumption|]); cbn; lra.
Qed.
Lemma RhoLawsD : RhoLaws NumD.
Proof. exact (RhoLawsF 53 1024 Hp53 Hm53 constsD). Qed.
Lemma RhoLawsS : RhoLaws NumS.
Proof. exact (RhoLawsF 24 128 Hp24 Hm24 constsS). Qed.

(** ** The number of reductions *)
Section Count.
Context {N : Num} (e : N) (next : N -> N).
Lemma reduced_trans j k a b c : reduced e next k a b -> reduced e next j b c -> exists i, i = (j + k)%nat /\ reduced e next i a c.
Proof.
  intros H1 H2. induction H2 as [b|j b c H2 IH H]; [exists k; split; [reflexivity|exact H1]|].
  destruct (IH H1) as (i & -> & Hi). exists (S j + k)%nat. split; [reflexivity|]. cbn. constructor; assumption.
Qed.
End Count.
Lemma div_mul (b e : R) : 0 < e -> b = b / e * e.
Proof. intros. field. lra. Qed.
(** In exact arithmetic, one more halving is made only if the radius that was halved [k] times is larger than e *)
Lemma cb_count H I (e r0 r : R) k : 0 < e -> reduced (N := NumR H I) e (cb_next (N := NumR H I) e) (S k) r0 r -> 2 ^ k * e < r0.
Proof.
  intros He HR.
  assert (G : forall k (r : R), reduced (N := NumR H I) e (cb_next (N := NumR H I) e) k r0 r -> r = e \/ 2 ^ k * r = r0).
  { clear HR. intros j r' Hr. induction Hr as [r1|j a b Hr IH Hl]; [right; cbn; lra|]. unfold cb_next. cbv zeta.
    match goal with |- context [if ?b then _ else _] => destruct b; [left; reflexivity|] end.
    cbn in Hl. revert Hl. case Rlt_bool_spec; [|discriminate]. intros Hl _. right. cbn [nmul nQ NumR num pow]. destruct IH as [IH|IH]; lra. }
  inversion HR as [|j a b Hr Hl]; subst. cbn in Hl. revert Hl. case Rlt_bool_spec; [|discriminate]. intros Hl _.
  destruct (G k b Hr) as [E|E]; [lra|]. rewrite <- E. apply Rmult_lt_compat_l; [apply pow_lt; lra|exact Hl].
Qed.
(** The same for NEWUOA: but for the last two ones, the reductions are by a factor 10 *)
Lemma nw_count H I (e r0 r : R) k : 0 < e -> reduced (N := NumR H I) e (nw_next (N := NumR H I) e) (S (S k)) r0 r -> 16 * 10 ^ k * e < r0.
Proof.
  intros He HR.
  assert (G : forall k (r : R), reduced (N := NumR H I) e (nw_next (N := NumR H I) e) k r0 r -> r <= 16 * e \/ 10 ^ k * r = r0).
  { clear HR. intros j r' Hr. induction Hr as [r1|j a b Hr IH Hl]; [right; cbn; lra|]. unfold nw_next. cbv zeta.
    cbn in Hl. revert Hl. case Rlt_bool_spec; [|discriminate]. intros Hl _. pose proof (div_mul b e He) as RE.
    cbn [nle ndiv nZ nmul nsqrt nQ NumR num]. case Rle_bool_spec; intros Q1; [left; lra|]. case Rle_bool_spec; intros Q2.
    - left. apply Rmult_le_compat_r; [lra|]. replace 16 with (R_sqrt.sqrt 256); [apply sqrt_le_1; lra|].
      replace 256 with (16 * 16) by lra. apply sqrt_square. lra.
    - right. cbn [pow]. destruct IH as [IH|IH]; [exfalso; nra|]. lra. }
  inversion HR as [|j a b Hr Hl]; subst. inversion Hr as [|j a b' Hr' Hl']; subst. cbn in Hl. revert Hl. case Rlt_bool_spec; [|discriminate]. intros Hl _.
  cbn in Hl'. revert Hl'. case Rlt_bool_spec; [|discriminate]. intros Hl' _.
  assert (B : 16 * e < b').
  { unfold nw_next in Hl. cbv zeta in Hl. cbn [nle ndiv nZ nmul nsqrt nQ NumR num] in Hl. revert Hl. case Rle_bool_spec; intros Q1; [lra|]. intros _.
    pose proof (div_mul b' e He) as RE. nra. }
  destruct (G k b' Hr') as [E|E]; [lra|]. rewrite <- E. assert (0 < 10 ^ k) by (apply pow_lt; lra). nra.
Qed.
