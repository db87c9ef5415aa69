(** * Backtracking in IEEE arithmetic: the step never becomes a NaN unless a function value is one *)
From Coq Require Import List ZArith Bool Arith Lia Reals Lra.
From Flocq Require Import Core BinarySingleNaN.
From Verif Require Import Num NumFacts OrdFacts Base LsModel LsSpec ListFacts LsProofs LsOrd FloatFacts.
Import ListNotations.

Section F.
Variables prec emax : Z.
Context (Hp : Prec_gt_0 prec) (Hm : Prec_lt_emax prec emax).
Notation F := (binary_float prec emax).
Notation "x ⊕ y" := (@Bplus prec emax Hp Hm mode_NE x y) (at level 50, left associativity).
Notation "x ⊖ y" := (@Bminus prec emax Hp Hm mode_NE x y) (at level 50, left associativity).
Notation "x ⊗ y" := (@Bmult prec emax Hp Hm mode_NE x y) (at level 40, left associativity).
Notation "x ⊘ y" := (@Bdiv prec emax Hp Hm mode_NE x y) (at level 40, left associativity).

Definition nn (x : F) : Prop := is_nan x = false.
Definition finnz (x : F) : Prop := is_finite_strict x = true.

Lemma nn_fin x : is_finite x = true -> nn x.
Proof. destruct x; try discriminate; reflexivity. Qed.
Lemma nn_overflow x s : B2SF x = binary_overflow prec emax mode_NE s -> nn x.
Proof. destruct x; simpl; try discriminate; reflexivity. Qed.

Lemma mult_nn_ff x y : is_finite x = true -> is_finite y = true -> nn (x ⊗ y).
Proof.
  intros Hx Hy. pose proof (Bmult_correct prec emax Hp Hm mode_NE x y) as C.
  destruct (Rlt_bool _ _); [|eapply nn_overflow; exact C]. destruct C as (_ & Fi & _). rewrite Hx, Hy in Fi. apply nn_fin. exact Fi.
Qed.
Lemma mult_nn x y : nn x -> finnz y -> nn (x ⊗ y).
Proof.
  intros Hx Hy. destruct (is_finite x) eqn:Fx.
  - apply mult_nn_ff; auto. destruct y; try discriminate; reflexivity.
  - destruct x as [s|s| |s m e H]; try discriminate. destruct y as [t|t| |t m e H]; try discriminate. reflexivity.
Qed.
Lemma mult_nn' x y : finnz x -> nn y -> nn (x ⊗ y).
Proof.
  intros Hx Hy. destruct (is_finite y) eqn:Fy.
  - apply mult_nn_ff; auto. destruct x; try discriminate; reflexivity.
  - destruct y as [s|s| |s m e H]; try discriminate. destruct x as [t|t| |t m e H]; try discriminate. reflexivity.
Qed.
Lemma plus_nn x y : is_finite x = true -> nn y -> nn (x ⊕ y).
Proof.
  intros Hx Hy. destruct (is_finite y) eqn:Fy.
  - pose proof (Bplus_correct prec emax Hp Hm mode_NE x y Hx Fy) as C.
    destruct (Rlt_bool _ _); [apply nn_fin; tauto|eapply nn_overflow; apply C].
  - destruct y as [s|s| |s m e H]; try discriminate. destruct x as [t|t| |t m e H]; try discriminate; reflexivity.
Qed.
Lemma minus_nn x y : is_finite x = true -> nn y -> nn (x ⊖ y).
Proof. intros Hx Hy. rewrite Bminus_opp. apply plus_nn; auto. destruct y; auto. Qed.
Lemma div_nn x y : nn x -> finnz y -> nn (x ⊘ y).
Proof.
  intros Hx Hy. destruct (is_finite x) eqn:Fx.
  - assert (Hy0 : B2R y <> 0%R) by (intros E; destruct y as [t|t| |t m e H]; try discriminate; apply eq_0_F2R in E; destruct t; discriminate).
    pose proof (Bdiv_correct prec emax Hp Hm mode_NE x y Hy0) as C.
    destruct (Rlt_bool _ _); [apply nn_fin; destruct C as (_ & -> & _); exact Fx|eapply nn_overflow; apply C].
  - destruct x as [s|s| |s m e H]; try discriminate. destruct y as [t|t| |t m e H]; try discriminate. reflexivity.
Qed.

(** x - y is a NaN only if both are infinite *)
Lemma minus_nn' x y : nn x -> nn y -> x <> B754_infinity true -> y <> B754_infinity false -> nn (x ⊖ y).
Proof.
  intros Hx Hy X1 Y1. destruct (is_finite x) eqn:Fx; [apply minus_nn; auto|].
  destruct x as [s|s| |s m e H]; try discriminate. destruct s; [congruence|]. destruct y as [t|t| |t m e H]; try discriminate; try reflexivity.
  destruct t; [reflexivity|congruence].
Qed.
Lemma mult_sign x y : nn (x ⊗ y) -> Bsign (x ⊗ y) = xorb (Bsign x) (Bsign y).
Proof.
  intros H. pose proof (Bmult_correct prec emax Hp Hm mode_NE x y) as C.
  destruct (Rlt_bool _ _); [destruct C as (_ & _ & C); auto|]. 
  destruct (x ⊗ y); simpl in C; try discriminate. injection C as ->. reflexivity.
Qed.
(** no overflow to +infinity when something non-negative is subtracted *)
Lemma minus_sign x y : is_finite x = true -> Bsign y = false -> x ⊖ y <> B754_infinity false.
Proof.
  intros Hx Sy E. rewrite Bminus_opp in E. destruct (is_finite y) eqn:Fy.
  - assert (Fy' : is_finite (Bopp y) = true) by (destruct y; auto).
    pose proof (Bplus_correct prec emax Hp Hm mode_NE x (Bopp y) Hx Fy') as C.
    destruct (Rlt_bool _ _).
    + destruct C as (_ & C & _). rewrite E in C. discriminate.
    + destruct C as (C1 & C2). rewrite E in C1. simpl in C1. injection C1 as C1. destruct y as [t|t| |t m e H]; try discriminate; simpl in *; subst; rewrite <- C1 in C2; discriminate.
  - destruct y as [t|t| |t m e H]; try discriminate; simpl in Sy; subst; destruct x as [t|t| |t m e H]; discriminate.
Qed.
Lemma isnum_nn (x : NumF prec emax Hp Hm) : isnum x <-> nn x.
Proof.
  unfold isnum. rewrite (key_eq _ (OrdF prec emax Hp Hm)). unfold nn. simpl. destruct x as [s|[|]| |s m e H]; simpl; split; intros E; try discriminate; try reflexivity;
  (rewrite Req_bool_true by reflexivity; reflexivity).
Qed.
End F.

Local Open Scope num_scope.
Notation nnD := (nn 53 1024).

Lemma lt_pos (a b : NumD) : (a <? b) = true -> (nZ 0 <=? a) = true -> nnD b /\ b <> B754_infinity true /\ (is_finite b = true -> finnz 53 1024 b).
Proof.
  rewrite (key_lt _ OrdD), (key_le _ OrdD). 
  change (key OrdD (nZ 0 : NumD)) with (Some 0%R). change (key OrdD a) with (fkey 53 1024 a). change (key OrdD b) with (fkey 53 1024 b).
  intros H1 H2. destruct (fkey 53 1024 a) as [ra|] eqn:Ea; [|discriminate]. destruct (fkey 53 1024 b) as [rb|] eqn:Eb; [|discriminate].
  apply Rle_bool_true_iff in H2. apply Rlt_bool_true_iff in H1.
  assert (P := bpow_gt_0 radix2 1024).
  destruct b as [s|[|]| |s m e H].
  - injection Eb as <-. exfalso. lra.
  - injection Eb as <-. exfalso. lra.
  - repeat split; try discriminate.
  - discriminate.
  - repeat split; try discriminate.
Qed.

Lemma backtrack_step_nn (l : ls NumD) (ftol amin s f g : NumD) :
  l_method l = Backtrack ftol amin -> (nZ 0 <? ftol) = true -> is_finite ftol = true -> (nZ 0 <? amin) = true -> is_finite amin = true ->
  is_finite (l_finit l) = true -> is_finite (l_ginit l) = true -> (l_ginit l <? nZ 0) = true ->
  (nZ 0 <=? l_stpmin l) = true -> nnD s -> nnD f ->
  nnD (snd (method_iterate l s f g)).
Proof.
  intros Em Hf Hff Ham0 Hamf Hf0 Hg0 Hgn Hmin Hs Hfn. unfold method_iterate. rewrite Em. unfold backtrack_iterate.
  destruct (f <=? _) eqn:A; [exact Hs|]. destruct (s <=? l_stpmin l) eqn:B; [exact Hs|].
  assert (Nmin : isnum (l_stpmin l)) by (eapply (le_num_r OrdD); exact Hmin).
  assert (Ns : isnum s) by (apply (isnum_nn 53 1024 Hp53 Hm53); exact Hs).
  destruct (lt_pos (l_stpmin l) s) as (_ & S1 & S2); [apply (not_le_lt OrdD); auto|auto|].
  assert (G : finnz 53 1024 (l_ginit l)).
  { destruct (l_ginit l) as [t|t| |t m e H]; try discriminate; reflexivity. }
  set (res := if (amin >=? nQ 1 2) then _ else _).
  assert (Hres : nnD res).
  { assert (H2 : finnz 53 1024 (nQ 1 2 : NumD)) by reflexivity.
    assert (Half : nnD (s * nQ 1 2)) by (apply mult_nn; auto).
    subst res. destruct (amin >=? nQ 1 2); [exact Half|].
    set (q := - s * l_ginit l). set (r := (f - (l_finit l - q)) * nZ 2).
    assert (Hq : nnD q). { apply mult_nn; [|exact G]. destruct s; auto. }
    assert (Hd : nnD (l_finit l - q)) by (apply minus_nn; auto).
    assert (Hfi : f <> B754_infinity true).
    { intros ->. assert (T : nnD (l_finit l + ftol * s * l_ginit l)).
      { apply plus_nn; [exact Hf0|]. apply mult_nn; [|exact G]. apply mult_nn'; [|exact Hs].
        destruct ftol as [t|t| |t m e H]; try discriminate; reflexivity. }
      remember (l_finit l + ftol * s * l_ginit l) as u. clear - A T. rewrite (key_le _ OrdD) in A. simpl in A.
      destruct u as [t|[|]| |t m e H]; try discriminate.
      - apply Rle_bool_false_iff in A. assert (P := bpow_gt_0 radix2 1024). simpl in A. unfold fkey in A. lra.
      - simpl in A. apply Rle_bool_false_iff in A. lra.
      - simpl in A. apply Rle_bool_false_iff in A. assert (P := bpow_gt_0 radix2 1024). lra.
      - simpl in A. apply Rle_bool_false_iff in A. 
        assert (P := abs_B2R_lt_emax 53 1024 (B754_finite t m e H)). apply Rabs_lt_inv in P. simpl in P. lra. }
    assert (Hdi : l_finit l - q <> B754_infinity false).
    { apply minus_sign; [exact Hf0|]. etransitivity; [exact (mult_sign 53 1024 Hp53 Hm53 (- s) (l_ginit l) Hq)|].
      assert (Bsign s = false) as Ss.
      { clear - B Hmin Ns Nmin S1. pose proof (not_le_lt OrdD _ _ Ns Nmin B) as L. pose proof (nle_lt_trans OrdD _ _ _ Hmin L) as L0.
        destruct s as [t|[|]| |[|] m e H]; try discriminate; try reflexivity. }
      assert (Bsign (l_ginit l) = true) as Sg.
      { clear - Hgn Hg0. destruct (l_ginit l) as [[|]|[|]| |[|] m e H]; try discriminate; reflexivity. }
      rewrite Sg. assert (nn 53 1024 s -> Bsign (- s) = true) as ->; auto. destruct s; simpl in *; try discriminate; subst; auto. }
    assert (Hr : nnD r). { apply mult_nn; [|reflexivity]. apply minus_nn'; auto. }
    destruct (r <=? nZ 0) eqn:R0; [exact Half|].
    assert (Fa : finnz 53 1024 amin). { destruct amin as [[|]|[|]| |[|] m e H]; try discriminate; reflexivity. }
    assert (Ha : nnD (s * amin)) by (apply mult_nn; auto).
    destruct (q <=? amin * r) eqn:Q; [exact Ha|].
    assert (Fr : finnz 53 1024 r).
    { pose proof (not_le_lt OrdD r (nZ 0) (proj2 (isnum_nn 53 1024 Hp53 Hm53 r) Hr) eq_refl R0) as R1.
      clear - R1 Q Hq Fa Ham0. destruct r as [[|]|[|]| |[|] m e H]; try discriminate; [|reflexivity].
      exfalso. revert Q. destruct amin as [[|]|[|]| |[|] m e H]; try discriminate.
      clearbody q. destruct q as [[|]|[|]| |[|] m' e' H']; try discriminate. }
    apply mult_nn'; [|apply div_nn; auto].
    apply S2. destruct s as [t|t| |t m e H]; try reflexivity; try discriminate.
    exfalso. revert Fr. unfold r, q. clear - Hf0 G. 
    destruct (l_ginit l) as [u|u| |u m e H]; try discriminate. destruct (l_finit l) as [v|v| |v m' e' H']; try discriminate;
     destruct f as [w|w| |w m'' e'' H'']; destruct t, u; simpl; try discriminate; destruct w; discriminate. }
  destruct (res <? l_stpmin l); [|exact Hres]. apply (isnum_nn 53 1024 Hp53 Hm53). exact Nmin.
Qed.

(** Function values which are not NaN, finite initial values. *)
Definition tame (c : call NumD) : Prop :=
  match c with Start f0 g0 _ _ _ => nfin f0 = true /\ nfin g0 = true | Iterate _ f _ => isnum f end.

Lemma last_start_tame l0 cs l1 rs1 : l_task l0 = LS_ERROR -> run l0 cs = Some (l1, rs1) ->
  forall smax smin f0' g0' s0', last_start cs = Some (f0', g0', s0', smin, smax) -> l_task l1 = LS_SEARCH -> Forall tame cs ->
         nfin f0' = true /\ nfin g0' = true /\ (smin <? nZ 0) = false /\ (nZ 0 <=? g0') = false.
Proof.
  intros H0. revert cs l1 rs1.
  apply (run_rect (fun cs l rs => forall smax smin f0' g0' s0', last_start cs = Some (f0', g0', s0', smin, smax) -> l_task l = LS_SEARCH -> Forall tame cs ->
         nfin f0' = true /\ nfin g0' = true /\ (smin <? nZ 0) = false /\ (nZ 0 <=? g0') = false)); [discriminate|].
  intros cs c l1 rs1 l2 r R1 IH D smax smin f0 g0 s0. rewrite last_start_snoc. intros Hs Ht Hcs. apply Forall_app in Hcs. destruct Hcs as [Hcs Hc]. inversion Hc as [|? ? Tc _]; subst.
  destruct c as [f0' g0' s s1' s2'|s f g]; simpl in D.
  - destruct (ls_start l1 f0' g0' s s1' s2') as [l'|] eqn:S; [|discriminate]. injection D as <- <-. injection Hs as -> -> -> -> ->.
    destruct (start_values _ _ _ _ _ _ _ S Ht) as ((T1 & T2 & T3 & T4 & T5) & _). destruct Tc. auto.
  - pose proof (iterate_cases l1 s f g) as C. destruct (ls_iterate l1 s f g) as [l' s']. injection D as <- <-.
    destruct C as [(_ & -> & _)|[(_ & _ & -> & _)|(Ht1 & _)]]; try discriminate. eapply IH; eauto.
Qed.

Lemma run_bounds_backtrack ftol amin l0 cs l rs f0 g0 s0 s1 s2 :
  new_backtrack true ftol amin = Some l0 -> isnum ftol -> isnum amin -> Forall tame cs ->
  run l0 cs = Some (l, rs) -> l_task l = LS_SEARCH -> last_start cs = Some (f0, g0, s0, s1, s2) ->
  isnum s0 -> isnum s1 -> isnum s2 ->
  isnum (l_stp l) /\ (s1 <=? l_stp l) = true /\ (l_stp l <=? s2) = true.
Proof.
  intros Hc Nf Na. unfold new_backtrack in Hc.
  destruct (ftol <=? nZ 0) eqn:F1; [discriminate|]. destruct (ftol >? nQ 1 2) eqn:F2; [discriminate|].
  destruct (amin <=? nZ 0) eqn:A1; [discriminate|]. destruct (amin >=? nZ 1) eqn:A2; [discriminate|]. injection Hc as <-.
  assert (F0 : (nZ 0 <? ftol) = true) by (apply (not_le_lt OrdD); auto).
  assert (A0 : (nZ 0 <? amin) = true) by (apply (not_le_lt OrdD); auto).
  assert (Ff : is_finite ftol = true).
  { destruct ftol as [t|[|]| |t m e H]; try discriminate; try reflexivity. }
  assert (Fa : is_finite amin = true).
  { destruct amin as [t|[|]| |t m e H]; try discriminate; try reflexivity. }
  set (l0 := allocate_line_search (Backtrack ftol amin)).
  intros Ht R. revert R Ht f0 g0 s0 s1 s2. revert cs l rs.
  apply (run_rect (fun cs l rs => Forall tame cs -> forall f0 g0 s0 s1 s2, l_task l = LS_SEARCH -> last_start cs = Some (f0, g0, s0, s1, s2) ->
     isnum s0 -> isnum s1 -> isnum s2 -> isnum (l_stp l) /\ (s1 <=? l_stp l) = true /\ (l_stp l <=? s2) = true)); [discriminate|].
  intros cs c l1 rs1 l2 r R1 IH D Hcs f0 g0 s0 s1 s2 Ht. rewrite last_start_snoc.
  apply Forall_app in Hcs. destruct Hcs as [Hcs Hc]. inversion Hc as [|? ? Tc _]; subst.
  destruct c as [f0' g0' s s1' s2'|s f g]; simpl in D.
  - destruct (ls_start l1 f0' g0' s s1' s2') as [l'|] eqn:S; [|discriminate]. injection D as <- <-. intros [= -> -> -> -> ->] N0 N1 N2.
    destruct (start_values _ _ _ _ _ _ _ S Ht) as ((T1 & T2 & T3 & T4 & T5) & (_ & -> & E1 & E2 & _ & _) & X).
    split; [exact N0|]. split; apply (not_lt_le OrdD); auto.
  - destruct (run_state l0 cs l1 rs1 eq_refl R1) as (_ & St).
    pose proof (iterate_cases l1 s f g) as C. pose proof (iterate_bounds OrdD l1 s f g) as B.
    destruct (ls_iterate l1 s f g) as [l' s']. injection D as <- <-. intros Hs N0 N1 N2.
    destruct C as [(_ & -> & _)|[(_ & _ & -> & _)|(Ht1 & Es & E1 & _ & _ & C)]]; try discriminate.
    destruct (IH Hcs f0 g0 s0 s1 s2 Ht1 Hs N0 N1 N2) as (I2 & I3 & I4).
    destruct (St Ht1) as (_ & f0' & g0' & s0' & E & Ef & Eg). rewrite Hs in E. injection E as -> -> -> -> ->.
    assert (Ns : isnum s). { unfold isnum. revert Es. rewrite !(key_eq _ OrdD). destruct (key OrdD s), (key OrdD (l_stp l1)); intros; try discriminate. apply Req_bool_true. reflexivity. }
    (* the last start has been successful *)
    assert (Q : nfin f0' = true /\ nfin g0' = true /\ (l_stpmin l1 <? nZ 0) = false /\ (nZ 0 <=? g0') = false).
    { exact (last_start_tame l0 cs l1 rs1 eq_refl R1 _ _ _ _ _ Hs Ht1 Hcs). }
    destruct Q as (Q1 & Q2 & Q3 & Q4).
    assert (Em : l_method l1 = Backtrack ftol amin).
    { pose proof (run_params _ _ _ _ R1) as P. unfold params, l0 in P. simpl in P. destruct (l_method l1); congruence. }
    assert (M1 : isnum (snd (method_iterate l1 s f g))).
    { apply (isnum_nn 53 1024 Hp53 Hm53). eapply (backtrack_step_nn l1 ftol amin s f g); auto.
      - rewrite Ef. exact Q1. - rewrite Eg. exact Q2.
      - rewrite Eg. apply (not_le_lt OrdD); auto. apply (isnum_nn 53 1024 Hp53 Hm53). apply nn_fin. exact Q2.
      - apply (not_lt_le OrdD); auto.
      - apply (isnum_nn 53 1024 Hp53 Hm53). exact Ns.
      - apply (isnum_nn 53 1024 Hp53 Hm53). exact Tc. }
    destruct (B N1 N2 (nle_trans OrdD _ _ _ I3 I4) Ht (or_intror M1)) as (B1 & B2 & B3). subst s'. auto.
Qed.
