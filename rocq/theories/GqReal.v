(** * gqtpar.c, exact arithmetic: OPK_GQT solves the trust region problem *)
From Coq Require Import ZArith Reals List Bool Lia Lra.
From Flocq Require Import Core.
From Verif Require Import Base Num NumFacts OrdFacts LaModel LaLoops LaSpec LaMem LaBlas1 LaBlas1R LaTri2 LaChol LaProps LcgSpec LcgVec
  GqModel GqSafe GqRun GqEst GqVec.
Import ListNotations.
Local Open Scope Z_scope.

Section Real.
Variables H I : R.
Notation NR := (NumR H I).
Notation mem := (Z -> option NR).
Implicit Types (M : Z -> option NR).

Variables (n a lda b : Z) (delta rtol atol : R) (itmax : Z) (x z wa1 wa2 : Z) (S : Z -> Z -> R) (B : Z -> R).
Hypothesis Hn : 1 <= n <= lda.
Hypothesis Hd : (0 < delta)%R.
Hypothesis Hr : (0 <= rtol <= 1)%R.
Hypothesis Ss : symmetric n S.
Notation Mat := (Mat n a lda).
Notation All := (All n a lda b x z wa1 wa2).
Notation Mod := (Mod n a lda x z wa2).
Hypothesis Xb : forall p, Mat p -> ~ V b n p.
Hypothesis Xx : forall p, Mat p -> ~ V x n p.
Hypothesis Xz : forall p, Mat p -> ~ V z n p.
Hypothesis X1 : forall p, Mat p -> ~ V wa1 n p.
Hypothesis X2 : forall p, Mat p -> ~ V wa2 n p.
Hypothesis Bx : forall p, V b n p -> ~ V x n p.
Hypothesis Bz : forall p, V b n p -> ~ V z n p.
Hypothesis B1 : forall p, V b n p -> ~ V wa1 n p.
Hypothesis B2 : forall p, V b n p -> ~ V wa2 n p.
Hypothesis XZ : forall p, V x n p -> ~ V z n p.
Hypothesis Y1 : forall p, V x n p -> ~ V wa1 n p.
Hypothesis Y2 : forall p, V x n p -> ~ V wa2 n p.
Hypothesis Z1 : forall p, V z n p -> ~ V wa1 n p.
Hypothesis Z2 : forall p, V z n p -> ~ V wa2 n p.
Hypothesis W12 : forall p, V wa1 n p -> ~ V wa2 n p.

Notation gv := (@gvars NR).

(** ** What the vectors mean *)

(** The solution of (A + par I) x = -b and the direction to the boundary *)
Definition sol (v : gv) (X Y : Z -> R) : Prop :=
  let C := shifted S (g_parf v) in
  (0 <= g_parf v)%R /\ pos_def n C /\ same n (mulv n C X) (fun i => - B i)%R /\ (g_xnorm v : R) = norm n X /\
  (g_rxnorm v * g_rxnorm v = dotp n X (mulv n C X))%R /\
  ((g_xnorm v < delta)%R ->
     (dotp n (fun i => X i + g_alpha v * Y i) (fun i => X i + g_alpha v * Y i) = delta * delta)%R /\
     (g_rznorm v * g_rznorm v = g_alpha v * g_alpha v * dotp n Y (mulv n C Y))%R /\
     (g_rednc v = true -> g_rznorm v * g_rznorm v + g_parf v * (g_xnorm v * g_xnorm v) <= g_parf v * (delta * delta))%R /\
     (g_rednc v = false -> g_parf v * (delta * delta) <= g_rznorm v * g_rznorm v + g_parf v * (g_xnorm v * g_xnorm v))%R) /\
  ((delta <= g_xnorm v)%R -> g_rednc v = false).

(** x and f(x) at the end *)
Definition xout (v : gv) (X Y : Z -> R) (i : Z) : R := if g_rednc v then (X i + g_alpha v * Y i)%R else X i.
Definition fout (v : gv) : R :=
  (if g_rednc v then - (1 / 2) * (g_rxnorm v * g_rxnorm v + g_parf v * delta * delta - g_rznorm v * g_rznorm v)
   else - (1 / 2) * (g_rxnorm v * g_rxnorm v + g_parf v * g_xnorm v * g_xnorm v))%R.

Lemma fout_ok : forall v X Y, sol v X Y -> fout v = qval n S B (xout v X Y).
Proof.
  intros v X Y [P0 [P1 [P2 [P3 [P4 [P5 P6]]]]]]. unfold fout, xout. destruct (g_rednc v) eqn:E.
  - destruct (Rlt_le_dec (g_xnorm v) delta) as [L|L]; [|specialize (P6 L); congruence].
    destruct (P5 L) as [Q1 [Q2 _]].
    change (qval n S B (fun k => if true then (X k + g_alpha v * Y k)%R else X k)) with (qval n S B (fun k => X k + g_alpha v * Y k)%R).
    rewrite (qval_move n S (g_parf v) B X Y (g_alpha v) Ss P2). rewrite Q1, <- Q2, <- P4. lra.
  - change (qval n S B (fun i => if false then (X i + g_alpha v * Y i)%R else X i)) with (qval n S B (fun i => X i)).
    rewrite (qval_same n S (g_parf v) B (fun i => X i) Ss P2). 
    assert (E2 := norm_sq n X). rewrite <- P3 in E2. change (dotp n (fun i => X i) (fun i => X i)) with (dotp n X X).
    change (dotp n (fun i => X i) (mulv n (shifted S (g_parf v)) (fun i => X i))) with (dotp n X (mulv n (shifted S (g_parf v)) X)).
    rewrite <- E2, <- P4. lra.
Qed.

(** The relative and the absolute accuracy *)
Definition relative (X : Z -> R) : Prop :=
  (norm n X <= (1 + rtol) * delta)%R /\
  forall y, (norm n y <= delta)%R -> (qval n S B X <= (1 - rtol) * (1 - rtol) * qval n S B y)%R.
Definition absolute (X : Z -> R) : Prop :=
  (norm n X <= (1 + rtol) * delta)%R /\ (- qval n S B X <= atol)%R /\
  forall y, (norm n y <= delta)%R -> (- qval n S B y <= atol)%R.

Lemma norm_le_sq : forall m y D, (0 <= D)%R -> (norm m y <= D)%R -> (dotp m y y <= D * D)%R.
Proof. intros m y D H0 H1. rewrite <- norm_sq. pose proof (norm_nonneg m y). nra. Qed.
Lemma sq_norm_le : forall m y D, (0 <= D)%R -> (dotp m y y <= D * D)%R -> (norm m y <= D)%R.
Proof. intros m y D H0 H1. rewrite <- norm_sq in H1. pose proof (norm_nonneg m y). nra. Qed.

(** f(x) is not larger than f at the solution of the linear system; x is not too far *)
Lemma out_better : forall v X Y, sol v X Y ->
  (fout v <= - (g_rxnorm v * g_rxnorm v + g_parf v * (g_xnorm v * g_xnorm v)) / 2)%R /\
  ((g_xnorm v < delta)%R -> fout v <= - (g_rxnorm v * g_rxnorm v + g_parf v * (delta * delta) - g_rznorm v * g_rznorm v) / 2)%R /\
  (norm n (xout v X Y) <= Rmax delta (g_xnorm v))%R.
Proof.
  intros v X Y [P0 [P1 [P2 [P3 [P4 [P5 P6]]]]]]. unfold fout, xout.
  destruct (Rlt_le_dec (g_xnorm v) delta) as [L|L].
  - destruct (P5 L) as [Q1 [Q2 [Q3 Q4]]]. destruct (g_rednc v) eqn:E.
    + specialize (Q3 eq_refl). split; [lra|]. split; [intros _; lra|]. rewrite Rmax_left by lra.
      apply sq_norm_le; [lra|]. change (dotp n (fun i => X i + g_alpha v * Y i) (fun i => X i + g_alpha v * Y i) <= delta * delta)%R. lra.
    + specialize (Q4 eq_refl). split; [lra|]. split; [intros _; lra|]. rewrite Rmax_left by lra.
      change (norm n X <= delta)%R. lra.
  - rewrite (P6 L). split; [lra|]. split; [intros; lra|]. rewrite Rmax_right by lra. change (norm n X <= g_xnorm v)%R. lra.
Qed.

Lemma lower_bound : forall v X Y y, sol v X Y -> (norm n y <= delta)%R ->
  (- (g_rxnorm v * g_rxnorm v + g_parf v * (delta * delta)) / 2 <= qval n S B y)%R.
Proof.
  intros v X Y y [P0 [P1 [P2 [P3 [P4 _]]]]] Hy. rewrite P4.
  apply (qval_lower n S (g_parf v) B X y (delta * delta) Ss P2); [intros u; apply pos_def_nonneg; exact P1|exact P0|].
  apply norm_le_sq; [lra|exact Hy].
Qed.

Lemma sq_nonneg : forall t : R, (0 <= t * t)%R.
Proof. intros t. apply Rle_0_sqr. Qed.

(** f(x) <= (1-rtol)^2 f(xsol) follows from f(x) <= -(1-rtol)^2 (rx^2 + par delta^2)/2 *)
Lemma rel_from : forall v X Y y, sol v X Y -> (norm n y <= delta)%R ->
  (fout v <= - ((1 - rtol) * (1 - rtol)) * (g_rxnorm v * g_rxnorm v + g_parf v * (delta * delta)) / 2)%R ->
  (qval n S B (xout v X Y) <= (1 - rtol) * (1 - rtol) * qval n S B y)%R.
Proof.
  intros v X Y y HS Hy Hf. rewrite <- (fout_ok v X Y HS). assert (L := lower_bound v X Y y HS Hy).
  assert (Q := sq_nonneg (1 - rtol)).
  apply (Rmult_le_compat_l _ _ _ Q) in L. lra.
Qed.

Lemma accept_1 : forall v X Y, sol v X Y -> (Rabs (g_xnorm v - delta) <= rtol * delta)%R -> relative (xout v X Y).
Proof.
  intros v X Y HS Hc. assert (HO := out_better v X Y HS). destruct HO as [O1 [O2 O3]].
  apply Rabs_le_inv in Hc. split.
  - eapply Rle_trans; [exact O3|]. apply Rmax_lub; nra.
  - intros y Hy. apply (rel_from v X Y y HS Hy). eapply Rle_trans; [exact O1|].
    destruct HS as [P0 _]. assert (Q := sq_nonneg (g_rxnorm v)).
    assert (E : ((1 - rtol) * delta * ((1 - rtol) * delta) <= g_xnorm v * g_xnorm v)%R) by (apply Rmult_le_compat; nra).
    apply (Rmult_le_compat_l (g_parf v) _ _ P0) in E.
    assert (E2 : ((1 - rtol) * (1 - rtol) <= 1)%R) by nra.
    assert (E3 := Rmult_le_compat_r _ _ _ Q E2). lra.
Qed.

Lemma accept_2 : forall v X Y, sol v X Y -> g_parf v = 0%R -> (g_xnorm v <= (1 + rtol) * delta)%R -> relative (xout v X Y).
Proof.
  intros v X Y HS H0 Hc. assert (HO := out_better v X Y HS). destruct HO as [O1 [O2 O3]]. split.
  - eapply Rle_trans; [exact O3|]. apply Rmax_lub; nra.
  - intros y Hy. apply (rel_from v X Y y HS Hy). eapply Rle_trans; [exact O1|].
    rewrite H0. assert (Q := sq_nonneg (g_rxnorm v)).
    assert (E2 : ((1 - rtol) * (1 - rtol) <= 1)%R) by nra.
    assert (E3 := Rmult_le_compat_r _ _ _ Q E2). lra.
Qed.

Lemma accept_3 : forall v X Y, sol v X Y -> (g_xnorm v < delta)%R ->
  (1 / 2 * ((g_rznorm v / delta) * (g_rznorm v / delta)) <=
   rtol * (1 - 1 / 2 * rtol) * (g_parf v + (g_rxnorm v / delta) * (g_rxnorm v / delta)))%R -> relative (xout v X Y).
Proof.
  intros v X Y HS L Hc. assert (HO := out_better v X Y HS). destruct HO as [O1 [O2 O3]]. split.
  - eapply Rle_trans; [exact O3|]. apply Rmax_lub; nra.
  - intros y Hy. apply (rel_from v X Y y HS Hy). eapply Rle_trans; [exact (O2 L)|].
    assert (D2 : (0 < delta * delta)%R) by nra.
    apply (Rmult_le_compat_r (delta * delta)) in Hc; [|lra].
    replace (1 / 2 * (g_rznorm v / delta * (g_rznorm v / delta)) * (delta * delta))%R with (1 / 2 * (g_rznorm v * g_rznorm v))%R in Hc by (field; lra).
    replace (rtol * (1 - 1 / 2 * rtol) * (g_parf v + g_rxnorm v / delta * (g_rxnorm v / delta)) * (delta * delta))%R
      with (rtol * (1 - 1 / 2 * rtol) * (g_rxnorm v * g_rxnorm v + g_parf v * (delta * delta)))%R in Hc by (field; lra).
    lra.
Qed.

Lemma accept_4 : forall v X Y, sol v X Y -> (g_xnorm v < delta)%R ->
  (1 / 2 * (g_parf v + (g_rxnorm v / delta) * (g_rxnorm v / delta)) <= atol / delta / delta)%R -> absolute (xout v X Y).
Proof.
  intros v X Y HS L Hc. assert (HO := out_better v X Y HS). destruct HO as [O1 [O2 O3]].
  rewrite Rmax_left in O3 by lra.
  assert (Q : (1 / 2 * (g_rxnorm v * g_rxnorm v + g_parf v * (delta * delta)) <= atol)%R).
  { assert (D2 : (0 < delta * delta)%R) by nra. apply (Rmult_le_compat_r (delta * delta)) in Hc; [|lra].
    replace (atol / delta / delta * (delta * delta))%R with atol in Hc by (field; lra).
    replace (1 / 2 * (g_parf v + g_rxnorm v / delta * (g_rxnorm v / delta)) * (delta * delta))%R
      with (1 / 2 * (g_rxnorm v * g_rxnorm v + g_parf v * (delta * delta)))%R in Hc by (field; lra). exact Hc. }
  assert (L2 : forall y, (norm n y <= delta)%R -> (- qval n S B y <= atol)%R).
  { intros y Hy. assert (E := lower_bound v X Y y HS Hy). lra. }
  split; [nra|]. split; [|exact L2]. apply L2. exact O3.
Qed.

(** ** The memory *)
Definition st (M : mem) : Prop :=
  dom M All /\ (forall i j, 0 <= j < i -> i < n -> M (entry a lda i j) = Some (S i j : NR)) /\
  vec H I M wa1 n (fun j => S j j) /\ vec H I M b n B.

Lemma st_keep : forall M M', kp Mod M M' -> st M -> st M'.
Proof.
  intros M M' K [P1 [P2 [P3 P4]]]. split; [eapply kp_dom; eassumption|]. split; [|split].
  - intros i j Hj Hi. rewrite (low_keep n a lda x z wa2 Hn Xx Xz X2 M M' i j K Hj Hi). apply P2; assumption.
  - intros j Hj. rewrite (wa1_keep n a lda x z wa1 wa2 X1 Y1 Z1 W12 M M' j K Hj). apply P3, Hj.
  - intros j Hj. rewrite (b_keep n a lda b x z wa2 Xb Bx Bz B2 M M' j K Hj). apply P4, Hj.
Qed.

Definition upper (M : mem) (C : Z -> Z -> R) : Prop := forall i j, 0 <= i <= j -> j < n -> M (entry a lda i j) = Some (C i j : NR).

(** The matrix A + par I *)
Lemma prepare_ok : forall (par : R) M, st M ->
  exists M1 M2, gq_restore (N := NR) n a lda M = Some M1 /\
    for_up 1 (n + 1) (fun j M => do d <- M (wa1 + (j - 1)); store M (a + (j - 1 + lda * (j - 1))) (nadd (n := NR) d par)) M1 = Some M2 /\
    kp (Up a lda n) M M2 /\ upper M2 (shifted S par).
Proof.
  intros par M [HD [HL [H1 Hb]]].
  destruct (restore_kp n a lda b x z wa1 wa2 Hn M HD) as [M1 [E1 [K1 [U1 D1]]]].
  assert (HU : forall i j, 0 <= i < j -> j < n -> M1 (entry a lda i j) = Some (S i j : NR)).
  { intros i j Hi Hj. rewrite U1 by assumption. rewrite HL by lia. f_equal. apply Ss; lia. }
  assert (Hw : vec H I M1 wa1 n (fun j => S j j)).
  { eapply vec_keep; [exact K1|exact H1|]. intros p Hp Hu. apply (X1 p); [eapply up_all; exact Hu|exact Hp]. }
  assert (HD1 := kp_dom _ _ _ _ K1 HD).
  match goal with |- context [for_up 1 (n + 1) ?body _] =>
    destruct (for_up_inv (fun j M' => kp (Up a lda n) M1 M' /\ (forall i j, 0 <= i < j -> j < n -> M' (entry a lda i j) = Some (S i j : NR)) /\
      (forall k, 0 <= k < j - 1 -> M' (entry a lda k k) = Some ((S k k + par)%R : NR))) 1 (n + 1) body M1) as [M2 [E2 [K2 [U2 D2]]]] end.
  - lia.
  - split; [apply kp_refl|]. split; [exact HU|]. intros; lia.
  - intros j M2 Hj [K2 [U2 D2]].
    rewrite (vec_keep H I _ M1 M2 wa1 n _ K2 Hw) by (lia || (intros p Hp Hu; apply (X1 p); [eapply up_all; exact Hu|exact Hp])).
    change (a + (j - 1 + lda * (j - 1))) with (entry a lda (j - 1) (j - 1)).
    assert (Hd2 : M2 (entry a lda (j - 1) (j - 1)) <> None).
    { apply (kp_dom _ _ _ _ K2 HD1). left. exists (j - 1), (j - 1). repeat split; lia. }
    destruct (M2 (entry a lda (j - 1) (j - 1))) as [w|] eqn:Ew; [|congruence].
    destruct (store_ok (N := NR) M2 _ w (S (j - 1) (j - 1) + par)%R Ew) as [M3 [E3 [A3 F3]]]. exists M3. split; [exact E3|].
    split; [|split].
    + eapply kp_trans; [exact K2|]. split.
      * intros p Hp. apply F3. intros ->. apply Hp. exists (j - 1), (j - 1). repeat split; lia.
      * intros p Hp. destruct (Z.eq_dec p (entry a lda (j - 1) (j - 1))) as [->|Hne]; [congruence|]. rewrite F3 by exact Hne. exact Hp.
    + intros i k Hi Hk. rewrite F3; [apply U2; assumption|]. intros E. apply (ent_inj n a lda Hn) in E; lia.
    + intros k Hk. destruct (Z.eq_dec k (j - 1)) as [->|Hne]; [exact A3|]. rewrite F3; [apply D2; lia|].
      intros E. apply (ent_inj n a lda Hn) in E; lia.
  - exists M1, M2. split; [exact E1|]. split; [exact E2|]. split; [exact (kp_trans _ _ _ _ K1 K2)|].
    intros i j Hi Hj. unfold shifted. destruct (Z.eqb_spec i j) as [->|Hne]; [apply D2; lia|apply U2; lia].
Qed.

Lemma up_tri : forall M C, upper M C -> has_tri (N := NR) M a lda n true false C.
Proof. intros M C HU i j Hi Hj Hij _. apply HU; lia. Qed.

Lemma sym_shift : forall par i j, 0 <= i < n -> 0 <= j < n -> sym_mat true (shifted S par) i j = shifted S par i j.
Proof.
  intros par i j Hi Hj. unfold sym_mat. destruct (Z.leb_spec i j); [reflexivity|]. apply (shifted_sym n S par Ss); assumption.
Qed.

Lemma pos_def_ext : forall m (C D : Z -> Z -> R), (forall i j, 0 <= i < m -> 0 <= j < m -> C i j = D i j) -> pos_def m C -> pos_def m D.
Proof.
  intros m C D E PD v Hv. specialize (PD v Hv).
  rewrite (sumz_ext 0 m _ (fun i => sumz 0 m (fun j => v i * D i j * v j)%R)) in PD; [exact PD|].
  intros i Hi. apply sumz_ext. intros j Hj. rewrite E by assumption. reflexivity.
Qed.

Lemma pos_def_of : forall C, (forall v, (exists i, 0 <= i < n /\ v i <> 0%R) -> (0 < dotp n v (mulv n C v))%R) -> pos_def n C.
Proof.
  intros C P v Hv. specialize (P v Hv). unfold dotp, mulv in P.
  rewrite (sumz_ext 0 n _ (fun i => sumz 0 n (fun j => v i * C i j * v j)%R)) in P; [exact P|].
  intros i Hi. rewrite <- sumz_scal. apply sumz_ext. intros. ring.
Qed.

(** The factor T of A + par I *)
Definition factor (par : R) (F : Z -> Z -> R) : Prop :=
  (forall i, 0 <= i < n -> (0 < F i i)%R) /\
  (forall i j, 0 <= i < n -> 0 <= j < n ->
     sumz 0 n (fun l => tri_mat true false F l i * tri_mat true false F l j)%R = shifted S par i j).

Lemma factorize : forall par M, upper M (shifted S par) ->
  exists r M', potf2 (N := NR) UPPER n a lda M = Some (r, M') /\ 0 <= r <= n /\ kp (Up a lda n) M M' /\
    (r = 0 -> pos_def n (shifted S par) /\ exists F, upper M' F /\ factor par F) /\
    (r <> 0 -> ~ pos_def n (shifted S par)).
Proof.
  intros par M HU.
  destruct (C42_potf2 H I UPPER true n a lda (shifted S par) M eq_refl ltac:(lia) ltac:(lia) ltac:(lia) (up_tri _ _ HU)) as [r [M' [E [_ P]]]].
  destruct (potf2_kp n a lda M ltac:(lia) ltac:(lia)) as [r' [M'' [E' [Hr' K]]]].
  { intros i j Hi Hj. rewrite (HU i j Hi Hj). discriminate. }
  assert (E0 : Some (r, M') = Some (r', M'')) by (etransitivity; [symmetry; exact E|exact E']). injection E0 as <- <-.
  assert (Ext : forall i j, 0 <= i < n -> 0 <= j < n -> sym_mat true (shifted S par) i j = shifted S par i j) by apply sym_shift.
  exists r, M'. split; [exact E|]. split; [exact Hr'|]. split; [exact K|]. split.
  - intros H0. destruct P as [[_ [[F [F1 [F2 F3]]] PD]]|[Hr1 _]]; [|lia]. split; [eapply pos_def_ext; eassumption|].
    exists F. split; [intros i j Hi Hj; apply F1; try lia; discriminate|]. split; [exact F2|]. intros i j Hi Hj. rewrite <- Ext by assumption.
    apply F3; assumption.
  - intros H0 PD. assert (PD' : pos_def n (sym_mat true (shifted S par))).
    { eapply pos_def_ext; [|exact PD]. intros i j Hi Hj. symmetry. apply Ext; assumption. }
    apply (C42_decides H I UPPER true n a lda (shifted S par) M eq_refl ltac:(lia) ltac:(lia) ltac:(lia) (up_tri _ _ HU)) in PD'.
    destruct PD' as [M3 E3]. assert (E4 : Some (r, M') = Some (0, M3)) by (etransitivity; [symmetry; exact E|exact E3]). injection E4 as E4 _. exact (H0 E4).
Qed.

(** ** A + par I is positive definite *)

(** The tests of the iteration that find a solution *)
Definition passes (v : gv) (info : Z) : Prop :=
  (info = 0 -> ~ ((g_parf v : R) = 0%R /\ (g_xnorm v <= (1 + rtol) * delta)%R)) /\
  (info = 1 -> (Rabs (g_xnorm v - delta) <= rtol * delta)%R \/ ((g_parf v : R) = 0%R /\ (g_xnorm v <= (1 + rtol) * delta)%R) \/
     ((g_xnorm v < delta)%R /\ (1 / 2 * ((g_rznorm v / delta) * (g_rznorm v / delta)) <=
         rtol * (1 - 1 / 2 * rtol) * (g_parf v + (g_rxnorm v / delta) * (g_rxnorm v / delta)))%R) \/ (g_xnorm v : R) = 0%R) /\
  (info = 2 -> (g_xnorm v < delta)%R /\ (1 / 2 * (g_parf v + (g_rxnorm v / delta) * (g_rxnorm v / delta)) <= atol / delta / delta)%R).

Lemma sign_pos : forall a0 p : R, (0 < a0)%R -> (((0 <= p)%R -> sign (N := NR) a0 p = a0) /\ ((p < 0)%R -> sign (N := NR) a0 p = (- a0)%R)).
Proof.
  intros a0 p H0. unfold sign, ZERO. nr. zo. destruct (Rlt_bool_spec a0 0); [lra|].
  destruct (Rlt_bool_spec p 0); cbn [Bool.eqb]; split; intros; lra.
Qed.

Lemma tri_up : forall M F, upper M F -> tri H I n a lda F M.
Proof. intros M F HU i j Hi Hj. apply HU; assumption. Qed.

Lemma up_keep : forall (T : Z -> Prop) M M' F, kp T M M' -> upper M F -> (forall p, Mat p -> ~ T p) -> upper M' F.
Proof.
  intros T M M' F K HU HT i j Hi Hj. rewrite (proj1 K); [apply HU; assumption|]. apply HT. exists i, j. repeat split; lia.
Qed.

(** The two triangular systems *)
Lemma solve_t : forall M F W, upper M F -> (forall i, 0 <= i < n -> F i i <> 0%R) -> vec H I M wa2 n W ->
  exists M' X, trsv (N := NR) UPPER TRANS NON_UNIT n a lda wa2 1 M = Some (0, M') /\ kp (V wa2 n) M M' /\ vec H I M' wa2 n X /\
    forall i, 0 <= i < n -> sumz 0 n (fun l => tri_mat true false F l i * X l)%R = W i.
Proof.
  intros M F W HU HF HW.
  destruct (trsv_spec H I UPPER TRANS NON_UNIT true true false n a lda wa2 1 F W M) as [M' [X [E [VX [Ho Q]]]]]; try lia; try reflexivity.
  - left. reflexivity.
  - apply up_tri, HU.
  - apply vec_has, HW.
  - intros i k l Hi Hk Hl. rewrite elt_1. intros E. apply (X2 (entry a lda k l)); [exists k, l; auto|]. rewrite <- E. exists i. auto.
  - right. exact HF.
  - exists M', X. split; [exact E|]. split; [eapply kp_elt0; [|exact (only_kp _ _ _ _ _ _ VX Ho)]; lia|]. split; [apply has_vec1, VX|exact Q].
Qed.

Lemma solve_n : forall M F W, upper M F -> (forall i, 0 <= i < n -> F i i <> 0%R) -> vec H I M wa2 n W ->
  exists M' X, trsv (N := NR) UPPER NO_TRANS NON_UNIT n a lda wa2 1 M = Some (0, M') /\ kp (V wa2 n) M M' /\ vec H I M' wa2 n X /\
    forall i, 0 <= i < n -> mulv n (tri_mat true false F) X i = W i.
Proof.
  intros M F W HU HF HW.
  destruct (trsv_spec H I UPPER NO_TRANS NON_UNIT true false false n a lda wa2 1 F W M) as [M' [X [E [VX [Ho Q]]]]]; try lia; try reflexivity.
  - apply up_tri, HU.
  - apply vec_has, HW.
  - intros i k l Hi Hk Hl. rewrite elt_1. intros E. apply (X2 (entry a lda k l)); [exists k, l; auto|]. rewrite <- E. exists i. auto.
  - right. exact HF.
  - exists M', X. split; [exact E|]. split; [eapply kp_elt0; [|exact (only_kp _ _ _ _ _ _ VX Ho)]; lia|]. split; [apply has_vec1, VX|exact Q].
Qed.

Lemma copy_vec : forall M p q F, vec H I M p n F -> (forall i, 0 <= i < n -> M (q + i) <> None) -> (forall r, V p n r -> ~ V q n r) ->
  exists M', copy (N := NR) n p 1 q 1 M = Some M' /\ kp (V q n) M M' /\ vec H I M' q n F.
Proof.
  intros M p q F HF Hq Ho.
  destruct (copy_kp n p 1 q 1 M) as [M' [E [K C]]]; [lia| | | |].
  - intros i Hi. rewrite elt_1, (HF i Hi). discriminate.
  - intros i Hi. rewrite elt_1. apply Hq, Hi.
  - intros i j Hi Hj. rewrite !elt_1. apply (apart_v n p q i j Ho); lia.
  - exists M'. split; [exact E|]. split; [eapply kp_elt0; [|exact K]; lia|]. intros i Hi. specialize (C i Hi). rewrite !elt_1 in C.
    rewrite C. apply HF, Hi.
Qed.

Lemma positive_ok : forall (v : gv) (par : R) M F, st M -> upper M F -> factor par F -> pos_def n (shifted S par) -> (0 <= par)%R ->
  exists (v' : gv) (parc : R) info M' X Y, gq_positive (N := NR) n a lda b delta rtol atol x z wa2 v par M = Some (v', parc, info, M') /\
    kp Mod M M' /\ vec H I M' x n X /\ vec H I M' z n Y /\ sol v' X Y /\ passes v' info /\ 0 <= info <= 2 /\
    (g_par v' : R) = par /\ (g_parf v' : R) = par /\
    ((0 <= g_parl v)%R -> (0 <= g_parl v')%R) /\ 
    (g_paru v' = g_paru v \/ ((g_paru v' : R) = par /\ (g_xnorm v' < delta)%R)).
Proof.
  intros v par M F HS HU [F1 F2] PD Hp. unfold gq_positive.
  assert (Fd : forall i, 0 <= i < n -> F i i <> 0%R) by (intros i Hi; specialize (F1 i Hi); lra).
  assert (HD := proj1 HS).
  destruct (copy_vec M b wa2 B (proj2 (proj2 (proj2 HS))) ltac:(intros i Hi; apply HD, in_w2, Hi) B2) as [M1 [E1 [K1 V1]]]. rewrite E1.
  assert (U1 := up_keep _ _ _ _ K1 HU X2). assert (HD1 := kp_dom _ _ _ _ K1 HD).
  destruct (solve_t M1 F B U1 Fd V1) as [M2 [W [E2 [K2 [V2 S2]]]]]. rewrite E2.
  assert (U2 := up_keep _ _ _ _ K2 U1 X2). assert (HD2 := kp_dom _ _ _ _ K2 HD1).
  rewrite (nrm2_vec H I M2 wa2 n W V2).
  destruct (solve_n M2 F W U2 Fd V2) as [M3 [Q [E3 [K3 [V3 S3]]]]]. rewrite E3.
  assert (U3 := up_keep _ _ _ _ K3 U2 X2). assert (HD3 := kp_dom _ _ _ _ K3 HD2).
  destruct (copy_vec M3 wa2 x Q V3 ltac:(intros i Hi; apply HD3, in_x, Hi)) as [M4 [E4 [K4 V4]]]; [intros r H1 H2; exact (Y2 r H2 H1)|]. rewrite E4.
  assert (U4 := up_keep _ _ _ _ K4 U3 Xx). assert (HD4 := kp_dom _ _ _ _ K4 HD3).
  change (nopp (n := NR) ONE) with (-1)%R.
  destruct (scal_vec H I M4 x n Q (-1)%R V4) as [M5 [E5 [V5 K5]]]. rewrite E5.
  assert (U5 := up_keep _ _ _ _ K5 U4 Xx). assert (HD5 := kp_dom _ _ _ _ K5 HD4).
  set (X := fun l => (-1 * Q l)%R) in *.
  rewrite (nrm2_vec H I M5 x n X V5).
  destruct (estsv_exact H I n a lda z F Hn ltac:(intros p Hp1; apply Xz; eapply up_all; exact Hp1) M5 (tri_up _ _ U5)
             ltac:(intros l Hl; apply HD5, in_z', Hl)) as [sv [M6 [Y [E6 [K6 [V6 [N6 SV]]]]]]]. rewrite E6.
  assert (U6 := up_keep _ _ _ _ K6 U5 Xz). assert (HD6 := kp_dom _ _ _ _ K6 HD5).
  assert (V5' : vec H I M6 x n X) by (eapply vec_keep; [exact K6|exact V5|exact XZ]).
  set (C := shifted S par) in *. set (T := tri_mat true false F) in *.
  (* the linear system *)
  assert (CX : same n (mulv n C X) (fun i => - B i)%R).
  { intros i Hi. unfold X. rewrite (factor_mulv n T C _ i Hi F2).
    rewrite (sumz_ext 0 n _ (fun l => -1 * (T l i * W l))%R).
    - rewrite sumz_scal, (S2 i Hi). ring.
    - intros l Hl. rewrite <- (S3 l Hl). unfold mulv. rewrite <- !sumz_scal. apply sumz_ext. intros. ring. }
  assert (RX : (norm n W * norm n W = dotp n X (mulv n C X))%R).
  { rewrite norm_sq. rewrite <- (factor_quad n T C X X F2). unfold dotp. apply sumz_ext. intros i Hi.
    assert (E : mulv n T X i = (- W i)%R).
    { rewrite <- (S3 i Hi). unfold mulv, X. replace (- sumz 0 n (fun j => T i j * Q j))%R with (-1 * sumz 0 n (fun j => T i j * Q j))%R by ring.
      rewrite <- sumz_scal. apply sumz_ext. intros. ring. }
    rewrite E. ring. }
  assert (RX' : (norm n W * norm n W = dotp n X (mulv n C X))%R) by exact RX. clear RX.
  assert (RZ : (sv * sv = dotp n Y (mulv n C Y))%R) by (rewrite SV, norm_sq; apply factor_quad, F2).
  set (xn := norm n X) in *. set (rx := norm n W) in *.
  (* the tests *)
  match goal with |- context [if (?c || ?d)%bool then 1 else 0] => set (info0 := if (c || d)%bool then 1 else 0) end.
  assert (I0 : (info0 = 1 /\ ((Rabs (xn - delta) <= rtol * delta)%R \/ (par = 0%R /\ (xn <= (1 + rtol) * delta)%R))) \/
               (info0 = 0 /\ ~ (par = 0%R /\ (xn <= (1 + rtol) * delta)%R))).
  { unfold info0, ZERO, ONE. nr. zo. destruct (Rle_bool_spec (Rabs (xn - delta)) (rtol * delta)) as [L|L]; cbn [orb]; [left; split; [reflexivity|left; exact L]|].
    destruct (Req_bool_spec par 0) as [L2|L2]; cbn [andb].
    - destruct (Rle_bool_spec xn ((1 + rtol) * delta)) as [L3|L3]; [left; split; [reflexivity|right; split; assumption]|].
      right. split; [reflexivity|]. intros [_ L4]. lra.
    - right. split; [reflexivity|]. intros [L4 _]. exact (L2 L4). }
  match goal with |- context [if nlt xn delta then ?P else ?P2] =>
    assert (P0 : exists (al rz : R) rd info1, (if nlt (n := NR) (xn : NR) (delta : NR) then P else P2) = Some (al, rz, rd, info1) /\
      ((xn < delta)%R -> (dotp n (fun i => X i + al * Y i) (fun i => X i + al * Y i) = delta * delta)%R /\
         (rz * rz = al * al * dotp n Y (mulv n C Y))%R /\
         (rd = true -> (rz * rz + par * (xn * xn) <= par * (delta * delta))%R) /\
         (rd = false -> (par * (delta * delta) <= rz * rz + par * (xn * xn))%R)) /\
      ((delta <= xn)%R -> rd = false) /\ 0 <= info1 <= 2 /\
      (info1 = 0 -> ~ (par = 0%R /\ (xn <= (1 + rtol) * delta)%R)) /\
      (info1 = 1 -> (Rabs (xn - delta) <= rtol * delta)%R \/ (par = 0 /\ xn <= (1 + rtol) * delta)%R \/
         ((xn < delta)%R /\ (1 / 2 * ((rz / delta) * (rz / delta)) <= rtol * (1 - 1 / 2 * rtol) * (par + (rx / delta) * (rx / delta)))%R) \/ xn = 0%R) /\
      (info1 = 2 -> (xn < delta)%R /\ (1 / 2 * (par + (rx / delta) * (rx / delta)) <= atol / delta / delta)%R)) end.
  { change (nlt (n := NR) (xn : NR) (delta : NR)) with (Rlt_bool xn delta).
    destruct (Rlt_bool_spec xn delta) as [L|L].
    2: { exists (g_alpha v), sv, false, info0. split; [reflexivity|]. split; [intros; lra|]. split; [reflexivity|].
         destruct I0 as [[-> I1]|[-> I1]]; split; try lia; split; try lia; try (intros _; exact I1); split; try lia. intros _. tauto. }
    rewrite (dot_vec H I M6 z n Y x X V6 V5'). cbv zeta.
    set (p := dotp n Y X).
    assert (Xn0 : (0 <= xn)%R) by apply norm_nonneg.
    assert (Hxx : (xn * xn < delta * delta)%R) by nra.
    set (tmp := ((delta * delta - xn * xn) / delta)%R).
    assert (Etmp : ((delta - xn) * ((delta + xn) / delta))%R = tmp) by (unfold tmp; field; lra).
    set (a0 := (tmp / (Rabs (p / delta) + sqrt ((p / delta) * (p / delta) + tmp / delta)))%R).
    assert (Tp : (0 < tmp)%R) by (unfold tmp; apply Rdiv_lt_0_compat; lra).
    assert (A0 : (0 < a0)%R).
    { unfold a0. apply Rdiv_lt_0_compat; [exact Tp|]. assert (0 <= Rabs (p / delta))%R by apply Rabs_pos.
      assert (0 < sqrt (p / delta * (p / delta) + tmp / delta))%R; [|lra]. apply sqrt_lt_R0.
      assert (0 < tmp / delta)%R by (apply Rdiv_lt_0_compat; lra). pose proof (sq_nonneg (p / delta)). lra. }
    set (al := sign (N := NR) a0 (p / delta)%R).
    assert (Eal : al = sign (N := NR) (ndiv (n := NR) (nmul (n := NR) (nsub (n := NR) delta xn) (ndiv (n := NR) (nadd (n := NR) delta xn) delta))
              (nadd (n := NR) (nabs (n := NR) (ndiv (n := NR) p delta)) (nsqrt (n := NR) (nadd (n := NR) (nmul (n := NR) (ndiv (n := NR) p delta) (ndiv (n := NR) p delta))
                (ndiv (n := NR) (nmul (n := NR) (nsub (n := NR) delta xn) (ndiv (n := NR) (nadd (n := NR) delta xn) delta)) delta)))))
              (ndiv (n := NR) p delta)).
    { unfold al, a0. rewrite <- Etmp. reflexivity. }
    rewrite <- Eal. clear Eal.
    assert (Bd : (xn * xn + 2 * al * p + al * al = delta * delta)%R).
    { destruct (sign_pos a0 (p / delta)%R A0) as [Sp Sn].
      apply (boundary p (xn * xn) delta Hd Hxx (sq_nonneg xn) al).
      - intros Hp0. fold tmp. fold a0. apply Sp. apply Rmult_le_pos; [exact Hp0|]. left. apply Rinv_0_lt_compat. exact Hd.
      - intros Hp0. fold tmp. fold a0. apply Sn. apply Ropp_lt_cancel. rewrite Ropp_0.
        replace (- (p / delta))%R with ((- p) / delta)%R by (field; lra). apply Rdiv_lt_0_compat; lra. }
    clearbody al.
    set (rz := (sv * Rabs al)%R).
    assert (Erz : (rz * rz = al * al * dotp n Y (mulv n C Y))%R).
    { unfold rz. rewrite <- RZ. replace (sv * Rabs al * (sv * Rabs al))%R with (sv * sv * (Rabs al * Rabs al))%R by ring.
      rewrite <- Rabs_mult, Rabs_pos_eq by apply sq_nonneg. ring. }
    change (nmul (n := NR) sv (nabs (n := NR) al)) with rz.
    eexists al, rz, _, _. split; [reflexivity|]. split; [|split].
    - intros _. split; [|split; [exact Erz|]].
      + rewrite dotp_lin_l, !dotp_lin_r. rewrite (dotp_comm n X Y). fold p.
        assert (EX : dotp n X X = (xn * xn)%R) by (symmetry; apply norm_sq).
        assert (EY : dotp n Y Y = 1%R) by (rewrite <- norm_sq, N6; ring). rewrite EX, EY. lra.
      + nr. assert (D2 : (0 < delta * delta)%R) by nra.
        assert (Eq : ((rz / delta * (rz / delta) + par * (xn / delta) * (xn / delta)) * (delta * delta) = rz * rz + par * (xn * xn))%R) by (field; lra).
        split.
        * intros E. destruct (Rle_bool_spec (rz / delta * (rz / delta) + par * (xn / delta) * (xn / delta)) par) as [L1|L1]; [|discriminate].
          apply (Rmult_le_compat_r (delta * delta)) in L1; [|lra]. rewrite Eq in L1. exact L1.
        * intros E. destruct (Rle_bool_spec (rz / delta * (rz / delta) + par * (xn / delta) * (xn / delta)) par) as [L1|L1]; [discriminate|].
          apply (Rmult_lt_compat_r (delta * delta)) in L1; [|lra]. rewrite Eq in L1. lra.
    - intros; lra.
    - unfold HALF, ZERO, ONE. nr. cbn [nQ NumR]. zo.
      destruct (Rle_bool_spec (1 / 2 * (rz / delta * (rz / delta))) (rtol * (1 - 1 / 2 * rtol) * (par + rx / delta * (rx / delta)))) as [L1|L1].
      { split; [lia|]. split; [lia|]. split; [|lia]. intros _. right. right. left. split; assumption. }
      destruct I0 as [[-> I1]|[-> I1]].
      + change (1 =? 0) with false. cbn [andb]. destruct (Req_bool_spec xn 0) as [L2|L2]; (split; [lia|split; [lia|split; [intros _|lia]]]); tauto.
      + change (0 =? 0) with true. cbn [andb].
        destruct (Rle_bool_spec (1 / 2 * (par + rx / delta * (rx / delta))) (atol / delta / delta)) as [L2|L2].
        { split; [lia|]. split; [lia|]. split; [lia|]. intros _. split; assumption. }
        destruct (Req_bool_spec xn 0) as [L3|L3]; (split; [lia|split; [try lia|split; [intros|lia]]]); try tauto; try lia. }
  destruct P0 as [al [rz [rd [info1 [-> [PA [PB [PC [PD0 [PD1 PD2]]]]]]]]]].
  match goal with |- context [if neq xn ZERO then ?P else ?P2] =>
    assert (P7 : exists (pc : R) M7, (if neq (n := NR) (xn : NR) ZERO then P else P2) = Some (pc, M7) /\ kp (V wa2 n) M6 M7) end.
  { destruct (neq (n := NR) (xn : NR) ZERO); [eexists; exists M6; split; [reflexivity|apply kp_refl]|].
    destruct (copy_vec M6 x wa2 X V5' ltac:(intros i Hi; apply HD6, in_w2, Hi) Y2) as [M7 [E7 [K7 V7]]]. rewrite E7.
    assert (U7 := up_keep _ _ _ _ K7 U6 X2).
    match goal with |- context [scal n ?t wa2 1 M7] => destruct (scal_vec H I M7 wa2 n X t V7) as [M8 [E8 [V8 K8]]] end. rewrite E8.
    assert (U8 := up_keep _ _ _ _ K8 U7 X2).
    destruct (solve_t M8 F _ U8 Fd V8) as [M9 [W9 [E9 [K9 [V9 _]]]]]. rewrite E9. rewrite (nrm2_vec H I M9 wa2 n W9 V9).
    eexists. exists M9. split; [reflexivity|]. eapply kp_trans; [exact K7|]. eapply kp_trans; [exact K8|exact K9]. }
  destruct P7 as [pc [M7 [-> K7]]].
  eexists. exists pc, info1, M7, X, Y. split; [reflexivity|].
  assert (MW := mod_w n a lda x z wa2 Hn). assert (MX := mod_x n a lda x z wa2 Hn). assert (MZ := mod_z n a lda x z wa2 Hn).
  split.
  { eapply kp_trans; [exact (kp_weak _ _ _ _ MW K1)|]. eapply kp_trans; [exact (kp_weak _ _ _ _ MW K2)|].
    eapply kp_trans; [exact (kp_weak _ _ _ _ MW K3)|]. eapply kp_trans; [exact (kp_weak _ _ _ _ MX K4)|].
    eapply kp_trans; [exact (kp_weak _ _ _ _ MX K5)|]. eapply kp_trans; [exact (kp_weak _ _ _ _ MZ K6)|exact (kp_weak _ _ _ _ MW K7)]. }
  split; [eapply vec_keep; [exact K7|exact V5'|exact Y2]|]. split; [eapply vec_keep; [exact K7|exact V6|exact Z2]|].
  split.
  { unfold sol. cbn [g_parf g_xnorm g_rxnorm g_alpha g_rznorm g_rednc]. split; [exact Hp|]. split; [exact PD|]. split; [exact CX|].
    split; [reflexivity|]. split; [exact RX'|]. split; [exact PA|exact PB]. }
  split.
  { unfold passes. cbn [g_parf g_xnorm g_rxnorm g_alpha g_rznorm g_rednc]. split; [exact PD0|]. split; [exact PD1|exact PD2]. }
  split; [exact PC|]. cbn [g_par g_parf g_parl g_paru g_xnorm]. split; [reflexivity|]. split; [reflexivity|]. split.
  - intros Hl. match goal with |- (0 <= (if ?c then _ else _))%R => destruct c end; [exact Hp|exact Hl].
  - change (nlt (n := NR) (xn : NR) (delta : NR)) with (Rlt_bool xn delta). destruct (Rlt_bool_spec xn delta) as [L|L]; cbn [andb].
    + match goal with |- context [if ?c then _ else _] => destruct c end; [right; split; [reflexivity|exact L]|left; reflexivity].
    + left. reflexivity.
Qed.

(** ** The results *)
Definition outcome (r : @gresult NR) (M : mem) : Prop :=
  exists X, vec H I M x n X /\ (r_f r : R) = qval n S B X /\ (0 <= r_par r)%R /\ (r_f r <= 0)%R /\
    (r_info r = 1 -> (norm n X <= (1 + rtol) * delta)%R /\ ((exists i, 0 <= i < n /\ B i <> 0%R) -> relative X)) /\
    (r_info r = 2 -> (0 <= atol)%R -> absolute X).

(** x and f(x) before the first positive definite matrix *)
Definition fresh (v : gv) (X : Z -> R) : Prop :=
  (forall i, 0 <= i < n -> X i = 0%R) /\ (g_parf v : R) = 0%R /\ (g_rxnorm v : R) = 0%R /\ (g_xnorm v : R) = 0%R /\ g_rednc v = false.

Lemma exit_ok : forall (v : gv) info X Y M, st M -> vec H I M x n X -> vec H I M z n Y ->
  exists M', gq_exit (N := NR) n a lda delta x z wa1 v info M = Some (mkgr info (g_parf v) (fout v : NR) (g_iter v), M') /\ vec H I M' x n (xout v X Y).
Proof.
  intros v info X Y M HS HX HY. assert (HD := proj1 HS). unfold gq_exit.
  match goal with |- context [if g_rednc v then ?A else ?B] =>
    assert (P : exists M1, (if g_rednc v then A else B) = Some (fout v : NR, M1) /\ kp (V x n) M M1 /\ vec H I M1 x n (xout v X Y)) end.
  { unfold fout, xout. destruct (g_rednc v).
    - destruct (axpy_vec H I M x n X (g_alpha v) z 1 Y HX) as [M1 [E1 [V1 K1]]].
      + intros l Hl. rewrite elt_1. apply HY, Hl.
      + intros l Hl. rewrite elt_1. intros Hx. apply (XZ _ Hx). apply v_in0; lia.
      + rewrite E1. exists M1. split; [reflexivity|]. split; [exact K1|exact V1].
    - exists M. split; [reflexivity|]. split; [apply kp_refl|exact HX]. }
  destruct P as [M1 [-> [K1 V1]]]. assert (HD1 := kp_dom _ _ _ _ K1 HD).
  destruct (restore_kp n a lda b x z wa1 wa2 Hn M1 HD1) as [M2 [E2 [K2 [C2 _]]]]. rewrite E2. assert (HD2 := kp_dom _ _ _ _ K2 HD1).
  assert (Ed : forall j, elt a n (lda + 1) j = entry a lda j j) by (intros j; rewrite elt_pos by lia; unfold entry; lia).
  destruct (copy_kp n wa1 1 a (lda + 1) M2) as [M3 [E3 [K3 C3]]]; [lia| | | |].
  { intros i Hi. rewrite elt_1. apply HD2. apply in_w1, Hi. }
  { intros i Hi. rewrite Ed. apply HD2. left. exists i, i. repeat split; lia. }
  { intros i j Hi Hj. rewrite elt_1, Ed. intros E. apply (X1 (entry a lda i i)); [exists i, i; repeat split; lia|].
    rewrite E. apply v_in0; lia. }
  rewrite E3. exists M3. split; [reflexivity|].
  eapply vec_keep; [exact K3| |].
  - eapply vec_keep; [exact K2|exact V1|]. intros p Hp Hu. apply (Xx p); [eapply up_all; exact Hu|exact Hp].
  - intros p Hp [i [Hi ->]]. rewrite Ed in Hp. apply (Xx (entry a lda i i)); [exists i, i; repeat split; lia|exact Hp].
Qed.

Lemma fout_fresh : forall v X Y, fresh v X -> fout v = 0%R /\ (forall i, 0 <= i < n -> xout v X Y i = 0%R).
Proof.
  intros v X Y [F1 [F2 [F3 [F4 F5]]]]. unfold fout, xout. rewrite F5. split; [|exact F1]. rewrite F2, F3, F4. ring.
Qed.

Lemma qval_zero : forall X, (forall i, 0 <= i < n -> X i = 0%R) -> qval n S B X = 0%R.
Proof.
  intros X HX. unfold qval. rewrite (quad_zero n S X HX).
  replace (dotp n B X) with 0%R; [field|]. symmetry. unfold dotp. apply sumz_zero. intros i Hi. rewrite HX by exact Hi. ring.
Qed.

Lemma norm_zero : forall X, (forall i, 0 <= i < n -> X i = 0%R) -> norm n X = 0%R.
Proof.
  intros X HX. apply Rle_antisym; [|apply norm_nonneg]. apply sq_norm_le; [lra|].
  replace (dotp n X X) with 0%R; [lra|]. symmetry. unfold dotp. apply sumz_zero. intros i Hi. rewrite HX by exact Hi. ring.
Qed.

(** ** The loop *)
Definition gershgorin : Prop :=
  forall j, 0 <= j < n -> (norm n B / delta + (sumz 0 n (fun i => Rabs (S i j)) - Rabs (S j j)) <= S j j)%R.

Definition inv (v : gv) (M : mem) : Prop :=
  st M /\ (0 <= g_par v)%R /\ (0 <= g_parl v)%R /\ (0 <= g_paru v)%R /\
  exists X Y, vec H I M x n X /\ vec H I M z n Y /\ (fresh v X \/ sol v X Y) /\
    ((g_paru v : R) = 0%R -> (g_par v : R) = 0%R /\ gershgorin /\ fresh v X).

Lemma indefinite_fields : forall (v : gv) (par : R) ind M v' pc M',
  gq_indefinite (N := NR) a lda rtol wa1 wa2 v par ind M = Some (v', pc, M') ->
  (g_par v' : R) = par /\ g_parf v' = g_parf v /\ g_parl v' = g_parl v /\ (g_paru v <= g_paru v')%R /\ g_alpha v' = g_alpha v /\
  g_rxnorm v' = g_rxnorm v /\ g_rznorm v' = g_rznorm v /\ g_xnorm v' = g_xnorm v /\ g_rednc v' = g_rednc v.
Proof.
  intros v par ind M v' pc M' E. unfold gq_indefinite in E.
  match type of E with (match ?P with _ => _ end = _) => destruct P as [M1|]; [|discriminate] end.
  match type of E with (match ?P with _ => _ end = _) => destruct P as [M2|]; [|discriminate] end.
  match type of E with (match ?P with _ => _ end = _) => destruct P as [t|]; [|discriminate] end.
  match type of E with (match ?P with _ => _ end = _) => destruct P as [d|]; [|discriminate] end.
  cbv zeta in E.
  match type of E with Some (mkgv ?a1 ?a2 ?a3 ?a4 ?a5 ?a6 ?a7 ?a8 ?a9 ?a10 ?a11, _, _) = _ =>
    assert (Ev : v' = @mkgv NR a1 a2 a3 a4 a5 a6 a7 a8 a9 a10 a11) by congruence; clear E; assert (Pu : (g_paru v <= a5)%R) end.
  { match goal with |- (_ <= (if ?c then ?e else _))%R => change c with (Rlt_bool (g_paru v) e); destruct (Rlt_bool_spec (g_paru v) e); lra end. }
  subst v'. cbn [g_par g_parf g_parl g_paru g_alpha g_rxnorm g_rznorm g_xnorm g_rednc]. repeat split; try reflexivity. exact Pu.
Qed.

Lemma sol_same : forall v w X Y, g_parf w = g_parf v -> g_alpha w = g_alpha v -> g_rxnorm w = g_rxnorm v -> g_rznorm w = g_rznorm v ->
  g_xnorm w = g_xnorm v -> g_rednc w = g_rednc v ->
  (sol v X Y -> sol w X Y) /\ (fresh v X -> fresh w X) /\ fout w = fout v /\ (forall i, xout w X Y i = xout v X Y i).
Proof.
  intros v w X Y E1 E2 E3 E4 E5 E6. unfold sol, fresh, fout, xout. rewrite E1, E2, E3, E4, E5, E6. tauto.
Qed.

Lemma sol_le0 : forall v X Y, sol v X Y -> (fout v <= 0)%R.
Proof.
  intros v X Y HS. assert (HO := out_better v X Y HS). destruct HO as [O1 _]. destruct HS as [P0 _].
  assert (Q1 := sq_nonneg (g_rxnorm v)). assert (Q2 := Rmult_le_pos _ _ P0 (sq_nonneg (g_xnorm v))). lra.
Qed.

(** The Gershgorin bounds: the matrix is positive definite and the solution of the system is in the region, or b = 0 *)
Lemma gersh_in : gershgorin -> forall v X Y, sol v X Y -> (g_parf v : R) = 0%R -> (g_xnorm v <= delta)%R.
Proof.
  intros HG v X Y [P0 [P1 [P2 [P3 [P4 _]]]]] H0. rewrite P3.
  assert (G := gersh n S (norm n B / delta)%R X Ss HG). rewrite H0 in *.
  assert (E1 : dotp n X (mulv n (shifted S 0) X) = dotp n X (mulv n S X)) by (rewrite shifted_quad; ring).
  assert (E2 : dotp n X (mulv n (shifted S 0) X) = (- dotp n B X)%R).
  { rewrite (dotp_ext n X X _ (fun i => (-1) * B i)%R).
    - rewrite (dotp_comm n X (fun i => -1 * B i)%R), dotp_scal_l. ring.
    - intros i Hi; reflexivity.
    - intros i Hi. rewrite (P2 i Hi). ring. }
  assert (Cs := cauchy n B X). rewrite <- !norm_sq in *.
  set (nb := norm n B) in *. set (nx := norm n X) in *. set (p := dotp n B X) in *.
  assert (N1 : (0 <= nb)%R) by apply norm_nonneg. assert (N2 : (0 <= nx)%R) by apply norm_nonneg.
  destruct (Rle_lt_dec nx delta) as [L|L]; [exact L|exfalso].
  destruct (Req_dec nb 0) as [Z0|Z0].
  - (* b = 0 *)
    assert (p = 0)%R by (rewrite Z0 in Cs; assert (Q := sq_nonneg p); assert (p * p = 0)%R by lra; apply Rsqr_0_uniq; exact H1).
    assert (Hex : exists i, 0 <= i < n /\ X i <> 0%R).
    { destruct (nonzero_or n X) as [Ha|Ha]; [exact Ha|exfalso]. assert (E := norm_zero X Ha). fold nx in E. lra. }
    assert (PP := pos_def_dotp n _ X P1 Hex). lra.
  - (* nb > 0 *)
    assert (Nb : (0 < nb)%R) by lra.
    assert (Q : (nb / delta * (nx * nx) <= nb * nx)%R).
    { assert (A1 : (- p <= nb * nx)%R); [|lra]. assert (0 <= nb * nx)%R by nra.
      destruct (Rle_lt_dec (- p) (nb * nx)) as [L1|L1]; [exact L1|exfalso]. nra. }
    apply (Rmult_le_compat_r delta) in Q; [|lra]. replace (nb / delta * (nx * nx) * delta)%R with (nb * (nx * nx))%R in Q by (field; lra).
    assert (Q2 : (0 < nb * nx)%R) by nra. nra.
Qed.

Lemma gersh_out : gershgorin -> ~ pos_def n S -> (forall i, 0 <= i < n -> B i = 0%R) /\ forall y, (0 <= qval n S B y)%R.
Proof.
  intros HG NP. assert (N0 : norm n B = 0%R).
  { destruct (Req_dec (norm n B) 0) as [E|E]; [exact E|exfalso]. apply NP. apply pos_def_of. intros v Hv.
    assert (G := gersh n S (norm n B / delta)%R v Ss HG). assert (N1 := norm_nonneg n B).
    assert (0 < norm n B / delta)%R by (apply Rdiv_lt_0_compat; lra).
    assert (0 < dotp n v v)%R by (rewrite <- norm_sq; assert (Q := norm_pos n v Hv); nra). nra. }
  assert (HB := norm_0 n B N0). split; [exact HB|]. intros y. unfold qval.
  assert (G := gersh n S (norm n B / delta)%R y Ss HG). rewrite N0 in G. unfold Rdiv in G at 1. rewrite !Rmult_0_l in G.
  replace (dotp n B y) with 0%R; [lra|]. symmetry. unfold dotp. apply sumz_zero. intros i Hi. rewrite HB by exact Hi. ring.
Qed.

Lemma iteration_ok : forall v M, inv v M ->
  exists o M', gq_iteration (N := NR) n a lda b delta rtol atol itmax x z wa1 wa2 v M = Some (o, M') /\
    match o with inl r => outcome r M' | inr v' => inv v' M' end.
Proof.
  intros v M [HS [G1 [G2 [G3 [X [Y [VX [VY [FS PU]]]]]]]]]. unfold gq_iteration, LaModel.mem.
  match goal with |- context [if (?c && ?d)%bool then ?A else g_par v] => set (par := if (c && d)%bool then A else g_par v) end.
  cbv zeta.
  assert (Hp : (0 <= par)%R).
  { unfold par. match goal with |- (0 <= (if ?c then _ else _))%R => destruct c end; [|exact G1].
    apply Rmult_le_pos; [|exact G3]. unfold vmax, SMALL. match goal with |- (0 <= (if ?c then _ else _))%R => destruct c end.
    - apply sqrt_pos.
    - cbn [nQ NumR]. lra. }
  assert (Hp0 : (g_paru v : R) = 0%R -> par = 0%R).
  { intros E. unfold par. destruct (PU E) as [E2 _].
    assert (El : nlt (n := NR) ZERO (g_paru v) = false).
    { change (Rlt_bool 0 (g_paru v) = false). rewrite E. apply Rlt_bool_false. lra. }
    rewrite El, andb_false_r. exact E2. }
  destruct (prepare_ok par M HS) as [M1 [M2 [E1 [E2 [K2 U2]]]]]. rewrite E1.
  match goal with |- context [for_up 1 (n + 1) ?body M1] => replace (for_up 1 (n + 1) body M1) with (Some M2) by (symmetry; exact E2) end. clear E1 E2.
  apply (kp_weak _ Mod _ _ (mod_a n a lda x z wa2 Hn)) in K2 as K2'.
  destruct (factorize par M2 U2) as [r [M3 [E3 [Hr3 [K3 [F0 F1]]]]]]. rewrite E3.
  apply (kp_weak _ Mod _ _ (mod_a n a lda x z wa2 Hn)) in K3 as K3'.
  assert (K23 := kp_trans _ _ _ _ K2 K3). assert (HS3 := st_keep _ _ (kp_trans _ _ _ _ K2' K3') HS).
  match goal with |- context [if r =? 0 then ?AA else ?BB] =>
    assert (P : exists (v1 : gv) (parc : R) info M4 X4 Y4, (if r =? 0 then AA else BB) = Some (v1, parc, info, M4) /\
      st M4 /\ vec H I M4 x n X4 /\ vec H I M4 z n Y4 /\ (g_par v1 : R) = par /\ (0 <= g_parl v1)%R /\ (0 <= g_paru v1)%R /\
      (fresh v1 X4 \/ sol v1 X4 Y4) /\
      (info = 0 \/ (sol v1 X4 Y4 /\ 1 <= info <= 2 /\ passes v1 info)) /\
      (info = 0 -> (g_paru v1 : R) = 0%R -> fresh v1 X4 /\ (forall y, (0 <= qval n S B y)%R))) end.
  { destruct (Z.eqb_spec r 0) as [H0|H0].
    - destruct (F0 H0) as [PD [F [U3 HF]]].
      destruct (positive_ok v par M3 F HS3 U3 HF PD Hp) as [v1 [pc [info [M4 [X4 [Y4 [E4 [K4 [V4 [W4 [S4 [P4 [I4 [Q1 [Q2 [Q3 Q4]]]]]]]]]]]]]]]].
      exists v1, pc, info, M4, X4, Y4. split; [exact E4|]. split; [exact (st_keep _ _ K4 HS3)|]. split; [exact V4|]. split; [exact W4|].
      split; [exact Q1|]. split; [exact (Q3 G2)|]. split; [destruct Q4 as [->|[-> _]]; assumption|]. split; [right; exact S4|]. split.
      + destruct (Z.eq_dec info 0) as [Hi|Hi]; [left; exact Hi|right]. split; [exact S4|]. split; [lia|exact P4].
      + intros Hi Hu. exfalso. destruct P4 as [P4 _]. apply (P4 Hi). destruct Q4 as [Q4|[Q4 Q5]].
        * rewrite Q4 in Hu. destruct (PU Hu) as [_ [HG _]]. assert (E5 : (g_parf v1 : R) = 0%R) by (rewrite Q2; apply Hp0, Hu).
          split; [exact E5|]. assert (L := gersh_in HG v1 X4 Y4 S4 E5). nra.
        * split; [rewrite Q2, <- Q4; exact Hu|]. nra.
    - destruct (indefinite_kp (N := NR) n a lda b rtol x z wa1 wa2 Hn X2 v par r M3 (proj1 HS3) ltac:(lia)) as [v1 [pc [M4 [E4 [K4 _]]]]].
      assert (E4' : gq_indefinite (N := NR) a lda rtol wa1 wa2 v par r M3 = Some (v1, pc, M4)) by exact E4. rewrite E4'.
      destruct (indefinite_fields v par r M3 v1 pc M4 E4') as [I1 [I2 [I3 [I4 [I5 [I6 [I7 [I8 I9]]]]]]]].
      destruct (sol_same v v1 X Y I2 I5 I6 I7 I8 I9) as [T1 [T2 _]].
      assert (KX : kp (fun p => Up a lda n p \/ V wa2 n p) M M4).
      { eapply kp_trans; [eapply kp_weak; [|exact K23]; auto|]. eapply kp_weak; [|exact K4]. intros p Hq; exact Hq. }
      exists v1, pc, 0, M4, X, Y. split; [reflexivity|].
      split; [exact (st_keep _ _ (kp_weak _ _ _ _ (mod2_mod n a lda x z wa2 Hn) K4) HS3)|].
      split; [eapply vec_keep; [exact KX|exact VX|]; intros p Hq [Hu|Hu]; [apply (Xx p); [eapply up_all; exact Hu|exact Hq]|exact (Y2 p Hq Hu)]|].
      split; [eapply vec_keep; [exact KX|exact VY|]; intros p Hq [Hu|Hu]; [apply (Xz p); [eapply up_all; exact Hu|exact Hq]|exact (Z2 p Hq Hu)]|].
      split; [exact I1|]. split; [rewrite I3; exact G2|]. split; [lra|].
      split; [destruct FS as [FS|FS]; [left; exact (T2 FS)|right; exact (T1 FS)]|]. split; [left; reflexivity|].
      intros _ Hu. assert (Hu0 : (g_paru v : R) = 0%R) by lra. destruct (PU Hu0) as [_ [HG HF]]. split; [exact (T2 HF)|].
      apply (gersh_out HG). intros PD. apply (F1 H0). eapply pos_def_ext; [|exact PD]. intros i j Hi Hj.
      rewrite (Hp0 Hu0). unfold shifted. destruct (Z.eqb i j); lra. }
  destruct P as [v1 [parc [info [M4 [X4 [Y4 [-> [HS4 [V4 [W4 [R1 [R2 [R3 [R4 [R5 R6]]]]]]]]]]]]]]].
  match goal with |- context [negb (?e =? 0)] => set (info' := e) end.
  assert (Pl : (0 <= (if nlt (n := NR) (g_parl v1) (g_pars v1) then g_pars v1 else g_parl v1))%R).
  { change (nlt (n := NR) (g_parl v1) (g_pars v1)) with (Rlt_bool (g_parl v1) (g_pars v1)).
    destruct (Rlt_bool_spec (g_parl v1) (g_pars v1)); lra. }
  destruct (Z.eqb_spec info' 0) as [H0|H0]; cbn [negb].
  - (* the next iteration *)
    eexists. exists M4. split; [reflexivity|]. unfold inv. cbn [g_par g_parl g_paru].
    split; [exact HS4|]. split; [|split; [exact Pl|split; [exact R3|]]].
    + match goal with |- (0 <= (if ?c then ?e else ?f))%R => change c with (Rlt_bool f e); destruct (Rlt_bool_spec f e) as [L|L]; [exact Pl|exact (Rle_trans _ _ _ Pl L)] end.
    + exists X4, Y4. split; [exact V4|]. split; [exact W4|]. split.
      * match goal with |- fresh ?w _ \/ _ => destruct (sol_same v1 w X4 Y4) as [T1 [T2 _]]; try reflexivity end. tauto.
      * intros Hu. exfalso. revert H0. unfold info'. destruct (Z.eqb_spec info 0) as [Hi|Hi]; [|lia].
        assert (El : neq (n := NR) (g_paru v1) ZERO = true) by (change (Req_bool (g_paru v1) 0 = true); apply Req_bool_true; exact Hu).
        rewrite El. discriminate.
  - (* the end *)
    match goal with |- context [gq_exit _ _ _ _ _ _ _ ?w _ _] => destruct (sol_same v1 w X4 Y4) as [T1 [T2 [T3 T4]]]; try reflexivity;
      destruct (exit_ok w info' X4 Y4 M4 HS4 V4 W4) as [M5 [E5 V5]]; set (w0 := w) in * end.
    rewrite E5. eexists. exists M5. split; [reflexivity|]. exists (xout w0 X4 Y4). split; [exact V5|]. cbn [r_f r_par r_info].
    assert (Hf : fresh w0 X4 \/ sol w0 X4 Y4) by tauto.
    assert (B1' : fout w0 = qval n S B (xout w0 X4 Y4)).
    { destruct Hf as [Hf|Hf]; [|exact (fout_ok _ _ _ Hf)]. destruct (fout_fresh w0 X4 Y4 Hf) as [E6 E7]. rewrite E6. symmetry. apply qval_zero, E7. }
    split; [exact B1'|]. split; [destruct Hf as [[_ [Hf _]]|[Hf _]]; [rewrite Hf; lra|exact Hf]|].
    split; [destruct Hf as [Hf|Hf]; [destruct (fout_fresh w0 X4 Y4 Hf) as [E6 _]; rewrite E6; lra|exact (sol_le0 _ _ _ Hf)]|].
    split.
    + intros H1. destruct R5 as [R5|[S4 [R5 P5]]].
      { exfalso. revert H1. unfold info'. rewrite R5. change (0 =? 0) with true. cbv iota.
        repeat match goal with |- context [if ?c then _ else _] => destruct c; try discriminate end. }
      assert (Hi : info = 1).
      { revert H1. unfold info'. destruct (Z.eqb_spec info 0) as [Hi|Hi]; [lia|tauto]. }
      assert (S5 := T1 S4). assert (P1 := proj1 (proj2 P5) Hi).
      destruct P1 as [P1|[[P1 P2]|[[P1 P2]|P1]]].
      * assert (Q := accept_1 w0 X4 Y4 S5 P1). split; [exact (proj1 Q)|intros _; exact Q].
      * assert (Q := accept_2 w0 X4 Y4 S5 P1 P2). split; [exact (proj1 Q)|intros _; exact Q].
      * assert (Q := accept_3 w0 X4 Y4 S5 P1 P2). split; [exact (proj1 Q)|intros _; exact Q].
      * assert (O := out_better w0 X4 Y4 S5). split.
        { eapply Rle_trans; [apply O|]. change (g_xnorm w0) with (g_xnorm v1). rewrite P1. apply Rmax_lub; nra. }
        { intros [i [Hi1 Hi2]]. exfalso. apply Hi2. destruct S4 as [_ [_ [C4 [N4 _]]]]. rewrite P1 in N4.
          assert (Z4 := norm_0 n X4 (eq_sym N4)). specialize (C4 i Hi1). cbv beta in C4.
          assert (E0 : mulv n (shifted S (g_parf v1)) X4 i = 0%R).
          { unfold mulv. apply sumz_zero. intros j Hj. rewrite Z4 by exact Hj. ring. }
          lra. }
    + intros H2 Ha. destruct R5 as [R5|[S4 [R5 P5]]].
      * assert (Hu : (g_paru v1 : R) = 0%R).
        { revert H2. unfold info'. rewrite R5. change (0 =? 0) with true. cbv iota.
          assert (Eq : neq (n := NR) (g_paru v1) ZERO = Req_bool (g_paru v1) 0) by reflexivity. rewrite Eq.
          destruct (Req_bool_spec (g_paru v1) 0) as [E6|E6]; [intros; exact E6|].
          repeat match goal with |- context [if ?c then _ else _] => destruct c; try discriminate end. }
        destruct (R6 R5 Hu) as [F6 Q6]. destruct (fout_fresh w0 X4 Y4 (T2 F6)) as [E6 E7].
        split; [rewrite (norm_zero _ E7); nra|]. split; [rewrite (qval_zero _ E7); lra|]. intros y _. specialize (Q6 y). lra.
      * assert (Hi : info = 2).
        { revert H2. unfold info'. destruct (Z.eqb_spec info 0) as [Hi|Hi]; [lia|tauto]. }
        destruct (proj2 (proj2 P5) Hi) as [P6 P7]. exact (accept_4 w0 X4 Y4 (T1 S4) P6 P7).
Qed.

Lemma loop_ok : forall fuel v M, inv v M ->
  exists o M', gq_loop (N := NR) n a lda b delta rtol atol itmax x z wa1 wa2 fuel v M = Some (o, M') /\
    match o with inl r => outcome r M' | inr _ => True end.
Proof.
  induction fuel as [|fuel IH]; intros v M HI; cbn [gq_loop].
  - exists (inr v), M. split; [reflexivity|exact Logic.I].
  - destruct (iteration_ok v M HI) as [o [M1 [E1 P1]]]. rewrite E1. destruct o as [r|v1].
    + exists (inl r), M1. split; [reflexivity|exact P1].
    + apply IH, P1.
Qed.

(** ** The beginning *)
Definition full (M : mem) : Prop := forall i j, 0 <= i < n -> 0 <= j < n -> M (entry a lda i j) = Some (S i j : NR).

Lemma clip : forall par pl t : R,
  let parl := if Rlt_bool pl 0 then 0%R else pl in
  let u := if Rlt_bool t 0 then 0%R else t in
  let p2 := if Rlt_bool par parl then parl else par in
  let p3 := if Rlt_bool u p2 then u else p2 in
  let u2 := if Rlt_bool u ((1 + rtol) * parl) then ((1 + rtol) * parl)%R else u in
  (0 <= parl)%R /\ (0 <= p3)%R /\ (0 <= u2)%R /\ (u2 = 0%R -> p3 = 0%R /\ (t <= 0)%R).
Proof.
  intros par pl t parl u p2.
  assert (L1 : (0 <= parl)%R) by (unfold parl; destruct (Rlt_bool_spec pl 0); lra).
  assert (L3 : (0 <= p2)%R) by (unfold p2; destruct (Rlt_bool_spec par parl); lra).
  assert (L4 : (0 <= u)%R /\ (u = 0%R -> (t <= 0)%R)) by (unfold u; destruct (Rlt_bool_spec t 0); split; intros; lra).
  assert (L2 : (0 <= (1 + rtol) * parl)%R) by nra.
  clearbody parl u p2. destruct L4 as [L4 L5]. cbv zeta. split; [exact L1|].
  destruct (Rlt_bool_spec u p2) as [L6|L6]; destruct (Rlt_bool_spec u ((1 + rtol) * parl)) as [L7|L7]; (split; [lra|split; [lra|]]).
  - intros E0. exfalso. lra.
  - intros E0. split; [exact E0|exact (L5 E0)].
  - intros E0. exfalso. lra.
  - intros E0. split; [lra|exact (L5 E0)].
Qed.

Lemma bounds_ok : forall (par : R) M, st M -> full M ->
  exists v M', gq_bounds (N := NR) n a lda b delta rtol wa1 wa2 par M = Some (v, M') /\ kp (V wa2 n) M M' /\
    (0 <= g_par v)%R /\ (0 <= g_parl v)%R /\ (0 <= g_paru v)%R /\
    ((g_paru v : R) = 0%R -> (g_par v : R) = 0%R /\ gershgorin) /\
    (g_parf v : R) = 0%R /\ (g_rxnorm v : R) = 0%R /\ (g_xnorm v : R) = 0%R /\ g_rednc v = false.
Proof.
  intros par M [HD [HL [HW HB]]] HF. unfold gq_bounds, LaModel.mem.
  set (G := fun j => (sumz 0 n (fun i => Rabs (S i j)) - Rabs (S j j))%R).
  match goal with |- context [for_up 1 (n + 1) ?body (M, ZERO)] =>
    destruct (for_up_inv (fun j (s : mem * NR) => kp (V wa2 n) M (fst s) /\ forall k, 0 <= k < j - 1 -> fst s (wa2 + k) = Some (G k : NR))
      1 (n + 1) body (M, ZERO)) as [[M1 an] [E1 [K1 C1]]] end.
  - lia.
  - split; [apply kp_refl|]. intros; lia.
  - intros j [M1 t] Hj [K1 C1]. cbn [fst] in K1, C1.
    assert (HA : has_vec (N := NR) M1 (a + (1 - 1 + lda * (j - 1))) n 1 (fun i => S i (j - 1))).
    { intros i Hi. rewrite elt_1. replace (a + (1 - 1 + lda * (j - 1)) + i) with (entry a lda i (j - 1)) by (unfold entry; lia).
      rewrite (proj1 K1); [apply HF; lia|]. apply X2. exists i, (j - 1). repeat split; lia. }
    assert (Ea := sum_by_spec H I (nabs (n := NR)) n _ 1 M1 _ ltac:(lia) HA).
    match goal with |- context [asum ?u1 ?u2 ?u3 ?u4] => replace (asum u1 u2 u3 u4) with (Some (sumz 0 n (fun i => Rabs (S i (j - 1))) : NR)) by (symmetry; exact Ea) end.
    rewrite (proj1 K1 (wa1 + (j - 1))) by (apply W12, v_in0; lia). rewrite (HW (j - 1)) by lia.
    assert (Hw : M1 (wa2 + (j - 1)) <> None) by (apply (kp_dom _ _ _ _ K1 HD), in_w2; lia).
    destruct (M1 (wa2 + (j - 1))) as [w|] eqn:Ew; [|congruence].
    destruct (store_ok (N := NR) M1 _ w (G (j - 1)) Ew) as [M2 [E2 [A2 F2]]].
    match goal with |- context [store M1 ?q ?e] => replace (store M1 q e) with (Some M2) by (symmetry; exact E2) end.
    eexists. split; [reflexivity|]. cbn [fst]. split.
    + eapply kp_trans; [exact K1|]. split.
      * intros p Hp. apply F2. intros ->. apply Hp. apply v_in0. lia.
      * intros p Hp. destruct (Z.eq_dec p (wa2 + (j - 1))) as [->|Hne]; [congruence|]. rewrite F2 by exact Hne. exact Hp.
    + intros k Hk. destruct (Z.eq_dec k (j - 1)) as [->|Hne]; [exact A2|]. rewrite F2 by lia. apply C1. lia.
  - cbn [fst] in K1, C1. rewrite E1.
    assert (HB1 : vec H I M1 b n B) by (eapply vec_keep; [exact K1|exact HB|exact B2]).
    assert (HW1 : vec H I M1 wa1 n (fun j => S j j)) by (eapply vec_keep; [exact K1|exact HW|exact W12]).
    rewrite (nrm2_vec H I M1 b n B HB1).
    match goal with |- context [for_up 1 (n + 1) ?body ?s0] =>
      destruct (for_up_inv (fun j (s : NR * NR * NR) => forall k, 0 <= k < j - 1 -> (G k - S k k <= snd s)%R) 1 (n + 1) body s0) as [[[ps pl] pu] [E2 C2]] end.
    + lia.
    + intros; lia.
    + intros j [[t1 t2] t3] Hj C2. cbn [snd] in C2. rewrite (HW1 (j - 1)) by lia. rewrite (C1 (j - 1)) by lia.
      eexists. split; [reflexivity|]. cbn [snd]. intros k Hk. unfold update_max.
      match goal with |- (_ <= (if ?c then ?e else _))%R => change c with (Rlt_bool t3 e); change e with (G (j - 1)%Z - S (j - 1)%Z (j - 1)%Z)%R end.
      destruct (Z.eq_dec k (j - 1)) as [->|Hne].
      * destruct (Rlt_bool_spec t3 (G (j - 1)%Z - S (j - 1)%Z (j - 1)%Z)%R) as [L|L]; [apply Rle_refl|exact L].
      * assert (C3 := C2 k ltac:(lia)). destruct (Rlt_bool_spec t3 (G (j - 1)%Z - S (j - 1)%Z (j - 1)%Z)%R) as [L|L]; lra.
    + cbn [snd] in C2. rewrite E2. cbv zeta.
      set (q := (norm n B / delta - pl)%R).
      match goal with |- context [mkgv ?u1 _ ?u3 _ ?u5] =>
        assert (Q : (0 <= u3)%R /\ (0 <= u1)%R /\ (0 <= u5)%R /\ ((u5 : R) = 0%R -> (u1 : R) = 0%R /\ (norm n B / delta + pu <= 0)%R))
          by exact (clip par (if Rlt_bool q ps then ps else q) (norm n B / delta + pu)) end.
      destruct Q as [Q1 [Q2 [Q3 Q4]]].
      eexists. exists M1. split; [reflexivity|]. split; [exact K1|]. cbn [g_par g_parl g_paru g_parf g_rxnorm g_xnorm g_rednc].
      split; [exact Q2|]. split; [exact Q1|]. split; [exact Q3|]. split; [|repeat split; reflexivity].
      intros E0. destruct (Q4 E0) as [E5 E6]. split; [exact E5|]. intros j Hj. assert (C3 := C2 j ltac:(lia)). unfold G in C3. lra.
Qed.

Lemma gqt_ok : forall (par : R) fuel M,
  dom M All -> (forall i j, 0 <= i <= j -> j < n -> M (entry a lda i j) = Some (S i j : NR)) -> vec H I M b n B ->
  exists o M', gqt (N := NR) n a lda b delta rtol atol itmax x z wa1 wa2 par fuel M = Some (o, M') /\
    match o with inl r => outcome r M' | inr _ => True end.
Proof.
  intros par fuel M HD HU HB. unfold gqt, LaModel.mem.
  destruct (clear_kp n a lda b x z wa1 wa2 Hn XZ M HD) as [M1 [E1 [K1 [CX CZ]]]]. rewrite E1. assert (HD1 := kp_dom _ _ _ _ K1 HD).
  destruct (save_kp n a lda b x z wa1 wa2 Hn X1 M1 HD1) as [M2 [E2 [K2 [C2 L2]]]]. rewrite E2. assert (HD2 := kp_dom _ _ _ _ K2 HD1).
  assert (Em : forall i j, 0 <= i <= j -> j < n -> M1 (entry a lda i j) = Some (S i j : NR)).
  { intros i j Hi Hj. rewrite (proj1 K1); [apply HU; assumption|]. assert (Hm : Mat (entry a lda i j)) by (exists i, j; repeat split; lia).
    intros [P|P]; [exact (Xx _ Hm P)|exact (Xz _ Hm P)]. }
  assert (N2 : forall p, (V x n p \/ V z n p \/ V b n p) -> ~ (Low n a lda p \/ V wa1 n p)).
  { intros p Hp [[i [j [P1 [P2 P3]]]]|P].
    - assert (Hm : Mat p) by (exists i, j; repeat split; lia). destruct Hp as [Hp|[Hp|Hp]]; [exact (Xx _ Hm Hp)|exact (Xz _ Hm Hp)|exact (Xb _ Hm Hp)].
    - destruct Hp as [Hp|[Hp|Hp]]; [exact (Y1 _ Hp P)|exact (Z1 _ Hp P)|exact (B1 _ Hp P)]. }
  assert (HF : full M2).
  { intros i j Hi Hj. destruct (Z_lt_le_dec j i) as [Hji|Hji].
    - rewrite L2 by lia. rewrite Em by lia. f_equal. apply Ss; lia.
    - rewrite (proj1 K2); [apply Em; lia|]. intros [[k [l [P1 [P2 P3]]]]|P].
      + apply (ent_inj n a lda Hn) in P3; lia.
      + apply (X1 (entry a lda i j)); [exists i, j; repeat split; lia|exact P]. }
  assert (HS2 : st M2).
  { split; [exact HD2|]. split; [intros i j Hi Hj; apply HF; lia|]. split.
    - intros j Hj. rewrite C2 by exact Hj. apply Em; lia.
    - intros j Hj. assert (Hb := v_in0 n b j Hj). rewrite (proj1 K2) by (apply N2; auto). rewrite (proj1 K1); [apply HB, Hj|].
      intros [P|P]; [exact (Bx _ Hb P)|exact (Bz _ Hb P)]. }
  destruct (bounds_ok par M2 HS2 HF) as [v [M3 [E3 [K3 [Q1 [Q2 [Q3 [Q4 [Q5 [Q6 [Q7 Q8]]]]]]]]]]]. rewrite E3.
  apply loop_ok. split; [exact (st_keep _ _ (kp_weak _ _ _ _ (mod_w n a lda x z wa2 Hn) K3) HS2)|].
  split; [exact Q1|]. split; [exact Q2|]. split; [exact Q3|]. exists (fun _ => 0%R), (fun _ => 0%R).
  assert (Fr : fresh v (fun _ => 0%R)) by (split; [reflexivity|]; repeat split; assumption).
  split; [|split; [|split; [left; exact Fr|]]].
  - intros j Hj. assert (Hx := v_in0 n x j Hj). rewrite (proj1 K3) by (apply Y2, Hx). rewrite (proj1 K2) by (apply N2; auto). apply CX, Hj.
  - intros j Hj. assert (Hx := v_in0 n z j Hj). rewrite (proj1 K3) by (apply Z2, Hx). rewrite (proj1 K2) by (apply N2; auto). apply CZ, Hj.
  - intros E0. destruct (Q4 E0) as [E5 E6]. split; [exact E5|]. split; [exact E6|exact Fr].
Qed.
End Real.
