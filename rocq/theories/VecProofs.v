(** * Element access, linear combinations, dot products: proofs *)
From Coq Require Import List ZArith Bool Arith Lia Reals Lra Psatz.
From Flocq Require Import Core BinarySingleNaN.
From Verif Require Import Num NumFacts VecModel MemModel MemSpec ListFacts BoxSpec MemProofs FloatFacts Casts.
Import ListNotations.

(** ** Element access (C04) *)
Section Access.
Context {D E : Num} (c : Cast D E).
Notation mem := (mem E).
Notation heap := (heap D E).

Lemma vpeek_ok (h : heap) v s n p l k :
  is_vector h v s n p l ->
  (forall a, (0 <= k)%Z -> nth_error l (Z.to_nat k) = Some a ->
     opk_vpeek c h (Some v) k true = Some (SUCCESS, Some (up c a))) /\
  (~ (0 <= k < Z.of_nat n)%Z -> opk_vpeek c h (Some v) k true = Some (OUT_OF_BOUNDS_INDEX, None)).
Proof.
  intros (V1 & V2 & V3 & V4). unfold opk_vpeek, get_vec. rewrite V1. cbn [negb v_owner v_data]. rewrite V2.
  split.
  - intros a Hk Ha. assert (Hlt := nth_error_lt _ _ _ Ha).
    destruct (Z.ltb_spec k 0); [lia|]. rewrite Z.geb_leb. destruct (Z.leb_spec (Z.of_nat n) k); [lia|]. simpl.
    rewrite (V4 _ _ Ha). reflexivity.
  - intros Hk. rewrite Z.geb_leb.
    destruct (Z.ltb_spec k 0); [reflexivity|]. destruct (Z.leb_spec (Z.of_nat n) k); [reflexivity|]. lia.
Qed.

Definition set_elt (l : list E) (k : nat) (a : E) : list E :=
  firstn k l ++ a :: skipn (S k) l.

Lemma set_elt_nth l k a i : k < length l ->
  nth_error (set_elt l k a) i = if (i =? k)%nat then Some a else nth_error l i.
Proof.
  intros Hk. unfold set_elt. destruct (Nat.eqb_spec i k) as [->|Hne].
  - rewrite nth_error_app2; rewrite firstn_length, Nat.min_l by lia; [|lia]. rewrite Nat.sub_diag. reflexivity.
  - destruct (lt_dec i k).
    + rewrite nth_error_app1 by (rewrite firstn_length; lia). revert i Hne l0. clear - Hk. revert k Hk.
      induction l as [|b l IH]; intros [|k] Hk i Hne Hi; simpl in *; try lia. destruct i; simpl; auto. apply IH; lia.
    + rewrite nth_error_app2; rewrite firstn_length, Nat.min_l by lia; [|lia].
      destruct (i - k) as [|j] eqn:Hj; [lia|]. cbn [nth_error]. replace i with (S k + j) by lia.
      clear. revert l. generalize (S k) as m. induction m as [|m IH]; intros [|b l]; simpl; auto; destruct j; auto.
Qed.

Lemma set_elt_length l k a : k < length l -> length (set_elt l k a) = length l.
Proof. intros. unfold set_elt. rewrite app_length, firstn_length. cbn [length]. rewrite skipn_length. lia. Qed.

Lemma vpoke_ok (h : heap) v s n p l k value :
  is_vector h v s n p l ->
  ((0 <= k < Z.of_nat n)%Z ->
    exists h' l', opk_vpoke c h (Some v) k value = Some (SUCCESS, h') /\ writes h v l' h' /\
      forall i, nth_error l' i = if (i =? Z.to_nat k)%nat then Some (dn c value) else nth_error l i) /\
  (~ (0 <= k < Z.of_nat n)%Z -> opk_vpoke c h (Some v) k value = Some (OUT_OF_BOUNDS_INDEX, h)).
Proof.
  intros Hv. assert (Hv' := Hv). destruct Hv as (V1 & V2 & V3 & V4). unfold opk_vpoke, get_vec. rewrite V1. cbn [negb v_owner v_data]. rewrite V2.
  split.
  - intros Hk. destruct (Z.ltb_spec k 0); [lia|]. rewrite Z.geb_leb. destruct (Z.leb_spec (Z.of_nat n) k); [lia|]. cbn [orb].
    destruct (holds_nth (h_mem h) p l (Z.to_nat k) V4) as (a & Ha & Ha'); [lia|].
    unfold wr. rewrite Ha'.
    exists (set_mem h (upd (h_mem h) p (Z.to_nat k) (dn c value))), (set_elt l (Z.to_nat k) (dn c value)).
    split; [reflexivity|]. split; [|intros i; apply set_elt_nth; lia].
    exists s, n, p, l. split; [exact Hv'|]. split; [|split].
    + repeat split; auto. { rewrite set_elt_length; lia. }
      intros j b Hb. rewrite set_elt_nth in Hb by lia. unfold set_mem; cbn [h_mem].
      destruct (Nat.eqb_spec j (Z.to_nat k)) as [->|Hne].
      * rewrite rd_upd_same. exact Hb.
      * unfold rd. rewrite upd_other by lia. apply V4; auto.
    + repeat split.
    + intros b o Hn. unfold set_mem; cbn [h_mem]. apply upd_other. unfold in_area in Hn. lia.
  - intros Hk. rewrite Z.geb_leb.
    destruct (Z.ltb_spec k 0); [reflexivity|]. destruct (Z.leb_spec (Z.of_nat n) k); [reflexivity|]. lia.
Qed.

Lemma vimport_ok {A : Type} (conv : A -> E) (h : heap) v s n p l (src : list A) type :
  is_vector h v s n p l ->
  type <> OTHER_TYPE ->
  (length src = n ->
    exists h', opk_vimport conv h (Some v) (Some src) type (Z.of_nat n) = Some (SUCCESS, h') /\ writes h v (map conv src) h') /\
  (forall k, k <> Z.of_nat n -> opk_vimport conv h (Some v) (Some src) type k = Some (INVALID_ARGUMENT, h)).
Proof.
  intros Hv Ht. assert (Hv' := Hv). destruct Hv as (V1 & V2 & V3 & V4). split.
  - intros Hl.
    destruct (loop_dst n p (fun i (_ : mem) => do a <- nth_error src i; Some (conv a))
               (fun i => match nth_error src i with Some a => conv a | None => nZ 0 end) (h_mem h)) as (m' & Hm & Hr & Hs).
    + intros j Hj. eapply holds_acc; eauto. lia.
    + intros j m' Hj _. destruct (nth_error_Some_ex src j) as [a ->]; auto. lia.
    + exists (set_mem h m'). split.
      * unfold opk_vimport, get_vec. rewrite V1. cbn [v_owner v_data]. rewrite V2, Z.eqb_refl. cbn [negb].
        rewrite (for_n_ext n _ (fun i m => do a <- nth_error src i; wr m p i (conv a))) in Hm.
        { destruct type; try congruence; rewrite Hm; reflexivity. }
        intros j m. destruct (nth_error src j); auto.
      * exists s, n, p, l. split; [exact Hv'|]. split; [|split; [repeat split|exact Hs]].
        repeat split; auto. { rewrite map_length; auto. }
        intros j b Hb. rewrite nth_error_map in Hb. cbn [set_mem h_mem].
        destruct (nth_error src j) as [a|] eqn:Ha; [|discriminate]. rewrite Hr by (apply nth_error_lt in Ha; lia).
        rewrite Ha. exact Hb.
  - intros k Hk. unfold opk_vimport, get_vec. rewrite V1. cbn [v_owner v_data]. rewrite V2.
    destruct (Z.eqb_spec k (Z.of_nat n)); [congruence|]. destruct type; try congruence; reflexivity.
Qed.

Lemma set_nth_app {A} (l1 : list A) b l2 a : set_nth (l1 ++ b :: l2) (length l1) a = Some (l1 ++ a :: l2).
Proof. induction l1 as [|x l1 IH]; simpl; auto. rewrite IH. reflexivity. Qed.

Lemma vexport_ok {A : Type} (conv : E -> A) (h : heap) v s n p l (dst : list A) type :
  is_vector h v s n p l ->
  type <> OTHER_TYPE ->
  (length dst = n -> opk_vexport conv h (Some dst) type (Z.of_nat n) (Some v) = Some (SUCCESS, Some (map conv l))) /\
  (forall k, k <> Z.of_nat n -> opk_vexport conv h (Some dst) type k (Some v) = Some (INVALID_ARGUMENT, Some dst)).
Proof.
  intros (V1 & V2 & V3 & V4) Ht. split.
  - intros Hl. unfold opk_vexport, get_vec. rewrite V1. cbn [v_owner v_data]. rewrite V2, Z.eqb_refl. cbn [negb].
    assert (Q : for_n n (fun i out => do a <- rd (h_mem h) p i; set_nth out i (conv a)) dst = Some (map conv l)).
    { unfold for_n.
      assert (Q : forall k l1 l2 d2, length l1 + k = n -> l1 ++ l2 = l -> length d2 = k ->
        for_loop (fun i out => do a <- rd (h_mem h) p i; set_nth out i (conv a)) k (length l1) (map conv l1 ++ d2) = Some (map conv l)).
      { induction k as [|k IH]; intros l1 l2 d2 Hk Hl12 Hd2.
        - destruct d2; [|discriminate]. simpl. assert (l2 = []) as ->.
          { apply length_zero_iff_nil. rewrite <- Hl12, app_length in V3. lia. }
          rewrite !app_nil_r in *. congruence.
        - destruct d2 as [|b d2]; [discriminate|]. destruct l2 as [|a l2].
          { exfalso. rewrite app_nil_r in Hl12. subst. lia. }
          cbn [for_loop]. rewrite (V4 (length l1) a).
          2:{ rewrite <- Hl12, nth_error_app2, Nat.sub_diag by lia. reflexivity. }
          rewrite <- (map_length conv l1) at 1. rewrite set_nth_app.
          specialize (IH (l1 ++ [a]) l2 d2). rewrite app_length, map_app, <- !app_assoc in IH. simpl in IH.
          rewrite Nat.add_1_r in IH. apply IH; try lia; auto. }
      apply (Q n [] l dst); auto. }
    rewrite Q. destruct type; try congruence; reflexivity.
  - intros k Hk. unfold opk_vexport, get_vec. rewrite V1. cbn [v_owner v_data]. rewrite V2.
    destruct (Z.eqb_spec k (Z.of_nat n)); [congruence|]. destruct type; try congruence; reflexivity.
Qed.

(** Vectors stored elsewhere are not changed. *)
Lemma writes_frame (h h' : heap) dst l v s n p lv sd nd pd :
  writes h dst l h' -> is_vector h v s n p lv -> h_vec h dst = Some (mkVector sd pd) -> h_space h sd = Some nd ->
  (forall b o, in_area pd nd b o -> ~ in_area p n b o) ->
  is_vector h' v s n p lv.
Proof.
  intros (s0 & n0 & p0 & l0 & (A1 & A2 & A3 & A4) & _ & (O1 & O2 & O3) & Hs) (V1 & V2 & V3 & V4) Hd Hn Hsep.
  rewrite A1 in Hd. injection Hd as -> ->. rewrite A2 in Hn. injection Hn as ->.
  split; [|split; [|split]]; try congruence. intros j a Ha. unfold rd. rewrite Hs.
  - apply V4; auto.
  - intros Hi. apply (Hsep _ _ Hi). unfold in_area. apply nth_error_lt in Ha. lia.
Qed.
End Access.

(** ** Linear combinations (C05) *)
Section Exact.
Variables H I : R.
Notation NR := (NumR H I).
Notation cR := (cast_id NR).

Lemma list_eq_ext {A} (x y : list A) n : length x = n -> length y = n ->
  (forall i a b, nth_error x i = Some a -> nth_error y i = Some b -> a = b) -> x = y.
Proof.
  revert x y; induction n as [|n IH]; intros [|a x] [|b y] Hx Hy Hn; simpl in *; try discriminate; auto.
  f_equal. { apply (Hn 0); reflexivity. } apply IH; auto. intros i a0 b0 Ha Hb. apply (Hn (S i)); auto.
Qed.

Ltac req := repeat match goal with
  | |- context[Req_bool ?a ?b] => destruct (Req_bool_spec a b); try subst a
  end.

Lemma e_fill_0 : e_fill cR (IZR 0) = 0%R.
Proof. unfold e_fill. simpl. case Req_bool; reflexivity. Qed.

Lemma e_fill_0' : e_fill cR (nZ 0) = 0%R.
Proof. exact e_fill_0. Qed.

Lemma lc1_R alpha (x : list R) n : length x = n -> lc1 cR alpha x n = map (fun a => alpha * a)%R x.
Proof.
  intros Hx. unfold lc1. simpl. req.
  - erewrite map_ext; [rewrite map_id; reflexivity|]. intros; simpl; lra.
  - unfold k_fill. rewrite e_fill_0. transitivity (map (fun _ => 0%R) x); [rewrite (map_one 0%R x), Hx; reflexivity | apply map_ext; intros; lra].
  - reflexivity.
Qed.

Lemma lc2_R alpha (x : list R) beta (y : list R) n : length x = n -> length y = n ->
  lc2 cR alpha x beta y n = map2 (fun a b => alpha * a + beta * b)%R x y.
Proof.
  intros Hx Hy. apply list_eq_ext with (n := n).
  - unfold lc2. destruct (neq alpha _), (neq beta _); unfold k_fill, k_scale, k_axpby; rewrite ?map_length, ?repeat_length; auto.
    apply map2_length; auto.
  - apply map2_length; auto.
  - intros i u v. rewrite map2_nth_error. unfold lc2, k_fill, k_scale, k_axpby, e_axpby, e_scale.
    rewrite e_fill_0'. cbn [NumR neq nZ num cast_id dn nadd nmul nsub nopp].
    assert (forall r, Req_bool (-1) r = Req_bool r (-1)) as Hsym by (intros; req; auto; lra).
    req; intros Hu Hv; rewrite ?map2_nth_error, ?nth_error_map in Hu;
    destruct (nth_error x i) as [a|] eqn:Ha, (nth_error y i) as [b|] eqn:Hb; simpl in *; try discriminate;
    try (apply nth_error_repeat_inv in Hu); injection Hv as <-; try injection Hu as <-; subst; try lra.
Qed.
Lemma e_axpby_R alpha beta (x y : R) : e_axpby cR alpha beta x y = (alpha * x + beta * y)%R.
Proof.
  unfold e_axpby. cbn [NumR neq nZ num cast_id dn nadd nmul nsub nopp]. req; simpl; lra.
Qed.

Lemma lc3_R alpha (x : list R) beta (y : list R) gamma (z : list R) n : length x = n -> length y = n -> length z = n ->
  lc3 cR alpha x beta y gamma z n = map3 (fun a b e => alpha * a + beta * b + gamma * e)%R x y z.
Proof.
  intros Hx Hy Hz. apply list_eq_ext with (n := n).
  - unfold lc3. destruct (neq alpha _), (neq beta _), (neq gamma _); unfold k_fill, k_scale, k_axpby, k_axpbypcz;
      rewrite ?map_length, ?repeat_length; auto; first [apply map2_length; auto; fail | apply map3_length; auto].
  - apply map3_length; auto.
  - intros i u v. rewrite map3_nth_error. unfold lc3, k_fill, k_scale, k_axpby, k_axpbypcz, e_scale, e_axpbypcz.
    rewrite e_fill_0'. cbn [NumR neq nZ num cast_id dn nadd nmul nsub nopp].
    req; intros Hu Hv; rewrite ?map3_nth_error, ?map2_nth_error, ?nth_error_map in Hu;
    destruct (nth_error x i) as [a|] eqn:Ha, (nth_error y i) as [b|] eqn:Hb, (nth_error z i) as [e|] eqn:He;
      simpl in *; try discriminate;
    try (apply nth_error_repeat_inv in Hu); injection Hv as <-; try injection Hu as <-; subst; rewrite ?e_axpby_R; try lra.
Qed.
End Exact.

(** ** IEEE arithmetic: the shortcuts agree with the general formula up to the sign of zeros *)
Section Rounded.
Variables prec emax : Z.
Context (Hp : Prec_gt_0 prec) (Hm : Prec_lt_emax prec emax) {D : Num}.
Notation E := (NumF prec emax Hp Hm).
Variable c : Cast D E.
(** The conversion of 0, 1 and -1 is exact. *)
Definition unit_cast : Prop :=
  (forall k a, Z.abs k = 1%Z -> neq a (nZ k) = true -> dn c a = FofZ prec emax Hp Hm k) /\
  (forall a, neq a (nZ 0) = true -> exists s, dn c a = B754_zero s) /\
  neq (nZ 0 : D) (nZ 0) = true.
Hypothesis Hc : unit_cast.
Notation "x ⊕ y" := (@Bplus prec emax Hp Hm mode_NE x y) (at level 50, left associativity).
Notation "x ⊗ y" := (@Bmult prec emax Hp Hm mode_NE x y) (at level 40, left associativity).
Notation eqz := (eqz prec emax).

Lemma cast_1 a : neq a (nZ 1) = true -> forall x, dn c a ⊗ x = x.
Proof. intros Ha x. rewrite (proj1 Hc 1%Z a eq_refl Ha). apply Bmult_unit. reflexivity. Qed.
Lemma cast_m1 a : neq a (nZ (-1)) = true -> forall x, dn c a ⊗ x = Bopp x.
Proof. intros Ha x. rewrite (proj1 Hc (-1)%Z a eq_refl Ha). apply (Bmult_unit prec emax Hp Hm (-1)). reflexivity. Qed.
Lemma cast_0 a : neq a (nZ 0) = true -> forall x, is_finite x = true -> exists s, dn c a ⊗ x = B754_zero s.
Proof. intros Ha x Hx. destruct (proj1 (proj2 Hc) a Ha) as [s ->]. apply Bmult_zero_l. exact Hx. Qed.

Lemma e_axpby_F alpha beta (x y : E) : e_axpby c alpha beta x y = (dn c alpha ⊗ x) ⊕ (dn c beta ⊗ y).
Proof.
  unfold e_axpby. cbn [NumF nadd nmul nsub nopp].
  destruct (neq alpha (nZ 1)) eqn:A1.
  - rewrite (cast_1 _ A1).
    destruct (neq beta (nZ 1)) eqn:B1; [rewrite (cast_1 _ B1); reflexivity|].
    destruct (neq beta (nZ (-1))) eqn:B2; [rewrite (cast_m1 _ B2); apply Bminus_opp|]. reflexivity.
  - destruct (neq alpha (nZ (-1))) eqn:A2.
    + rewrite (cast_m1 _ A2).
      destruct (neq beta (nZ 1)) eqn:B1; [rewrite (cast_1 _ B1), Bminus_opp; apply Bplus_comm|].
      destruct (neq beta (nZ (-1))) eqn:B2; [rewrite (cast_m1 _ B2), Bminus_opp; apply Bplus_comm|].
      rewrite Bminus_opp; apply Bplus_comm.
    + destruct (neq beta (nZ 1)) eqn:B1; [rewrite (cast_1 _ B1); reflexivity|].
      destruct (neq beta (nZ (-1))) eqn:B2; [rewrite (cast_m1 _ B2); apply Bminus_opp|]. reflexivity.
Qed.

Lemma e_fill_0F : e_fill c (nZ 0) = B754_zero false.
Proof. unfold e_fill. rewrite (proj2 (proj2 Hc)). reflexivity. Qed.

Definition gen1 (alpha : D) (a : E) : E := dn c alpha ⊗ a.
Definition gen2 (alpha beta : D) (a b : E) : E := (dn c alpha ⊗ a) ⊕ (dn c beta ⊗ b).
Definition gen3 (alpha beta gamma : D) (a b e : E) : E := ((dn c alpha ⊗ a) ⊕ (dn c beta ⊗ b)) ⊕ (dn c gamma ⊗ e).

Lemma lc1_F alpha (x : list E) n i a r : length x = n -> is_finite a = true ->
  nth_error x i = Some a -> nth_error (lc1 c alpha x n) i = Some r -> eqz r (gen1 alpha a).
Proof.
  intros Hx Fa Ha Hr. unfold lc1, gen1 in *.
  destruct (neq alpha (nZ 1)) eqn:A1.
  - rewrite (cast_1 _ A1). rewrite Ha in Hr. injection Hr as <-. apply eqz_refl.
  - destruct (neq alpha (nZ 0)) eqn:A0.
    + destruct (cast_0 _ A0 a Fa) as [s ->]. unfold k_fill in Hr. apply nth_error_repeat_inv in Hr. subst r.
      rewrite e_fill_0F. right; eauto.
    + unfold k_scale, e_scale in Hr. rewrite nth_error_map, Ha in Hr. injection Hr as <-. apply eqz_refl.
Qed.

Lemma lc2_F alpha (x : list E) beta (y : list E) n i a b r : length x = n -> length y = n ->
  is_finite a = true -> is_finite b = true ->
  nth_error x i = Some a -> nth_error y i = Some b -> nth_error (lc2 c alpha x beta y n) i = Some r ->
  eqz r (gen2 alpha beta a b).
Proof.
  intros Hx Hy Fa Fb Ha Hb Hr. unfold lc2, gen2, k_fill, k_scale, e_scale, k_axpby in *.
  destruct (neq alpha (nZ 0)) eqn:A0; destruct (neq beta (nZ 0)) eqn:B0.
  - apply nth_error_repeat_inv in Hr. subst r. rewrite e_fill_0F.
    destruct (cast_0 _ A0 a Fa) as [s ->], (cast_0 _ B0 b Fb) as [t ->]. apply eqz_sym. apply eqz_trans with (B754_zero t).
    + apply Bplus_zero_l.
    + right; eauto.
  - rewrite nth_error_map, Hb in Hr. injection Hr as <-. destruct (cast_0 _ A0 a Fa) as [s ->]. apply eqz_sym, Bplus_zero_l.
  - rewrite nth_error_map, Ha in Hr. injection Hr as <-. destruct (cast_0 _ B0 b Fb) as [s ->]. apply eqz_sym, Bplus_zero_r.
  - rewrite map2_nth_error, Ha, Hb in Hr. injection Hr as <-. rewrite e_axpby_F. apply eqz_refl.
Qed.

Lemma lc3_F alpha (x : list E) beta (y : list E) gamma (z : list E) n i a b e r :
  length x = n -> length y = n -> length z = n ->
  is_finite a = true -> is_finite b = true -> is_finite e = true ->
  nth_error x i = Some a -> nth_error y i = Some b -> nth_error z i = Some e ->
  nth_error (lc3 c alpha x beta y gamma z n) i = Some r ->
  eqz r (gen3 alpha beta gamma a b e).
Proof.
  intros Hx Hy Hz Fa Fb Fe Ha Hb He Hr. unfold lc3, gen3, k_fill, k_scale, e_scale, k_axpby, k_axpbypcz in *.
  assert (ZL : forall s u, eqz u (B754_zero s ⊕ u)) by (intros; apply eqz_sym, Bplus_zero_l).
  assert (ZR : forall s u, eqz u (u ⊕ B754_zero s)) by (intros; apply eqz_sym, Bplus_zero_r).
  destruct (neq alpha (nZ 0)) eqn:A0; destruct (neq beta (nZ 0)) eqn:B0; destruct (neq gamma (nZ 0)) eqn:C0;
    try (destruct (cast_0 _ A0 a Fa) as [sa ->]);
    try (destruct (cast_0 _ B0 b Fb) as [sb ->]);
    try (destruct (cast_0 _ C0 e Fe) as [sc ->]);
    try (apply nth_error_repeat_inv in Hr; subst r; rewrite e_fill_0F);
    try (rewrite ?map3_nth_error, ?map2_nth_error, ?nth_error_map, ?Ha, ?Hb, ?He in Hr; injection Hr as <-); rewrite ?e_axpby_F.
  - right. destruct sa, sb, sc; simpl; eauto.
  - eapply eqz_trans; [apply (ZL sa)|]. apply Bplus_eqz; [|apply eqz_refl]. apply ZR.
  - eapply eqz_trans; [apply (ZL sa)|]. apply ZR.
  - apply Bplus_eqz; [apply ZL|apply eqz_refl].
  - eapply eqz_trans; [apply (ZR sb)|]. apply ZR.
  - apply Bplus_eqz; [apply ZR|apply eqz_refl].
  - apply ZR.
  - apply eqz_refl.
Qed.
End Rounded.

Lemma unit_cast_DD : unit_cast 53 1024 Hp53 Hm53 cast_DD.
Proof.
  split; [|split].
  - intros k a Hk Ha. apply Beqb_unit; auto.
  - intros a Ha. apply (Beqb_zero 53 1024 Hp53 Hm53). exact Ha.
  - reflexivity.
Qed.

Lemma unit_cast_DS : unit_cast 24 128 Hp24 Hm24 cast_DS.
Proof.
  split; [|split].
  - intros k a Hk Ha. apply Beqb_unit in Ha; auto. subst a.
    assert (k = 1 \/ k = -1)%Z as [->| ->] by lia.
    + apply B2SF_inj. vm_compute. reflexivity.
    + apply B2SF_inj. vm_compute. reflexivity.
  - intros a Ha. apply (Beqb_zero 53 1024 Hp53 Hm53) in Ha. destruct Ha as [s ->]. exists s. reflexivity.
  - reflexivity.
Qed.

(** ** Dot products and norms in exact arithmetic (C07) *)
Definition rsum (l : list R) : R := fold_right Rplus 0%R l.
Definition rmax (l : list R) : R := fold_right Rmax 0%R l.

Section Dot.
Variables H I : R.
Notation NR := (NumR H I).
Notation cR := (cast_id NR).
Local Open Scope R_scope.

Lemma fold_sum {A} (f : A -> R) (l : list A) r : fold_left (fun r a => r + f a) l r = r + rsum (map f l).
Proof. revert r; induction l as [|a l IH]; intros r; simpl; [lra|]. rewrite IH. lra. Qed.

Lemma dot_R (x y : list R) : k_dot cR x y = rsum (map2 Rmult x y).
Proof.
  unfold k_dot. simpl. unfold map2. rewrite (fold_sum (fun p => fst p * snd p)). lra.
Qed.
Lemma dot3_R (w x y : list R) : k_dot3 cR w x y = rsum (map3 (fun a b e => a * b * e) w x y).
Proof.
  unfold k_dot3. simpl. unfold map3, map2. rewrite (fold_sum (fun p => fst (fst p) * snd (fst p) * snd p)). lra.
Qed.
Lemma norm1_R (x : list R) : k_norm1 cR x = rsum (map Rabs x).
Proof. unfold k_norm1. simpl. rewrite (fold_sum Rabs). lra. Qed.
Lemma norm2_R (x : list R) : k_norm2 cR x = R_sqrt.sqrt (rsum (map (fun a => a * a) x)).
Proof. unfold k_norm2. simpl. rewrite (fold_sum (fun a => a * a)). f_equal. lra. Qed.
Lemma norminf_R (x : list R) : k_norminf cR x = rmax (map Rabs x).
Proof.
  unfold k_norminf. simpl.
  assert (Q : forall l r, fold_left (fun r xj => if Rlt_bool r (Rabs xj) then Rabs xj else r) l r = Rmax r (rmax (map Rabs l)) \/ r < 0).
  { induction l as [|a l IH]; intros r; simpl.
    - destruct (Rlt_dec r 0); auto. left. rewrite Rmax_left; lra.
    - destruct (Rlt_dec r 0) as [|Hr]; auto. left.
      case Rlt_bool_spec; intros Hc.
      + destruct (IH (Rabs a)) as [->|Ha]; [|pose proof (Rabs_pos a); lra].
        unfold Rmax. repeat destruct Rle_dec; lra.
      + destruct (IH r) as [->|Ha]; [|lra].
        unfold Rmax. repeat destruct Rle_dec; lra. }
  destruct (Q x 0) as [Hq|Hq]; [|lra]. rewrite Hq. apply Rmax_right.
  clear. induction x as [|a x IH]; simpl; [lra|]. unfold Rmax. destruct Rle_dec; [lra|]. apply Rabs_pos.
Qed.

Lemma rsum_scal a l : rsum (map (Rmult a) l) = a * rsum l.
Proof. induction l as [|b l IH]; simpl; [lra|]. rewrite IH. lra. Qed.

Lemma dot_sym (x y : list R) : rsum (map2 Rmult x y) = rsum (map2 Rmult y x).
Proof. revert y; induction x as [|a x IH]; intros [|b y]; simpl; auto. unfold map2 in IH. rewrite IH. lra. Qed.

Lemma dot_linear (a b : R) (x z y : list R) : length x = length y -> length z = length y ->
  rsum (map2 Rmult (map2 (fun u v => a * u + b * v) x z) y) = a * rsum (map2 Rmult x y) + b * rsum (map2 Rmult z y).
Proof.
  revert x z; induction y as [|c y IH]; intros [|u x] [|v z] H1 H2; simpl in *; try discriminate; [lra|].
  unfold map2 in *. rewrite IH by congruence. lra.
Qed.

Lemma sumsq_pos (x : list R) : 0 <= rsum (map (fun a => a * a) x).
Proof. induction x as [|a x IH]; simpl; [lra|]. nra. Qed.

Lemma sumsq_zero (x : list R) : rsum (map (fun a => a * a) x) = 0 -> Forall (fun a => a = 0) x.
Proof.
  induction x as [|a x IH]; simpl; intros Hx; constructor.
  - pose proof (sumsq_pos x). nra.
  - apply IH. pose proof (sumsq_pos x). nra.
Qed.

Lemma sumsq_dot (x : list R) : rsum (map2 Rmult x x) = rsum (map (fun a => a * a) x).
Proof. induction x as [|a x IH]; simpl; auto. unfold map2 in IH. rewrite IH. reflexivity. Qed.

Lemma cauchy_schwarz (x y : list R) : length x = length y ->
  (rsum (map2 Rmult x y))² <= rsum (map (fun a => a * a) x) * rsum (map (fun a => a * a) y).
Proof.
  intros Hl.
  assert (Q : forall t, 0 <= rsum (map (fun a => a * a) x) + 2 * t * rsum (map2 Rmult x y) + t * t * rsum (map (fun a => a * a) y)).
  { intros t. replace (_ + _ + _) with (rsum (map (fun a => a * a) (map2 (fun u v => u + t * v) x y))); [apply sumsq_pos|].
    revert y Hl; induction x as [|a x IH]; intros [|b y] Hl; simpl in *; try discriminate; [lra|].
    unfold map2 in *. rewrite IH by congruence. lra. }
  set (A := rsum (map (fun a => a * a) x)) in *. set (B := rsum (map2 Rmult x y)) in *. set (C := rsum (map (fun a => a * a) y)) in *.
  assert (0 <= C) by apply sumsq_pos. unfold Rsqr.
  destruct (Req_dec C 0) as [HC|HC].
  - rewrite HC in Q |- *. destruct (Req_dec B 0) as [HB|HB]; [rewrite HB; lra|].
    specialize (Q (- (A + 1) / (2 * B))). exfalso.
    replace (A + 2 * (- (A + 1) / (2 * B)) * B + - (A + 1) / (2 * B) * (- (A + 1) / (2 * B)) * 0) with (-1) in Q by (field; auto). lra.
  - specialize (Q (- B / C)).
    replace (A + 2 * (- B / C) * B + - B / C * (- B / C) * C) with ((A * C - B * B) / C) in Q by (field; auto).
    assert (0 < C) by lra. apply Rmult_le_compat_r with (r := C) in Q; [|lra].
    replace ((A * C - B * B) / C * C) with (A * C - B * B) in Q by (field; auto). lra.
Qed.

Lemma cauchy_schwarz_norm (x y : list R) : length x = length y ->
  Rabs (rsum (map2 Rmult x y)) <= R_sqrt.sqrt (rsum (map (fun a => a * a) x)) * R_sqrt.sqrt (rsum (map (fun a => a * a) y)).
Proof.
  intros Hl. rewrite <- sqrt_mult by apply sumsq_pos. rewrite <- sqrt_Rsqr_abs. apply sqrt_le_1_alt. apply cauchy_schwarz; auto.
Qed.

Lemma abs_pos_sum (x : list R) : 0 <= rsum (map Rabs x).
Proof. induction x as [|a x IH]; simpl; [lra|]. pose proof (Rabs_pos a). lra. Qed.

Lemma norm2_le_norm1 (x : list R) : R_sqrt.sqrt (rsum (map (fun a => a * a) x)) <= rsum (map Rabs x).
Proof.
  rewrite <- (sqrt_Rsqr (rsum (map Rabs x))) by apply abs_pos_sum. apply sqrt_le_1_alt. unfold Rsqr.
  induction x as [|a x IH]; simpl; [lra|]. pose proof (Rabs_pos a). pose proof (abs_pos_sum x).
  assert (a * a = Rabs a * Rabs a) as -> by (rewrite <- Rabs_mult; symmetry; apply Rabs_pos_eq; nra). nra.
Qed.

Lemma norminf_le_norm2 (x : list R) : rmax (map Rabs x) <= R_sqrt.sqrt (rsum (map (fun a => a * a) x)).
Proof.
  assert (Q : forall a, In a x -> a * a <= rsum (map (fun a => a * a) x)).
  { induction x as [|b x IH]; simpl; [tauto|]. intros a [->|Ha]; [pose proof (sumsq_pos x); lra|]. specialize (IH a Ha). nra. }
  assert (Q2 : forall r, 0 <= r -> (forall a, In a x -> Rabs a <= r) -> rmax (map Rabs x) <= r).
  { clear. induction x as [|b x IH]; simpl; intros r Hr Hx; [exact Hr|]. apply Rmax_lub; auto. }
  apply Q2; [apply sqrt_pos|]. intros a Ha. rewrite <- sqrt_Rsqr_abs. apply sqrt_le_1_alt. apply Q; auto.
Qed.

Lemma rmax_spec (x : list R) : (forall a, In a x -> Rabs a <= rmax (map Rabs x)) /\
  (x <> nil -> exists a, In a x /\ Rabs a = rmax (map Rabs x)).
Proof.
  induction x as [|b x [IH1 IH2]]; simpl; split; try tauto.
  - intros a [->|Ha]; [apply Rmax_l|]. eapply Rle_trans; [apply IH1; auto|apply Rmax_r].
  - intros _. unfold Rmax at 1. destruct (Rle_dec (Rabs b) (rmax (map Rabs x))) as [Hle|Hgt].
    + destruct x as [|b' x].
      * exists b. simpl in *. split; auto. pose proof (Rabs_pos b). lra.
      * destruct IH2 as (a & Ha & Hr); [discriminate|]. exists a. split; auto.
    + exists b. auto.
Qed.
End Dot.

(** ** Final forms *)
Section Final.
Context {D E : Num} (c : Cast D E).
Notation heap := (heap D E).

Lemma peek_poke (h h' : heap) v s n p l k value :
  is_vector h v s n p l -> opk_vpoke c h (Some v) k value = Some (SUCCESS, h') ->
  opk_vpeek c h' (Some v) k true = Some (SUCCESS, Some (up c (dn c value))).
Proof.
  intros Hv Hp. destruct (vpoke_ok c h v s n p l k value Hv) as [H1 H2].
  destruct (Z_le_dec 0 k) as [Hk|Hk]; [destruct (Z_lt_dec k (Z.of_nat n)) as [Hk'|Hk']|];
    try (rewrite H2 in Hp by lia; discriminate).
  destruct H1 as (h1 & l' & Hp1 & (s0 & n0 & p0 & l0 & _ & Hv' & _) & Hl'); [lia|].
  rewrite Hp in Hp1. injection Hp1 as <-.
  apply (proj1 (vpeek_ok c h' v s0 n0 p0 l' k Hv')); auto. rewrite Hl', Nat.eqb_refl. reflexivity.
Qed.

Lemma import_spec {A : Type} (conv : A -> E) (h : heap) v s n p l (src : list A) type k :
  is_vector h v s n p l ->
  (type <> OTHER_TYPE -> k = Z.of_nat n -> length src = n ->
    exists h', opk_vimport conv h (Some v) (Some src) type k = Some (SUCCESS, h') /\ writes h v (map conv src) h') /\
  (k <> Z.of_nat n -> opk_vimport conv h (Some v) (Some src) type k = Some (INVALID_ARGUMENT, h)) /\
  opk_vimport conv h (Some v) (Some src) OTHER_TYPE k = Some (INVALID_ARGUMENT, h) /\
  opk_vimport conv h None (Some src) type k = Some (ILLEGAL_ADDRESS, h) /\
  opk_vimport conv h (Some v) None type k = Some (ILLEGAL_ADDRESS, h).
Proof.
  intros Hv. split; [|split; [|repeat split]].
  - intros Ht -> Hl. apply (proj1 (vimport_ok conv h v s n p l src type Hv Ht)). exact Hl.
  - intros Hk. destruct type eqn:Ht; [| |reflexivity].
    all: rewrite <- Ht; apply (proj2 (vimport_ok conv h v s n p l src type Hv ltac:(congruence))); exact Hk.
Qed.

Lemma export_spec {A : Type} (conv : E -> A) (h : heap) v s n p l (dst : list A) type k :
  is_vector h v s n p l ->
  (type <> OTHER_TYPE -> k = Z.of_nat n -> length dst = n ->
    opk_vexport conv h (Some dst) type k (Some v) = Some (SUCCESS, Some (map conv l))) /\
  (k <> Z.of_nat n -> opk_vexport conv h (Some dst) type k (Some v) = Some (INVALID_ARGUMENT, Some dst)) /\
  opk_vexport conv h (Some dst) OTHER_TYPE k (Some v) = Some (INVALID_ARGUMENT, Some dst) /\
  opk_vexport conv h (Some dst) type k None = Some (ILLEGAL_ADDRESS, Some dst) /\
  opk_vexport conv h None type k (Some v) = Some (ILLEGAL_ADDRESS, None).
Proof.
  intros Hv. split; [|split; [|repeat split]].
  - intros Ht -> Hl. apply (proj1 (vexport_ok conv h v s n p l dst type Hv Ht)). exact Hl.
  - intros Hk. destruct type eqn:Ht; [| |reflexivity].
    all: rewrite <- Ht; apply (proj2 (vexport_ok conv h v s n p l dst type Hv ltac:(congruence))); exact Hk.
Qed.

Lemma roundtrip (h h' : heap) v s n p l (src dst : list E) type :
  is_vector h v s n p l -> type <> OTHER_TYPE -> length src = n -> length dst = n ->
  opk_vimport (fun a => a) h (Some v) (Some src) type (Z.of_nat n) = Some (SUCCESS, h') ->
  opk_vexport (fun a => a) h' (Some dst) type (Z.of_nat n) (Some v) = Some (SUCCESS, Some src).
Proof.
  intros Hv Ht Hs Hd Hi. destruct (proj1 (vimport_ok (fun a => a) h v s n p l src type Hv Ht) Hs) as (h1 & Hi' & Hw).
  rewrite Hi in Hi'. injection Hi' as <-. destruct Hw as (s0 & n0 & p0 & l0 & Hv0 & Hv1 & _).
  assert (n0 = n) as ->. { destruct Hv as (V1 & V2 & _), Hv0 as (W1 & W2 & _). congruence. }
  rewrite (proj1 (vexport_ok (fun a => a) h' v s0 n p0 _ dst type Hv1 Ht) Hd). rewrite !map_id. reflexivity.
Qed.

Lemma vswap_ok (h : heap) x y s n px py lx ly :
  is_vector h x s n px lx -> is_vector h y s n py ly -> same_or_apart px py n ->
  exists h', opk_vswap h (Some x) (Some y) = Some (OK, h') /\ same_objects h h' /\
      is_vector h' x s n px ly /\ is_vector h' y s n py lx /\
      (forall b o, ~ in_area px n b o -> ~ in_area py n b o -> h_mem h' b o = h_mem h b o).
Proof.
  intros Hx Hy Hsep. assert (Hx' := Hx). assert (Hy' := Hy).
  destruct Hx as (X1 & X2 & X3 & X4). destruct Hy as (Y1 & Y2 & Y3 & Y4).
  destruct (swap_spec n px py (h_mem h) lx ly X3 Y3 X4 Y4 Hsep) as (m' & Hm & M1 & M2 & M3).
  unfold opk_vswap, get_vec, optr_eqb. destruct (Nat.eqb_spec x y) as [->|Hne].
  - exists h. split; [reflexivity|]. rewrite X1 in Y1. injection Y1 as ->.
    unfold mk_swap in Hm. destruct (ptr_eqb_spec py py); [|congruence]. injection Hm as <-.
    split; [repeat split|]. split; [|split; [|auto]]; repeat split; auto.
  - rewrite X1, Y1. cbn [v_owner v_data]. rewrite Nat.eqb_refl. cbn [negb]. rewrite X2, Hm. cbn [lift].
    exists (set_mem h m'). split; [reflexivity|]. split; [repeat split|].
    split; [|split; [|exact M3]]; repeat split; auto.
Qed.

Lemma other_ops (h : heap) x y z s n px py pz lx ly lz (alpha : D) :
  is_vector h x s n px lx -> is_vector h y s n py ly -> is_vector h z s n pz lz ->
  same_or_apart px py n -> same_or_apart px pz n ->
  (exists h', opk_vcopy h (Some x) (Some y) = Some (OK, h') /\ writes h x ly h') /\
  (exists h', opk_vswap h (Some x) (Some y) = Some (OK, h') /\ same_objects h h' /\
      is_vector h' x s n px ly /\ is_vector h' y s n py lx /\
      (forall b o, ~ in_area px n b o -> ~ in_area py n b o -> h_mem h' b o = h_mem h b o)) /\
  (exists h', opk_vfill c h (Some x) alpha = Some (OK, h') /\
      writes h x (repeat (if neq alpha (nZ 0) then nZ 0 else dn c alpha) n) h') /\
  (exists h', opk_vproduct h (Some x) (Some y) (Some z) = Some (OK, h') /\ writes h x (map2 nmul ly lz) h').
Proof.
  intros Hx Hy Hz Sy Sz. split; [|split; [|split]].
  - eapply vcopy_ok; eauto.
  - eapply vswap_ok; eauto.
  - eapply vfill_ok; eauto.
  - eapply vproduct_ok; eauto.
Qed.

Lemma eqb_ne a b : a <> b -> (a =? b)%nat = false.
Proof. apply Nat.eqb_neq. Qed.

Lemma different_spaces (h : heap) x y z w s1 s2 s3 s4 a b g :
  in_space h x s1 -> in_space h y s2 -> in_space h z s3 -> in_space h w s4 ->
  let refused (r : option (report * heap)) := r = Some (BAD_VECTORS, h) in
  (s1 <> s2 ->
    refused (opk_vcopy h (Some x) (Some y)) /\
    refused (opk_vswap h (Some x) (Some y)) /\
    refused (opk_vscale c h (Some x) a (Some y)) /\
    opk_vdot c h (Some x) (Some y) = Some (BAD_VECTORS, nZ 0)) /\
  (~ (s1 = s2 /\ s1 = s3) ->
    opk_vdot3 c h (Some x) (Some y) (Some z) = Some (BAD_VECTORS, nZ 0) /\
    refused (opk_vproduct h (Some x) (Some y) (Some z)) /\
    refused (opk_vaxpby c h (Some x) a (Some y) b (Some z))) /\
  (~ (s1 = s2 /\ s1 = s3 /\ s1 = s4) ->
    refused (opk_vaxpbypcz c h (Some x) a (Some y) b (Some z) g (Some w))).
Proof.
  intros [px Hx] [py Hy] [pz Hz] [pw Hw] refused. unfold refused; clear refused.
  unfold opk_vcopy, opk_vswap, opk_vscale, opk_vdot, opk_vdot3, opk_vproduct, opk_vaxpby, opk_vaxpbypcz, get_vec, optr_eqb.
  rewrite Hx, Hy, Hz, Hw. cbn [v_owner]. split; [|split].
  - intros Hne. assert (Nxy : x <> y) by (intros ->; congruence).
    rewrite ?(eqb_ne _ _ Nxy), ?(eqb_ne y x), ?(eqb_ne s2 s1) by congruence. repeat split.
  - intros Hne. destruct (Nat.eqb_spec s2 s1) as [E2|E2]; [|repeat split].
    destruct (Nat.eqb_spec s3 s1) as [E3|E3]; [|repeat split]. exfalso; apply Hne; auto.
  - intros Hne. destruct (Nat.eqb_spec s2 s1) as [E2|E2]; [|reflexivity].
    destruct (Nat.eqb_spec s3 s1) as [E3|E3]; [|reflexivity].
    destruct (Nat.eqb_spec s4 s1) as [E4|E4]; [|reflexivity]. exfalso; apply Hne; auto.
Qed.

Lemma projections_refused (h : heap) dst x d set b sd sx sdir orient :
  in_space h dst sd -> in_space h x sx -> in_space h d sdir -> h_box h set = Some b ->
  (sd <> b_space b \/ sx <> b_space b ->
     opk_project_variables c h (Some dst) (Some x) (Some set) = Some (BAD_SPACE, h)) /\
  (sd <> b_space b \/ sx <> b_space b \/ sdir <> b_space b ->
     opk_project_direction c h (Some dst) (Some x) (Some set) (Some d) orient = Some (BAD_SPACE, h) /\
     opk_get_free_variables c h (Some dst) (Some x) (Some set) (Some d) orient = Some (BAD_SPACE, h)) /\
  (sx <> b_space b \/ sdir <> b_space b ->
     opk_get_step_limits c h (Some x) (Some set) (Some d) orient = Some (BAD_SPACE, None)).
Proof.
  intros [pd Hd] [px Hx] [pdir Hdir] Hb.
  unfold opk_project_variables, opk_project_direction, opk_get_free_variables, opk_get_step_limits, get_vec, get_box.
  rewrite Hd, Hx, Hdir, Hb. cbn [v_owner].
  destruct (Nat.eqb_spec sd (b_space b)), (Nat.eqb_spec sx (b_space b)), (Nat.eqb_spec sdir (b_space b)); cbn [negb orb];
    (split; [|split]); intros Q; try (split; reflexivity); try reflexivity; exfalso; tauto.
Qed.

Lemma projections_null (h : heap) (dst x set d : optr) orient :
  (dst = None \/ x = None \/ set = None -> opk_project_variables c h dst x set = Some (ILLEGAL_ADDRESS, h)) /\
  (dst = None \/ x = None \/ set = None \/ d = None ->
     opk_project_direction c h dst x set d orient = Some (ILLEGAL_ADDRESS, h) /\
     opk_get_free_variables c h dst x set d orient = Some (ILLEGAL_ADDRESS, h)) /\
  (x = None \/ set = None \/ d = None -> opk_get_step_limits c h x set d orient = Some (ILLEGAL_ADDRESS, None)).
Proof.
  unfold opk_project_variables, opk_project_direction, opk_get_free_variables, opk_get_step_limits.
  destruct dst, x, set, d; (split; [|split]); intros Q; try (split; reflexivity); try reflexivity;
    exfalso; repeat destruct Q as [Q|Q]; discriminate.
Qed.
End Final.

Section FinalF.
Variables prec emax : Z.
Context (Hp : Prec_gt_0 prec) (Hm : Prec_lt_emax prec emax) {D : Num}.
Notation E := (NumF prec emax Hp Hm).
Variable c : Cast D E.
Hypothesis Hc : unit_cast prec emax Hp Hm c.
Notation "x ⊕ y" := (@Bplus prec emax Hp Hm mode_NE x y) (at level 50, left associativity).
Notation "x ⊗ y" := (@Bmult prec emax Hp Hm mode_NE x y) (at level 40, left associativity).
Notation eqz := (eqz prec emax).
Notation fin l := (forall i a, nth_error l i = Some a -> is_finite a = true).

Lemma lincomb_F (h : heap D E) dst x y z s n pd px py pz ld (lx ly lz : list (binary_float prec emax)) alpha beta gamma :
  is_vector h dst s n pd ld -> is_vector h x s n px lx -> is_vector h y s n py ly -> is_vector h z s n pz lz ->
  same_or_apart pd px n -> same_or_apart pd py n -> same_or_apart pd pz n ->
  fin lx -> fin ly -> fin lz ->
  (exists h' r, opk_vscale c h (Some dst) alpha (Some x) = Some (OK, h') /\ writes h dst r h' /\
    forall i a b, nth_error lx i = Some a -> nth_error r i = Some b -> eqz b (dn c alpha ⊗ a)) /\
  (exists h' r, opk_vaxpby c h (Some dst) alpha (Some x) beta (Some y) = Some (OK, h') /\ writes h dst r h' /\
    forall i a1 a2 b, nth_error lx i = Some a1 -> nth_error ly i = Some a2 -> nth_error r i = Some b ->
      eqz b (dn c alpha ⊗ a1 ⊕ dn c beta ⊗ a2)) /\
  (exists h' r, opk_vaxpbypcz c h (Some dst) alpha (Some x) beta (Some y) gamma (Some z) = Some (OK, h') /\ writes h dst r h' /\
    forall i a1 a2 a3 b, nth_error lx i = Some a1 -> nth_error ly i = Some a2 -> nth_error lz i = Some a3 -> nth_error r i = Some b ->
      eqz b (dn c alpha ⊗ a1 ⊕ dn c beta ⊗ a2 ⊕ dn c gamma ⊗ a3)).
Proof.
  intros Hd Hx Hy Hz Sx Sy Sz Fx Fy Fz.
  assert (Lx := proj1 (proj2 (proj2 Hx))). assert (Ly := proj1 (proj2 (proj2 Hy))). assert (Lz := proj1 (proj2 (proj2 Hz))).
  split; [|split].
  - destruct (vscale_ok c h dst x s n pd px ld lx alpha Hd Hx Sx) as (h' & E1 & W).
    exists h', (lc1 c alpha lx n). split; [exact E1|]. split; [exact W|].
    intros i a b Ha Hb. exact (lc1_F prec emax Hp Hm c Hc alpha lx n i a b Lx (Fx i a Ha) Ha Hb).
  - destruct (vaxpby_ok c h dst x y s n pd px py ld lx ly alpha beta Hd Hx Hy Sx Sy) as (h' & E1 & W).
    exists h', (lc2 c alpha lx beta ly n). split; [exact E1|]. split; [exact W|].
    intros i a b e Ha Hb He. exact (lc2_F prec emax Hp Hm c Hc alpha lx beta ly n i a b e Lx Ly (Fx i a Ha) (Fy i b Hb) Ha Hb He).
  - destruct (vaxpbypcz_ok c h dst x y z s n pd px py pz ld lx ly lz alpha beta gamma Hd Hx Hy Hz Sx Sy Sz) as (h' & E1 & W).
    exists h', (lc3 c alpha lx beta ly gamma lz n). split; [exact E1|]. split; [exact W|].
    intros i a b e r Ha Hb He Hr. exact (lc3_F prec emax Hp Hm c Hc alpha lx beta ly gamma lz n i a b e r Lx Ly Lz (Fx i a Ha) (Fy i b Hb) (Fz i e He) Ha Hb He Hr).
Qed.
End FinalF.

Section FinalR.
Variables H I : R.
Notation N := (NumR H I).
Notation c := (cast_id N).
Local Open Scope R_scope.

Lemma vscale_exact (h : heap N N) dst x s n pd px ld lx (alpha : R) :
  is_vector h dst s n pd ld -> is_vector h x s n px lx -> same_or_apart pd px n ->
  exists h', opk_vscale c h (Some dst) alpha (Some x) = Some (OK, h') /\
             writes h dst (map (fun a => alpha * a)%R (lx : list R)) h'.
Proof.
  intros Hd Hx Sx. destruct (vscale_ok c h dst x s n pd px ld lx alpha Hd Hx Sx) as (h' & E1 & W).
  exists h'. split; [exact E1|]. rewrite lc1_R in W; [exact W|]. exact (proj1 (proj2 (proj2 Hx))).
Qed.

Lemma vaxpby_exact (h : heap N N) dst x y s n pd px py ld lx ly (alpha beta : R) :
  is_vector h dst s n pd ld -> is_vector h x s n px lx -> is_vector h y s n py ly ->
  same_or_apart pd px n -> same_or_apart pd py n ->
  exists h', opk_vaxpby (cast_id _) h (Some dst) alpha (Some x) beta (Some y) = Some (OK, h') /\
             writes h dst (map2 (fun a b => alpha * a + beta * b)%R (lx : list R) (ly : list R)) h'.
Proof.
  intros Hd Hx Hy Sx Sy. destruct (vaxpby_ok c h dst x y s n pd px py ld lx ly alpha beta Hd Hx Hy Sx Sy) as (h' & E1 & W).
  exists h'. split; [exact E1|]. rewrite lc2_R in W; [exact W| |].
  - exact (proj1 (proj2 (proj2 Hx))).
  - exact (proj1 (proj2 (proj2 Hy))).
Qed.

Lemma vaxpbypcz_exact (h : heap N N) dst x y z s n pd px py pz ld lx ly lz (alpha beta gamma : R) :
  is_vector h dst s n pd ld -> is_vector h x s n px lx -> is_vector h y s n py ly -> is_vector h z s n pz lz ->
  same_or_apart pd px n -> same_or_apart pd py n -> same_or_apart pd pz n ->
  exists h', opk_vaxpbypcz (cast_id _) h (Some dst) alpha (Some x) beta (Some y) gamma (Some z) = Some (OK, h') /\
             writes h dst (map3 (fun a b e => alpha * a + beta * b + gamma * e)%R (lx : list R) (ly : list R) (lz : list R)) h'.
Proof.
  intros Hd Hx Hy Hz Sx Sy Sz.
  destruct (vaxpbypcz_ok c h dst x y z s n pd px py pz ld lx ly lz alpha beta gamma Hd Hx Hy Hz Sx Sy Sz) as (h' & E1 & W).
  exists h'. split; [exact E1|]. rewrite lc3_R in W; [exact W| | |].
  - exact (proj1 (proj2 (proj2 Hx))).
  - exact (proj1 (proj2 (proj2 Hy))).
  - exact (proj1 (proj2 (proj2 Hz))).
Qed.

Lemma dot_values (h : heap N N) w x y s n pw px py (lw lx ly : list R) :
  is_vector h w s n pw lw -> is_vector h x s n px lx -> is_vector h y s n py ly ->
  opk_vdot c h (Some x) (Some y) = Some (OK, rsum (map2 Rmult lx ly)) /\
  opk_vdot3 c h (Some w) (Some x) (Some y) = Some (OK, rsum (map3 (fun a b e => a * b * e) lw lx ly)) /\
  opk_vnorm1 c h (Some x) = Some (rsum (map Rabs lx)) /\
  opk_vnorm2 c h (Some x) = Some (R_sqrt.sqrt (rsum (map (fun a => a * a) lx))) /\
  exists m, opk_vnorminf c h (Some x) = Some m /\
    (forall a, In a lx -> Rabs a <= m) /\ (lx = [] -> m = 0) /\ (lx <> [] -> exists a, In a lx /\ Rabs a = m).
Proof.
  intros Hw Hx Hy. repeat split.
  - rewrite (vdot_ok c h x y s n px py lx ly Hx Hy). rewrite dot_R. reflexivity.
  - rewrite (vdot3_ok c h w x y s n pw px py lw lx ly Hw Hx Hy). rewrite dot3_R. reflexivity.
  - unfold opk_vnorm1. rewrite (vnorm_ok _ h x s n px lx Hx). rewrite norm1_R. reflexivity.
  - unfold opk_vnorm2. rewrite (vnorm_ok _ h x s n px lx Hx). rewrite norm2_R. reflexivity.
  - exists (rmax (map Rabs lx)). split.
    + unfold opk_vnorminf. rewrite (vnorm_ok _ h x s n px lx Hx). rewrite norminf_R. reflexivity.
    + destruct (rmax_spec lx) as [R1 R2]. split; [exact R1|]. split; [intros ->; reflexivity|exact R2].
Qed.

Lemma dot_laws (h : heap N N) x y z s n px py pz (lx ly lz : list R) (a b : R) dxy dyx dzy dxx n1 n2 n2y ni dlin h' pd dst ld :
  is_vector h x s n px lx -> is_vector h y s n py ly -> is_vector h z s n pz lz ->
  is_vector h dst s n pd ld -> same_or_apart pd px n -> same_or_apart pd pz n ->
  (forall bl o, in_area pd n bl o -> ~ in_area py n bl o) ->
  opk_vdot c h (Some x) (Some y) = Some (OK, dxy) -> opk_vdot c h (Some y) (Some x) = Some (OK, dyx) ->
  opk_vdot c h (Some z) (Some y) = Some (OK, dzy) -> opk_vdot c h (Some x) (Some x) = Some (OK, dxx) ->
  opk_vnorm1 c h (Some x) = Some n1 -> opk_vnorm2 c h (Some x) = Some n2 -> opk_vnorminf c h (Some x) = Some ni ->
  opk_vnorm2 c h (Some y) = Some n2y ->
  opk_vaxpby c h (Some dst) a (Some x) b (Some z) = Some (OK, h') ->
  opk_vdot c h' (Some dst) (Some y) = Some (OK, dlin) ->
  dxy = dyx /\ dlin = a * dxy + b * dzy /\ n2 * n2 = dxx /\ 0 <= ni <= n2 /\ n2 <= n1 /\ Rabs dxy <= n2 * n2y /\
  (n2 = 0 -> forall i e, nth_error lx i = Some e -> e = 0).
Proof.
  intros Hx Hy Hz Hd Sx Sz Sy E1 E2 E3 E4 E5 E6 E7 E8 E9 E10.
  assert (Lx : length lx = n) by exact (proj1 (proj2 (proj2 Hx))).
  assert (Ly : length ly = n) by exact (proj1 (proj2 (proj2 Hy))).
  assert (Lz : length lz = n) by exact (proj1 (proj2 (proj2 Hz))).
  rewrite (vdot_ok c h x y s n px py lx ly Hx Hy), dot_R in E1. injection E1 as <-.
  rewrite (vdot_ok c h y x s n py px ly lx Hy Hx), dot_R in E2. injection E2 as <-.
  rewrite (vdot_ok c h z y s n pz py lz ly Hz Hy), dot_R in E3. injection E3 as <-.
  rewrite (vdot_ok c h x x s n px px lx lx Hx Hx), dot_R in E4. injection E4 as <-.
  unfold opk_vnorm1, opk_vnorm2, opk_vnorminf in *.
  rewrite (vnorm_ok _ h x s n px lx Hx), norm1_R in E5. injection E5 as <-.
  rewrite (vnorm_ok _ h x s n px lx Hx), norm2_R in E6. injection E6 as <-.
  rewrite (vnorm_ok _ h x s n px lx Hx), norminf_R in E7. injection E7 as <-.
  rewrite (vnorm_ok _ h y s n py ly Hy), norm2_R in E8. injection E8 as <-.
  destruct (vaxpby_exact h dst x z s n pd px pz ld lx lz a b Hd Hx Hz Sx Sz) as (h1 & E9' & W).
  rewrite E9 in E9'. injection E9' as <-.
  assert (Hy' := writes_frame h h' dst _ y s n py ly s n pd W Hy (proj1 Hd) (proj1 (proj2 Hd)) Sy).
  destruct W as (s0 & n0 & p0 & l0 & V0 & V1 & _).
  destruct V0 as (V01 & V02 & _). destruct Hd as (D1 & D2 & _). rewrite D1 in V01. injection V01 as <- <-. rewrite D2 in V02. injection V02 as <-.
  rewrite (vdot_ok c h' dst y s n pd py _ ly V1 Hy'), dot_R in E10. injection E10 as <-.
  split; [apply dot_sym|]. split; [apply dot_linear; congruence|].
  split; [rewrite sqrt_sqrt by apply sumsq_pos; symmetry; apply sumsq_dot|].
  split; [split; [|apply norminf_le_norm2]|].
  { clear. induction lx as [|e l IH]; simpl; [lra|]. unfold Rmax. destruct Rle_dec; [lra|]. apply Rabs_pos. }
  split; [apply norm2_le_norm1|]. split; [apply cauchy_schwarz_norm; congruence|].
  intros Hz0 i e He. apply sqrt_eq_0 in Hz0; [|apply sumsq_pos]. apply sumsq_zero in Hz0.
  rewrite Forall_forall in Hz0. apply Hz0. eapply nth_error_In; eauto.
Qed.
End FinalR.
