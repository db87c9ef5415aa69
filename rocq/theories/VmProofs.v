(** * Proofs about the quasi-Newton optimizer: invariants, any arithmetic *)
From Coq Require Import List ZArith Bool Arith Lia.
From Verif Require Import Num VecModel Base LsModel LsSpec LsProofs LsOrd ListFacts OptSpace VmModel VmSpec.
Import ListNotations.

(** ** Arrays *)
Section Arrays.
Context {A : Type}.
Implicit Types (l : list A) (k i : Z).

Lemma nthZ_ok l k : (0 <= k < Z.of_nat (length l))%Z -> exists a, nthZ l k = Some a.
Proof.
  intros H. unfold nthZ. destruct (Z.ltb_spec k 0); [lia|]. apply nth_error_Some_ex. lia.
Qed.
Lemma set_nat_ok l j a : (j < length l)%nat -> exists l', set_nat l j a = Some l' /\ length l' = length l /\
  forall i : nat, nth_error l' i = if (i =? j)%nat then Some a else nth_error l i.
Proof.
  revert j. induction l as [|b l IH]; intros j H; [simpl in H; lia|]. destruct j as [|j].
  - exists (a :: l). split; [reflexivity|]. split; [reflexivity|]. intros [|i]; reflexivity.
  - simpl in H. destruct (IH j) as (l' & E & L & Q); [lia|]. exists (b :: l'). simpl. rewrite E. split; [reflexivity|]. split; [simpl; lia|].
    intros [|i]; [reflexivity|]. simpl. apply Q.
Qed.
Lemma setZ_ok l k a : (0 <= k < Z.of_nat (length l))%Z -> exists l', setZ l k a = Some l' /\ length l' = length l /\
  forall i, nthZ l' i = if (i =? k)%Z then Some a else nthZ l i.
Proof.
  intros H. unfold setZ. destruct (Z.ltb_spec k 0); [lia|]. destruct (set_nat_ok l (Z.to_nat k) a) as (l' & E & L & Q); [lia|].
  exists l'. split; [exact E|]. split; [exact L|]. intros i. unfold nthZ. destruct (Z.eqb_spec i k) as [->|Hi].
  - destruct (Z.ltb_spec k 0); [lia|]. rewrite Q, Nat.eqb_refl. reflexivity.
  - destruct (Z.ltb_spec i 0); [reflexivity|]. rewrite Q. destruct (Nat.eqb_spec (Z.to_nat i) (Z.to_nat k)); [lia|reflexivity].
Qed.
Lemma setZ_some l k a l' : setZ l k a = Some l' -> length l' = length l /\
  forall i, nthZ l' i = if (i =? k)%Z then Some a else nthZ l i.
Proof.
  intros E. assert (H : (0 <= k < Z.of_nat (length l))%Z).
  { unfold setZ in E. destruct (Z.ltb_spec k 0); [discriminate|]. split; [lia|].
    assert (G : forall l j l', set_nat l j a = Some l' -> (j < length l)%nat).
    { clear. induction l as [|b l IH]; intros [|j] l' E; simpl in *; try discriminate; [lia|]. destruct (set_nat l j a) eqn:F; [|discriminate]. apply IH in F. lia. }
    apply G in E. lia. }
  destruct (setZ_ok l k a H) as (l1 & E1 & L & Q). rewrite E in E1. injection E1 as <-. auto.
Qed.
End Arrays.

Section Inv.
Context {N : Num} {S : Space N}.
Implicit Types (o : vm S) (b : lbfgs S) (x g d w : S).

(** ** Slots *)
Lemma slot_mod m b j : (1 <= m)%Z -> (j <= b_updates b)%Z -> slot m b j = ((b_updates b - j) mod m)%Z.
Proof. intros Hm Hj. unfold slot. apply Z.rem_mod_nonneg; lia. Qed.
Lemma slot_range m b j : (1 <= m)%Z -> (j <= b_updates b)%Z -> (0 <= slot m b j < m)%Z.
Proof. intros Hm Hj. rewrite slot_mod by assumption. apply Z.mod_pos_bound. lia. Qed.
Lemma slot_neq m b i j : (1 <= m)%Z -> (i < j)%Z -> (j - i < m)%Z -> (j <= b_updates b)%Z -> slot m b i <> slot m b j.
Proof.
  intros Hm Hij Hd Hj E. rewrite !slot_mod in E by lia. set (u := b_updates b) in *.
  pose proof (Z.div_mod (u - i) m ltac:(lia)) as E1. pose proof (Z.div_mod (u - j) m ltac:(lia)) as E2. rewrite E in E1.
  set (q1 := ((u - i) / m)%Z) in *. set (q2 := ((u - j) / m)%Z) in *.
  assert (X : (j - i = m * (q1 - q2))%Z) by lia. destruct (Z_le_gt_dec (q1 - q2) 0); nia.
Qed.
(** The pair j becomes the pair j+1. *)
Lemma slot_shift m b b' j : b_updates b' = (b_updates b + 1)%Z -> slot m b' (j + 1) = slot m b j.
Proof. intros E. unfold slot. rewrite E. f_equal. lia. Qed.
Lemma slot_same m b b' j : b_updates b' = b_updates b -> slot m b' j = slot m b j.
Proof. intros E. unfold slot. rewrite E. reflexivity. Qed.

(** ** Invariant *)
Record lb_ok (m : Z) (b : lbfgs S) : Prop := {
  lbo_m : (1 <= m)%Z;
  lbo_s : Z.of_nat (length (b_s b)) = m;
  lbo_y : Z.of_nat (length (b_y b)) = m;
  lbo_a : Z.of_nat (length (b_alpha b)) = m;
  lbo_r : Z.of_nat (length (b_rho b)) = m;
  lbo_mp : (0 <= b_mp b <= m)%Z;
  lbo_u : (b_mp b <= b_updates b)%Z
}.

(** s_j = x_{j-1} - x_j, ... where x_0, x_1, ... are the most recent points *)
Definition pair_of (p q : S * S) : S * S :=
  (vaxpby (nZ 1) (fst p) (nZ (-1)) (fst q), vaxpby (nZ 1) (snd p) (nZ (-1)) (snd q)).
Definition pairs_ok (m : Z) (b : lbfgs S) (pts : list (S * S)) : Prop :=
  forall j, (1 <= j <= b_mp b)%Z -> exists p q,
    nth_error pts (Z.to_nat (j - 1)) = Some p /\ nth_error pts (Z.to_nat j) = Some q /\
    nthZ (b_s b) (slot m b j) = Some (fst (pair_of p q)) /\ nthZ (b_y b) (slot m b j) = Some (snd (pair_of p q)).

(** What the recursion does not change. *)
Definition lb_frame (b b' : lbfgs S) : Prop :=
  b_s b' = b_s b /\ b_y b' = b_y b /\ b_mp b' = b_mp b /\ b_updates b' = b_updates b /\
  length (b_alpha b') = length (b_alpha b) /\ length (b_rho b') = length (b_rho b).
Lemma lb_frame_refl b : lb_frame b b.
Proof. repeat split. Qed.
Lemma lb_frame_trans b1 b2 b3 : lb_frame b1 b2 -> lb_frame b2 b3 -> lb_frame b1 b3.
Proof. unfold lb_frame. intros (A1 & A2 & A3 & A4 & A5 & A6) (B1 & B2 & B3 & B4 & B5 & B6). repeat split; congruence. Qed.
Lemma lb_frame_ok m b b' : lb_frame b b' -> lb_ok m b -> lb_ok m b'.
Proof. intros (A1 & A2 & A3 & A4 & A5 & A6) []. split; try (rewrite ?A1, ?A2, ?A3, ?A4, ?A5, ?A6; auto; fail); lia. Qed.
Lemma lb_frame_pairs m b b' pts : lb_frame b b' -> pairs_ok m b pts -> pairs_ok m b' pts.
Proof.
  intros (A1 & A2 & A3 & A4 & _) P j Hj. rewrite A3 in Hj. rewrite A1, A2, (slot_same m b b' j A4). apply P. exact Hj.
Qed.

(** ** The recursion *)
Lemma loop_down_ok m k j b d res : lb_ok m b -> (1 <= j)%Z -> (j + Z.of_nat k <= b_updates b + 1)%Z ->
  exists b' d' res', loop_down m k j b d res = Some (b', d', res') /\ lb_frame b b'.
Proof.
  revert j b d res. induction k as [|k IH]; intros j b d res L Hj Hk.
  - exists b, d, res. split; [reflexivity|apply lb_frame_refl].
  - cbn [loop_down]. pose proof (slot_range m b j (lbo_m _ _ L) ltac:(lia)) as Hs. set (i := slot m b j) in *.
    destruct (nthZ_ok (b_rho b) i) as (rho & ->); [rewrite (lbo_r _ _ L); lia|]. destruct (nlt (nZ 0) rho).
    + destruct (nthZ_ok (b_s b) i) as (s & ->); [rewrite (lbo_s _ _ L); lia|]. destruct (nthZ_ok (b_y b) i) as (y & ->); [rewrite (lbo_y _ _ L); lia|].
      destruct (setZ_ok (b_alpha b) i (rho * vdot d s)%num) as (al & -> & La & _); [rewrite (lbo_a _ _ L); lia|].
      assert (F : lb_frame b (set_alpha b al)) by (repeat split; simpl; auto).
      edestruct (IH (j + 1)%Z (set_alpha b al)) as (b' & d' & r' & E & F'); [eapply lb_frame_ok; eauto|lia|simpl; lia|].
      exists b', d', r'. split; [exact E|]. eapply lb_frame_trans; eauto.
    + apply IH; auto; lia.
Qed.

Lemma loop_down_free_ok m w k j b d res : lb_ok m b -> (1 <= j)%Z -> (j + Z.of_nat k <= b_updates b + 1)%Z ->
  exists b' d' res', loop_down_free m w k j b d res = Some (b', d', res') /\ lb_frame b b'.
Proof.
  revert j b d res. induction k as [|k IH]; intros j b d res L Hj Hk.
  - exists b, d, res. split; [reflexivity|apply lb_frame_refl].
  - cbn [loop_down_free]. pose proof (slot_range m b j (lbo_m _ _ L) ltac:(lia)) as Hs. set (i := slot m b j) in *.
    destruct (nthZ_ok (b_s b) i) as (s & ->); [rewrite (lbo_s _ _ L); lia|]. destruct (nthZ_ok (b_y b) i) as (y & ->); [rewrite (lbo_y _ _ L); lia|].
    destruct (nle (vdot3 w y s) (nZ 0)).
    + destruct (setZ_ok (b_rho b) i (nZ 0)) as (rh & -> & Lr & _); [rewrite (lbo_r _ _ L); lia|].
      assert (F : lb_frame b (set_rho b rh)) by (repeat split; simpl; auto).
      edestruct (IH (j + 1)%Z (set_rho b rh)) as (b' & d' & r' & E & F'); [eapply lb_frame_ok; eauto|lia|simpl; lia|].
      exists b', d', r'. split; [exact E|]. eapply lb_frame_trans; eauto.
    + set (r := (nZ 1 / vdot3 w y s)%num). cbv zeta.
      destruct (setZ_ok (b_rho b) i r) as (rh & -> & Lr & _); [rewrite (lbo_r _ _ L); lia|].
      destruct (setZ_ok (b_alpha b) i (r * vdot3 w d s)%num) as (al & -> & La & _); [rewrite (lbo_a _ _ L); lia|].
      match goal with |- context [loop_down_free m w k _ ?bb _ _] => assert (F : lb_frame b bb) end.
      { destruct (neq _ _); repeat split; simpl; auto. }
      match goal with |- context [loop_down_free m w k _ ?bb ?dd ?rr] => destruct (IH (j + 1)%Z bb dd rr) as (b' & d' & r' & E & F') end.
      { eapply lb_frame_ok; eauto. } { lia. } { destruct F as (_ & _ & _ & -> & _). lia. }
      exists b', d', r'. split; [exact E|]. eapply lb_frame_trans; eauto.
Qed.

Lemma loop_up_ok m dot k b d : lb_ok m b -> (Z.of_nat k <= b_updates b)%Z -> exists d', loop_up m dot k b d = Some d'.
Proof.
  revert d. induction k as [|k IH]; intros d L Hk; [exists d; reflexivity|].
  cbn [loop_up]. pose proof (slot_range m b (Z.of_nat (Datatypes.S k)) (lbo_m _ _ L) ltac:(lia)) as Hs. set (i := slot m b _) in *.
  destruct (nthZ_ok (b_rho b) i) as (rho & ->); [rewrite (lbo_r _ _ L); lia|]. destruct (nlt (nZ 0) rho); [|apply IH; auto; lia].
  destruct (nthZ_ok (b_s b) i) as (s & ->); [rewrite (lbo_s _ _ L); lia|]. destruct (nthZ_ok (b_y b) i) as (y & ->); [rewrite (lbo_y _ _ L); lia|].
  destruct (nthZ_ok (b_alpha b) i) as (a & ->); [rewrite (lbo_a _ _ L); lia|]. apply IH; auto; lia.
Qed.

Lemma apply_ok m method w b g : lb_ok m b -> exists b' d st, vm_apply m method w b g = Some (b', d, st) /\ lb_frame b b'.
Proof.
  intros L. pose proof (lbo_mp _ _ L). pose proof (lbo_u _ _ L). unfold vm_apply. destruct (is_vmlmb method).
  - assert (F0 : lb_frame b (set_gamma b (nZ 0))) by (repeat split).
    destruct (loop_down_free_ok m w (Z.to_nat (b_mp b)) 1 (set_gamma b (nZ 0)) g NOT_POSITIVE_DEFINITE) as (b' & d & res & -> & F).
    { eapply lb_frame_ok; eauto. } { lia. } { cbn [b_updates set_gamma]; lia. }
    pose proof (lb_frame_trans _ _ _ F0 F) as F1.
    destruct (ok res); [|eauto 10].
    match goal with |- context [loop_up _ ?dot ?k ?b ?d] => destruct (loop_up_ok m dot k b d) as (d' & ->) end.
    { eapply lb_frame_ok; eauto. } { destruct F1 as (_ & _ & _ & -> & _). lia. }
    eauto 10.
  - destruct (loop_down_ok m (Z.to_nat (b_mp b)) 1 b g NOT_POSITIVE_DEFINITE) as (b' & d & res & -> & F).
    { auto. } { lia. } { cbn [b_updates set_gamma]; lia. }
    destruct (ok res); [|eauto 10].
    match goal with |- context [loop_up _ ?dot ?k ?b ?d] => destruct (loop_up_ok m dot k b d) as (d' & ->) end.
    { eapply lb_frame_ok; eauto. } { destruct F as (_ & _ & _ & -> & _). lia. }
    eauto 10.
Qed.

(** ** Saved point *)

(** [x0], [g0] hold the point [p], and in the save memory mode are at the free slot. *)
Definition saved (o : vm S) (p : S * S) : Prop :=
  get_x0 o = Some (fst p) /\ get_g0 o = Some (snd p) /\
  (c_save (v_cfg o) = true -> v_k0 o = Some (slot (c_m (v_cfg o)) (v_lb o) 0)).

(** [update]: the pairs of the history where the new point has been added *)
Lemma update_ok o x g p pts : let m := c_m (v_cfg o) in lb_ok m (v_lb o) -> saved o p ->
  pairs_ok m (v_lb o) (p :: pts) -> (c_save (v_cfg o) = true -> b_mp (v_lb o) < m)%Z ->
  exists b', vm_update o x g = Some (set_lb o b') /\ lb_ok m b' /\ pairs_ok m b' ((x, g) :: p :: pts) /\
    b_updates b' = (b_updates (v_lb o) + 1)%Z /\ b_mp b' = Z.min m (b_mp (v_lb o) + 1).
Proof.
  intros m L (Hx & Hg & Hk) P Hs. unfold vm_update. fold m. set (b := v_lb o) in *. set (k := slot m b 0).
  pose proof (lbo_mp _ _ L) as Mp. pose proof (lbo_u _ _ L) as Mu. pose proof (lbo_m _ _ L) as M1.
  pose proof (slot_range m b 0 M1 ltac:(lia)) as Rk. fold k in Rk.
  rewrite Hx. destruct (setZ_ok (b_s b) k (vaxpby (nZ 1) x (nZ (-1)) (fst p))) as (s & -> & Ls & Qs); [rewrite (lbo_s _ _ L); lia|].
  cbv zeta. assert (Hg' : get_g0 (set_lb o (set_pair b s (b_y b))) = Some (snd p)) by exact Hg. rewrite Hg'.
  cbn [v_lb set_lb set_pair b_y b_rho b_s b_gamma b_alpha b_mp b_updates].
  destruct (setZ_ok (b_y b) k (vaxpby (nZ 1) g (nZ (-1)) (snd p))) as (y & -> & Ly & Qy); [rewrite (lbo_y _ _ L); lia|].
  match goal with |- context [if is_vmlmb ?a then ?e1 else ?e2] =>
    assert (Hb : exists b1, (if is_vmlmb a then e1 else e2) = Some b1 /\ b_s b1 = s /\ b_y b1 = y /\ b_mp b1 = b_mp b /\ b_updates b1 = b_updates b /\
      length (b_alpha b1) = length (b_alpha b) /\ length (b_rho b1) = length (b_rho b)) end.
  { destruct (is_vmlmb _); [eexists; split; [reflexivity|repeat split]|]. destruct (nle _ _).
    - destruct (setZ_ok (b_rho b) k (nZ 0)) as (rh & -> & Lr & _); [rewrite (lbo_r _ _ L); lia|]. eexists; split; [reflexivity|repeat split; simpl; auto].
    - match goal with |- context [setZ (b_rho b) k ?v] => destruct (setZ_ok (b_rho b) k v) as (rh & -> & Lr & _) end; [rewrite (lbo_r _ _ L); lia|].
      eexists; split; [reflexivity|]. destruct (nlt _ _); repeat split; simpl; auto. }
  destruct Hb as (b1 & -> & E1 & E2 & E3 & E4 & E5 & E6).
  set (mp := if (b_mp b1 <? m)%Z then (b_mp b1 + 1)%Z else b_mp b1).
  set (b' := mkLb (b_gamma b1) (b_s b1) (b_y b1) (b_alpha b1) (b_rho b1) mp (b_updates b1 + 1)).
  exists b'. assert (Eu : b_updates b' = (b_updates b + 1)%Z) by (simpl; lia).
  assert (Emp : (b_mp b' <= b_mp b + 1 /\ 0 <= b_mp b' <= m)%Z).
  { simpl. unfold mp. destruct (Z.ltb_spec (b_mp b1) m); lia. }
  split; [reflexivity|]. split; [|split; [|split; [exact Eu|simpl; unfold mp; fold b; destruct (Z.ltb_spec (b_mp b1) m); lia]]].
  - split; [lia|..]; cbn [b_s b_y b_alpha b_rho b'].
    + rewrite E1, Ls; apply L.
    + rewrite E2, Ly; apply L.
    + rewrite E5; apply L.
    + rewrite E6; apply L.
    + lia.
    + lia.
  - intros j Hj. simpl b_s. simpl b_y. rewrite E1, E2.
    destruct (Z.eq_dec j 1) as [->|Hj1].
    + exists (x, g), p. split; [reflexivity|]. split; [reflexivity|].
      assert (slot m b' 1 = k) as -> by (apply (slot_shift m b b' 0); auto).
      rewrite Qs, Qy, Z.eqb_refl. split; reflexivity.
    + destruct (P (j - 1)%Z) as (p1 & q1 & A1 & A2 & A3 & A4); [lia|]. exists p1, q1.
      replace (Z.to_nat (j - 1)) with (Datatypes.S (Z.to_nat (j - 1 - 1))) by lia. replace (Z.to_nat j) with (Datatypes.S (Z.to_nat (j - 1))) by lia.
      assert (slot m b' j = slot m b (j - 1)) as -> by (rewrite <- (slot_shift m b b' (j - 1)) by exact Eu; f_equal; lia).
      split; [exact A1|]. split; [exact A2|].
      assert (Hne : slot m b (j - 1) <> k).
      { intros X. symmetry in X. revert X. apply slot_neq; lia. }
      rewrite Qs, Qy. destruct (Z.eqb_spec (slot m b (j - 1)) k); [contradiction|]. split; assumption.
Qed.

(** ** The states between the beginning of the computation of a direction and the start of the line search *)
Definition mid o (b : lbfgs S) (d : S) (stp bsmin : N) (r : Z) : vm S :=
  mkVm (v_cfg o) b (v_ls o) (v_x0 o) (v_g0 o) (v_k0 o) d (v_w o) (v_gp o)
       (v_ginit o) (v_f0 o) (v_gnorm o) stp bsmin (v_evals o) (v_iters o) r (v_status o) (v_task o).

(** The history of points after a call with the variables [x] and the (projected) gradient [g]. *)
Definition good_lb (o : vm S) (b : lbfgs S) (pts : list (S * S)) : Prop :=
  lb_ok (c_m (v_cfg o)) b /\ pairs_ok (c_m (v_cfg o)) b pts /\ b_updates b = Z.max 0 (Z.of_nat (length pts) - 1).

Lemma direction_ok o x g pts : good_lb o (v_lb o) pts ->
  (v_iters o >= 1 <-> pts <> [])%Z ->
  (pts = [] \/ exists p pts', pts = p :: pts' /\ saved o p /\ (c_save (v_cfg o) = true -> b_mp (v_lb o) < c_m (v_cfg o))%Z) ->
  exists b d (r : (N + status)%type), vm_direction o x g = Some (mid o b d (v_stp o) (v_bsmin o) (v_restarts o), r) /\
    (good_lb o b ((x, gsave o g) :: pts) /\ b_updates b = Z.of_nat (length pts) /\
     b_mp b = (if (v_iters o >=? 1)%Z then Z.min (c_m (v_cfg o)) (b_mp (v_lb o) + 1) else b_mp (v_lb o))) /\
    match r with inl dtg => (dtg = nZ 0 \/ dtg = (- vdot d g)%num /\
        match c_box (v_cfg o) with Some bx => exists d0, projdir bx x d0 = (SUCCESS, d) | None => True end) | inr _ => True end.
Proof.
  intros (L & P & U) It Sv. unfold vm_direction.
  assert (exists b1, (if (v_iters o >=? 1)%Z then vm_update o x (gsave o g) else Some o) = Some (set_lb o b1) /\ good_lb o b1 ((x, gsave o g) :: pts) /\
    b_updates b1 = Z.of_nat (length pts) /\ b_mp b1 = (if (v_iters o >=? 1)%Z then Z.min (c_m (v_cfg o)) (b_mp (v_lb o) + 1) else b_mp (v_lb o)))
    as (b1 & -> & (L1 & P1 & U1) & U2 & U3).
  { destruct Sv as [->|(p & pts' & -> & Hs & Hm)].
    - destruct (Z.geb_spec (v_iters o) 1) as [G|G]; [exfalso; exact (proj1 It ltac:(lia) eq_refl)|].
      exists (v_lb o). split; [destruct o; reflexivity|]. simpl in U. split; [|simpl; split; [lia|reflexivity]]. split; [exact L|]. split; [|simpl; lia].
      intros j Hj. pose proof (lbo_u _ _ L). lia.
    - destruct (Z.geb_spec (v_iters o) 1) as [G|G].
      2: { exfalso. assert (v_iters o >= 1)%Z; [|lia]. apply (proj2 It). discriminate. }
      destruct (update_ok o x (gsave o g) p pts' L Hs P Hm) as (b1 & -> & L1 & P1 & U1 & U4). exists b1. split; [reflexivity|].
      rewrite U in U1. split; [|simpl length in *; split; [lia|exact U4]]. split; [exact L1|]. split; [exact P1|]. simpl length in *. lia. }
  destruct (apply_ok (c_m (v_cfg o)) (c_method (v_cfg o)) (v_w o) b1 g L1) as (b' & d & st & E & F).
  cbn [v_cfg v_lb v_w set_lb]. rewrite E.
  assert (G : good_lb o b' ((x, gsave o g) :: pts) /\ b_updates b' = Z.of_nat (length pts) /\
     b_mp b' = (if (v_iters o >=? 1)%Z then Z.min (c_m (v_cfg o)) (b_mp (v_lb o) + 1) else b_mp (v_lb o))).
  { split; [split; [|split]|split].
    - eapply lb_frame_ok; eauto. 
    - eapply lb_frame_pairs; eauto.
    - destruct F as (_ & _ & _ & -> & _). exact U1.
    - destruct F as (_ & _ & _ & -> & _). exact U2.
    - destruct F as (_ & _ & -> & _). exact U3. }
  destruct (ok st) eqn:Est.
  - cbn [set_d v_cfg set_lb]. destruct (c_box (v_cfg o)) as [box|] eqn:Ebx.
    + destruct (projdir box x d) as [st2 d2] eqn:Epd. destruct (ok st2) eqn:E2; cbn [negb].
      * eexists _, _, _. split; [reflexivity|]. split; [exact G|]. destruct (_ && _); [left; reflexivity|right; split; [reflexivity|]].
        cbn [v_d set_d]. exists d. rewrite Epd. destruct st2; try discriminate; reflexivity.
      * eexists _, _, _. split; [reflexivity|]. split; [exact G|exact I].
    + cbn [negb ok]. eexists _, _, _. split; [reflexivity|]. split; [exact G|]. destruct (_ && _); [left; reflexivity|right; split; [reflexivity|exact I]].
  - eexists _, _, _. split; [reflexivity|]. split; [exact G|left; reflexivity].
Qed.

Lemma set_mp_good o b pts mp : good_lb o b pts -> (0 <= mp <= b_mp b)%Z -> good_lb o (set_mp b mp) pts.
Proof.
  intros (L & P & U) H. split; [|split; [|exact U]].
  - destruct L. split; auto; simpl; lia.
  - intros j Hj. simpl in Hj. destruct (P j) as (p & q & A); [lia|]. exists p, q. exact A.
Qed.

Lemma steepest_ok o x f g b d stp bsmin r : exists b' d' stp' dtg r',
  vm_steepest (mid o b d stp bsmin r) x f g = (mid o b' d' stp' bsmin r', dtg) /\
  ((b_mp b > 0)%Z /\ b' = set_mp b 0 /\ r' = (r + 1)%Z \/ (b_mp b <= 0)%Z /\ b' = b /\ r' = r) /\
  d' = (match c_method (v_cfg o) with VMLMB => vproduct (v_w o) g | BLMVM => v_gp o | LBFGS => g end) /\
  dtg = (- v_gnorm o * v_gnorm o)%num.
Proof.
  unfold vm_steepest. cbn [v_lb mid]. destruct (Z.gtb_spec (b_mp b) 0).
  - eexists _, _, _, _, _. split; [reflexivity|]. split; [left; split; [lia|auto]|]. split; reflexivity.
  - eexists _, _, _, _, _. split; [reflexivity|]. split; [right; auto|]. split; reflexivity.
Qed.

(** The step limits: [bsmin] is the second one. *)
Definition limits_of (o : vm S) (x d : S) (bsmin : N) : Prop :=
  match c_box (v_cfg o) with Some bx => exists s1 s3, steplim bx x d = (SUCCESS, Some (s1, bsmin, s3)) | None => True end.

Lemma limits_ok o b d stp bsmin r x : box_works (c_box (v_cfg o)) ->
  exists stp' bsmin' (res : (N * N + status)%type), vm_limits (mid o b d stp bsmin r) x = Some (mid o b d stp' bsmin' r, res) /\
    match res with inl _ => limits_of o x d bsmin' | inr _ => True end.
Proof.
  intros W. unfold vm_limits, limits_of. cbn [v_cfg mid v_d]. destruct (c_box (v_cfg o)) as [box|]; [|eexists _, _, _; split; [reflexivity|exact I]].
  destruct (W box eq_refl) as (_ & Sl). destruct (Sl x d) as ([[s1 s2] s3] & E). rewrite E.
  cbn [ok negb]. destruct (nle s3 (nZ 0)); [eexists _, _, _; split; [reflexivity|exact I]|]. eexists _, _, _. split; [reflexivity|]. exists s1, s3. reflexivity.
Qed.

Lemma save_ok o b d stp bsmin r x f g pts : good_lb o b pts ->
  exists x0 g0 k0 b', vm_save (mid o b d stp bsmin r) x f g = Some (set_start (mid o b' d stp bsmin r) x0 g0 k0 f) /\
  good_lb o b' pts /\ b_updates b' = b_updates b /\
  saved (set_start (mid o b' d stp bsmin r) x0 g0 k0 f) (x, gsave o g) /\ (c_save (v_cfg o) = true -> b_mp b' < c_m (v_cfg o))%Z /\
  b_mp b' = if c_save (v_cfg o) then Z.min (b_mp b) (c_m (v_cfg o) - 1) else b_mp b.
Proof.
  intros (L & P & U). unfold vm_save. cbn [v_cfg mid v_lb v_x0 v_g0 v_k0 set_lb]. set (m := c_m (v_cfg o)) in *.
  pose proof (lbo_m _ _ L). pose proof (lbo_mp _ _ L). pose proof (lbo_u _ _ L).
  destruct (c_save (v_cfg o)) eqn:Sv.
  - pose proof (slot_range m b 0 ltac:(lia) ltac:(lia)) as Rk. set (k := slot m b 0) in *.
    destruct (nthZ_ok (b_s b) k) as (? & ->); [rewrite (lbo_s _ _ L); lia|]. destruct (nthZ_ok (b_y b) k) as (? & ->); [rewrite (lbo_y _ _ L); lia|].
    set (b1 := if (b_mp b =? m)%Z then set_mp b (b_mp b - 1) else b).
    assert (G1 : good_lb o b1 pts).
    { unfold b1. destruct (Z.eqb_spec (b_mp b) m); [apply set_mp_good; [split; auto|lia]|split; auto]. }
    assert (E1 : b_s b1 = b_s b /\ b_y b1 = b_y b /\ b_updates b1 = b_updates b /\ (b_mp b1 < m)%Z /\ b_mp b1 = Z.min (b_mp b) (m - 1)).
    { unfold b1. destruct (Z.eqb_spec (b_mp b) m); repeat split; simpl; lia. }
    destruct E1 as (Es & Ey & Eu & Em & Em2). rewrite Es, Ey.
    destruct (setZ_ok (b_s b) k x) as (s & -> & Ls & Qs); [rewrite (lbo_s _ _ L); lia|].
    change (gsave (mid o b d stp bsmin r) g) with (gsave o g).
    destruct (setZ_ok (b_y b) k (gsave o g)) as (y & -> & Ly & Qy); [rewrite (lbo_y _ _ L); lia|].
    exists (v_x0 o), (v_g0 o), (Some k), (set_pair b1 s y). split; [reflexivity|].
    destruct G1 as (L1 & P1 & U1). split; [split; [|split]|split; [|split]].
    + destruct L1. split; auto; simpl; [rewrite Ls; apply L|rewrite Ly; apply L].
    + intros j Hj. cbn [b_mp set_pair] in Hj. destruct (P1 j Hj) as (p & q & A1 & A2 & A3 & A4). exists p, q. cbn [b_s b_y set_pair].
      rewrite (slot_same m b1 (set_pair b1 s y)) by reflexivity. rewrite (slot_same m b b1) in * by exact Eu.
      rewrite Qs, Qy. assert (Hne : slot m b j <> k).
      { intros X. symmetry in X. revert X. pose proof (lbo_u _ _ L1). apply slot_neq; lia. }
      destruct (Z.eqb_spec (slot m b j) k); [contradiction|]. rewrite <- Es, <- Ey. auto.
    + exact U1.
    + exact Eu.
    + assert (Ek : slot m (set_pair b1 s y) 0 = k) by (apply slot_same; exact Eu).
      split; [|split].
      * unfold get_x0. cbn [v_cfg set_start mid v_k0 v_lb b_s set_pair]. rewrite Sv, Qs, Z.eqb_refl. reflexivity.
      * unfold get_g0. cbn [v_cfg set_start mid v_k0 v_lb b_y set_pair]. rewrite Sv, Qy, Z.eqb_refl. reflexivity.
      * intros _. cbn [v_k0 set_start v_cfg mid v_lb]. fold m. rewrite Ek. reflexivity.
    + split; [intros _; exact Em|exact Em2].
  - exists x, (gsave o g), (v_k0 o), b. split; [reflexivity|]. split; [split; auto|]. split; [reflexivity|]. split; [|split; [discriminate|reflexivity]].
    split; [|split].
    + unfold get_x0. cbn [v_cfg set_start mid v_x0]. rewrite Sv. reflexivity.
    + unfold get_g0. cbn [v_cfg set_start mid v_g0]. rewrite Sv. reflexivity.
    + cbn [v_cfg set_start mid]. rewrite Sv. discriminate.
Qed.

(** The trial point x0 - stp*d, projected if a bound may be exceeded. *)
Definition trial_point (o : vm S) (x0 : S) (stp : N) : S :=
  let x := vaxpby (nZ 1) x0 (- stp)%num (v_d o) in
  match c_box (v_cfg o) with Some bx => if nlt (v_bsmin o) stp then snd (projvar bx x) else x | None => x end.

Lemma trial_ok o x p : saved o p -> exists st t, vm_trial o x = Some (set_vtask o st t, trial_point o (fst p) (v_stp o)) /\
  (t = COMPUTE_FG \/ t = ERROR /\ exists bx x', c_box (v_cfg o) = Some bx /\ fst (projvar bx x') <> SUCCESS).
Proof.
  intros (Hx & _). unfold vm_trial, trial_point. rewrite Hx. destruct (c_box (v_cfg o)) as [box|]; [|eexists _, _; split; [reflexivity|auto]].
  destruct (nlt _ _); [|eexists _, _; split; [reflexivity|auto]].
  destruct (projvar box _) as [st x'] eqn:Ep. destruct (ok st) eqn:E; eexists _, _; (split; [reflexivity|]); auto.
  right. split; [reflexivity|]. exists box. eexists. split; [reflexivity|]. rewrite Ep. simpl. intros ->. discriminate.
Qed.

(** ** The invariant *)

(** The members set when a point is accepted. *)
Definition weights (o : vm S) (x g : S) : Prop := forall bx, c_box (v_cfg o) = Some bx -> v_w o = snd (freevar bx x g).
Definition at_accepted (o : vm S) (t : tally S) : Prop :=
  let bm := is_blmvm (c_method (v_cfg o)) in
  v_gnorm o = pgnorm bm (c_box (v_cfg o)) (t_x t) (t_g t) /\ weights o (t_x t) (t_g t) /\
  (bm = true -> v_gp o = pgrad (c_box (v_cfg o)) (t_x t) (t_g t)).

(** The line search in progress. *)
Definition searching (o : vm S) (t : tally S) (p : S * S) : Prop :=
  l_task (v_ls o) = LS_SEARCH /\ l_stp (v_ls o) = v_stp o /\ l_finit (v_ls o) = t_f0 t /\
  nle (nZ 0) (l_ginit (v_ls o)) = false /\ limits_of o (fst p) (v_d o) (v_bsmin o) /\
  (l_ginit (v_ls o) = (- vdot (v_d o) (t_g0 t))%num /\
     match c_box (v_cfg o) with Some bx => exists d0, projdir bx (fst p) d0 = (SUCCESS, v_d o) | None => True end \/
   l_ginit (v_ls o) = (- pgnorm (is_blmvm (c_method (v_cfg o))) (c_box (v_cfg o)) (t_x t) (t_g t) * pgnorm (is_blmvm (c_method (v_cfg o))) (c_box (v_cfg o)) (t_x t) (t_g t))%num /\
   v_d o = match c_box (v_cfg o) with
           | Some bx => if is_blmvm (c_method (v_cfg o)) then pgrad (c_box (v_cfg o)) (t_x t) (t_g t) else vproduct (snd (freevar bx (t_x t) (t_g t))) (t_g0 t)
           | None => t_g0 t end \/ (nZ 0 <? (nZ 0 : N))%num = true).

Definition cfg_ok (cfg : vmcfg S) : Prop := (c_box cfg = None <-> c_method cfg = LBFGS).

Definition vinv (cfg : vmcfg S) (o : vm S) (t : tally S) : Prop :=
  v_cfg o = cfg /\ good_lb o (v_lb o) (t_points t) /\ ls_inv (v_ls o) /\
  v_task o = t_task t /\ v_evals o = t_evals t /\ v_iters o = Z.max 0 (t_accepted t - 1) /\
  (0 <= v_restarts o <= b_updates (v_lb o))%Z /\ (Z.of_nat (length (t_points t)) <= t_accepted t <= t_evals t)%Z /\
  ((1 <= t_accepted t)%Z -> v_ginit o = t_ginit t) /\
  match v_task o with
  | COMPUTE_FG =>
    (t_evals t = 0 /\ t_accepted t = 0 /\ t_points t = [])%Z \/
    (1 <= t_evals t /\ t_accepted t = Z.of_nat (length (t_points t)) /\ exists p pts, t_points t = p :: pts /\ saved o p /\
       (c_save cfg = true -> b_mp (v_lb o) < c_m cfg) /\ searching o t p)%Z
  | NEW_X | FINAL_X =>
    (1 <= t_evals t /\ t_accepted t = Z.of_nat (length (t_points t)) + 1)%Z /\
    (t_points t = [] \/ exists p pts, t_points t = p :: pts /\ saved o p /\ (c_save cfg = true -> b_mp (v_lb o) < c_m cfg)%Z) /\
    at_accepted o t /\ (v_task o = FINAL_X <-> nle (v_gnorm o) (vmax3 (nZ 0) (c_gatol cfg) (c_grtol cfg * t_ginit t)%num) = true)
  | ERROR => True
  | START | WARNING => False
  end.

Lemma new_x_ok cfg o t x f g : cfg_ok cfg -> box_works (c_box cfg) -> vinv cfg o t -> accepted (v_task o) = true ->
  exists o' x', vm_new_x o x f g = Some (o', x') /\ (v_restarts o <= v_restarts o' <= v_restarts o + 1)%Z /\ (v_task o' = COMPUTE_FG \/ v_task o' = ERROR) /\
    (v_task o' = COMPUTE_FG -> x' = trial_point o' x (v_stp o') /\
       let mp1 := if (v_iters o >=? 1)%Z then Z.min (c_m cfg) (b_mp (v_lb o) + 1) else b_mp (v_lb o) in
       let mp2 := if (v_restarts o' =? v_restarts o)%Z then mp1 else 0%Z in
       b_mp (v_lb o') = if c_save cfg then Z.min mp2 (c_m cfg - 1) else mp2) /\
    vinv cfg o' (tally_step (is_blmvm (c_method cfg)) (c_box cfg) t (VIterate x f g) (v_task o')).
Proof.
  intros K W (Ec & G & Il & Et & Ee & Ei & Er & Hc & Hgi & Hm) A.
  assert (Hm' : (1 <= t_evals t /\ t_accepted t = Z.of_nat (length (t_points t)) + 1)%Z /\
    (t_points t = [] \/ exists p pts, t_points t = p :: pts /\ saved o p /\ (c_save cfg = true -> b_mp (v_lb o) < c_m cfg)%Z) /\
    at_accepted o t) by (destruct (v_task o); try discriminate; tauto).
  clear Hm. destruct Hm' as ((H1 & H2) & Hp & (Agn & Aw & Agp)). subst cfg.
  set (pts := t_points t) in *. set (gg := gsave o g). set (bm := is_blmvm (c_method (v_cfg o))) in *.
  assert (Egg : gg = (if bm then pgrad (c_box (v_cfg o)) (t_x t) (t_g t) else g)).
  { unfold gg, gsave. fold bm. destruct bm; auto. }
  assert (TS : forall r, tally_step bm (c_box (v_cfg o)) t (VIterate x f g) r =
    mkTally r (t_evals t) (t_accepted t) (t_x t) (t_g t) (t_ginit t) ((x, gg) :: pts) f g).
  { intros r. unfold tally_step. rewrite <- Et, Egg. destruct (v_task o); try discriminate; reflexivity. }
  unfold vm_new_x.
  destruct (direction_ok o x g pts G) as (b & d & r & -> & (Gb & Ub & Mb) & Hr).
  { rewrite Ei. destruct pts as [|p pts']; simpl length in *; split; intros; try discriminate; try lia. congruence. }
  { destruct Hp as [Hp|(p & pts' & E1 & E2)]; [left; exact Hp|right; exists p, pts'; auto]. }
  fold gg in Gb.
  assert (FAIL : forall o1 st b' d' stp bs r', o1 = mid o b' d' stp bs r' -> good_lb o b' ((x, gg) :: pts) -> (0 <= r' <= b_updates b')%Z ->
    vinv (v_cfg o) (vfailure o1 st) (mkTally ERROR (t_evals t) (t_accepted t) (t_x t) (t_g t) (t_ginit t) ((x, gg) :: pts) f g)).
  { intros o1 st b' d' stp bs r' -> G' R'. split; [reflexivity|]. split; [exact G'|]. split; [exact Il|].
    split; [reflexivity|]. split; [exact Ee|]. split; [exact Ei|]. split; [exact R'|]. split; [simpl length; simpl t_accepted; simpl t_evals; lia|split; [exact Hgi|exact I]]. }
  assert (Ul : b_updates (v_lb o) = Z.max 0 (Z.of_nat (length pts) - 1)) by apply G.
  destruct r as [dtg|st].
  2: { eexists _, _. split; [reflexivity|]. split; [cbn [v_restarts vfailure set_vtask mid]; lia|]. split; [right; reflexivity|]. split; [discriminate|]. rewrite TS. eapply FAIL; [reflexivity|exact Gb|]. lia. }
  set (mp1 := if (v_iters o >=? 1)%Z then Z.min (c_m (v_cfg o)) (b_mp (v_lb o) + 1) else b_mp (v_lb o)) in *.
  assert (exists b1 d1 stp bs r1 dtg1, (if nlt dtg (nZ 0) then (set_steps (mid o b d (v_stp o) (v_bsmin o) (v_restarts o)) (nZ 1) (v_bsmin (mid o b d (v_stp o) (v_bsmin o) (v_restarts o))), dtg)
      else vm_steepest (mid o b d (v_stp o) (v_bsmin o) (v_restarts o)) x f g) = (mid o b1 d1 stp bs r1, dtg1) /\
      good_lb o b1 ((x, gg) :: pts) /\ (0 <= r1 <= b_updates b1)%Z /\ (v_restarts o <= r1 <= v_restarts o + 1)%Z /\
      b_mp b1 = (if (r1 =? v_restarts o)%Z then mp1 else 0)%Z /\
      (nle (nZ 0) dtg1 = false -> (dtg1 = (- vdot d1 g)%num /\ match c_box (v_cfg o) with Some bx => exists d0, projdir bx x d0 = (SUCCESS, d1) | None => True end \/
        nlt dtg1 (nZ 0) = true /\ dtg1 = nZ 0 \/
        dtg1 = (- v_gnorm o * v_gnorm o)%num /\ d1 = match c_method (v_cfg o) with VMLMB => vproduct (v_w o) g | BLMVM => v_gp o | LBFGS => g end)))
    as (b1 & d1 & stp & bs & r1 & dtg1 & -> & G1 & R1 & R2 & M1 & D1).
  { destruct (nlt dtg (nZ 0)) eqn:Edtg.
    - eexists b, d, _, _, (v_restarts o), _. split; [reflexivity|]. split; [exact Gb|]. split; [lia|]. split; [lia|]. split; [rewrite Z.eqb_refl; exact Mb|].
      intros _. destruct Hr as [->|Hr]; [right; left; auto|left; exact Hr].
    - destruct (steepest_ok o x f g b d (v_stp o) (v_bsmin o) (v_restarts o)) as (b' & d' & stp & dtg' & r' & -> & C & Ed' & Edt').
      eexists b', d', _, _, r', _. split; [reflexivity|]. pose proof (lbo_u _ _ (proj1 Gb)). pose proof (lbo_mp _ _ (proj1 Gb)).
      destruct C as [(C1 & -> & ->)|(C1 & -> & ->)].
      + split; [apply set_mp_good; [exact Gb|lia]|]. cbn [b_updates set_mp b_mp]. split; [lia|]. split; [lia|].
        destruct (Z.eqb_spec (v_restarts o + 1) (v_restarts o)); [lia|]. split; [reflexivity|]. intros _. right. right. auto.
      + split; [exact Gb|]. split; [lia|]. split; [lia|]. rewrite Z.eqb_refl. split; [exact Mb|]. intros _. right. right. auto. }
  destruct (limits_ok o b1 d1 stp bs r1 x W) as (stp' & bs' & res & -> & Lim).
  destruct res as [[smin smax]|st].
  2: { eexists _, _. split; [reflexivity|]. split; [exact R2|]. split; [right; reflexivity|]. split; [discriminate|]. rewrite TS. eapply FAIL; [reflexivity|exact G1|]. exact R1. }
  destruct (save_ok o b1 d1 stp' bs' r1 x f g _ G1) as (x0 & g0 & k0 & b2 & -> & G2 & U2 & Sv & M2 & M3).
  set (o2 := set_start (mid o b2 d1 stp' bs' r1) x0 g0 k0 f) in *.
  destruct (start_cases (v_ls o2) f dtg1 (v_stp o2) smin smax Il) as (l & El & Il' & _). rewrite El.
  assert (V : forall st tk, (tk = ERROR \/ tk = COMPUTE_FG /\ l_task l = LS_SEARCH) -> vinv (v_cfg o) (set_vtask (set_lnsrch o2 l) st tk)
    (mkTally tk (t_evals t) (t_accepted t) (t_x t) (t_g t) (t_ginit t) ((x, gg) :: pts) f g)).
  { intros st tk Htk. split; [reflexivity|]. split; [exact G2|]. split; [exact Il'|].
    split; [reflexivity|]. split; [exact Ee|]. split; [exact Ei|]. split; [cbn [v_restarts set_vtask set_lnsrch set_start mid o2 v_lb]; lia|].
    split; [simpl length; simpl t_accepted; simpl t_evals; lia|]. split; [exact Hgi|].
    destruct Htk as [->|(-> & Hs)]; cbn [v_task set_vtask]; [exact I|]. right. cbn [t_evals t_accepted t_points]. split; [lia|]. split; [simpl length; lia|].
    exists (x, gg), pts. split; [reflexivity|]. split; [exact Sv|]. split; [exact M2|].
    destruct (start_values (v_ls o2) f dtg1 (v_stp o2) smin smax l El Hs) as ((_ & _ & _ & _ & S5) & (_ & S6 & _ & _ & S7 & S8) & _).
    split; [exact Hs|]. split; [exact S6|]. split; [exact S7|]. cbn [v_ls set_vtask set_lnsrch]. rewrite S8. split; [exact S5|]. split; [exact Lim|].
    cbn [v_d v_cfg set_vtask set_lnsrch o2 set_start mid fst]. fold bm.
    destruct (D1 S5) as [D|[(D2 & D3)|(D2 & D3)]]; [left; exact D| |].
    - right. right. rewrite D3 in D2. exact D2.
    - right. left. rewrite D2, D3. cbn [v_gnorm mid]. rewrite Agn. fold bm. split; [reflexivity|]. cbn [t_x t_g t_g0].
      unfold cfg_ok in K. unfold bm, weights in *. destruct (c_method (v_cfg o)) eqn:Em; cbn [is_blmvm] in *.
      + rewrite (proj2 K eq_refl). reflexivity.
      + destruct (c_box (v_cfg o)) as [bx|]; [|pose proof (proj1 K eq_refl); discriminate]. rewrite (Aw _ eq_refl). reflexivity.
      + destruct (c_box (v_cfg o)) as [bx|]; [|pose proof (proj1 K eq_refl); discriminate]. rewrite (Agp eq_refl). reflexivity. }
  destruct (l_task l) eqn:Etl; try (eexists _, _; split; [reflexivity|]; split; [exact R2|]; split; [right; reflexivity|]; split; [discriminate|]; rewrite TS; apply (V _ ERROR); auto; fail).
  destruct (trial_ok (set_lnsrch o2 l) x (x, gg)) as (st & tk & -> & Htk).
  { exact Sv. }
  eexists _, _. split; [reflexivity|]. split; [exact R2|]. split; [destruct Htk as [->|(-> & _)]; auto|]. split.
  { intros _. split; [reflexivity|]. cbv zeta. cbn [v_restarts v_lb set_vtask set_lnsrch set_start mid o2]. rewrite <- M1. exact M3. }
  rewrite TS. apply V. destruct Htk as [->|(-> & _)]; auto.
Qed.

Lemma accept_ok cfg o t x f g iters : cfg_ok cfg -> box_works (c_box cfg) ->
  v_cfg o = cfg -> good_lb o (v_lb o) (t_points t) -> ls_inv (v_ls o) -> t_task t = COMPUTE_FG ->
  v_evals o = (t_evals t + 1)%Z -> iters = Z.max 0 (t_accepted t) -> v_iters o = iters ->
  (0 <= v_restarts o <= b_updates (v_lb o))%Z -> (0 <= t_evals t)%Z ->
  t_accepted t = Z.of_nat (length (t_points t)) -> (t_accepted t <= t_evals t)%Z -> (t_evals t = 0 <-> t_accepted t = 0)%Z ->
  ((1 <= t_accepted t)%Z -> v_ginit o = t_ginit t) ->
  (t_points t = [] \/ exists p pts, t_points t = p :: pts /\ saved o p /\ (c_save cfg = true -> b_mp (v_lb o) < c_m cfg)%Z) ->
  accepted (v_task (vm_accept o x g)) = true /\ vinv cfg (vm_accept o x g) (tally_step (is_blmvm (c_method cfg)) (c_box cfg) t (VIterate x f g) (v_task (vm_accept o x g))) /\
  v_restarts (vm_accept o x g) = v_restarts o.
Proof.
  intros K W Ec G Il Et Ee Ei1 Ei Er H0 Ha Hae Hea Hgi Hp. unfold vm_accept.
  assert (exists w, (match c_box (v_cfg o) with Some box => freevar box x g | None => (SUCCESS, v_w o) end) = (SUCCESS, w) /\
    (forall bx, c_box cfg = Some bx -> w = snd (freevar bx x g))) as (w & Ew & Qw).
  { rewrite Ec. destruct (c_box cfg) as [b|] eqn:Eb.
    - destruct (W b eq_refl) as (F & _). specialize (F x g). destruct (freevar b x g) as [st w] eqn:Efv. simpl in F. subst st. exists w. split; [reflexivity|]. intros b' [= <-]. rewrite Efv. reflexivity.
    - exists (v_w o). split; [reflexivity|]. discriminate. }
  rewrite Ew. cbn [ok negb]. cbn [v_cfg set_w].
  match goal with |- context [let '(gp, gnorm) := ?e in _] => destruct e as [gp gnorm] eqn:Egp end.
  set (ginit := if (v_evals (set_w o w) =? 1)%Z then gnorm else v_ginit (set_w o w)).
  match goal with |- context [vsuccess ?o1 ?tk] => set (tk' := tk); set (o' := o1) end.
  assert (At : accepted tk' = true) by (unfold tk'; destruct (nle _ _); reflexivity).
  split; [exact At|].
  change (v_task (vsuccess o' tk')) with tk'.
  set (bm := is_blmvm (c_method cfg)) in *.
  assert (Gn : gnorm = pgnorm bm (c_box cfg) x g /\ (bm = true -> gp = pgrad (c_box cfg) x g)).
  { rewrite Ec in Egp. unfold cfg_ok in K. unfold bm. destruct (c_method cfg) eqn:Em; cbn [is_blmvm]; injection Egp as <- <-.
    - rewrite (proj2 K eq_refl). split; [reflexivity|discriminate].
    - destruct (c_box cfg) as [bx|]; [|pose proof (proj1 K eq_refl); discriminate]. rewrite (Qw _ eq_refl). split; [reflexivity|discriminate].
    - destruct (c_box cfg) as [bx|]; [|pose proof (proj1 K eq_refl); discriminate]. rewrite (Qw _ eq_refl). split; reflexivity. }
  destruct Gn as (Gn & Gp).
  assert (Egi : ginit = if (t_accepted t =? 0)%Z then pgnorm bm (c_box cfg) x g else t_ginit t).
  { unfold ginit. cbn [v_evals set_w v_ginit]. rewrite Ee. destruct (Z.eqb_spec (t_accepted t) 0) as [Z0|Z0].
    - destruct (Z.eqb_spec (t_evals t + 1) 1); [exact Gn|lia].
    - destruct (Z.eqb_spec (t_evals t + 1) 1); [lia|apply Hgi; lia]. }
  assert (TS : tally_step bm (c_box cfg) t (VIterate x f g) tk' = mkTally tk' (t_evals t + 1) (t_accepted t + 1) x g ginit (t_points t) (t_f0 t) (t_g0 t)).
  { unfold tally_step. rewrite Et, At, Egi. reflexivity. }
  split; [|reflexivity]. rewrite TS.
  split; [exact Ec|]. split; [exact G|]. split; [exact Il|]. split; [reflexivity|]. split; [exact Ee|]. split; [change (v_iters (vsuccess o' tk')) with (v_iters o); cbn [t_accepted]; lia|].
  split; [exact Er|]. split; [cbn [t_points t_accepted t_evals]; lia|]. split; [reflexivity|].
  assert (X : (1 <= t_evals t + 1 /\ t_accepted t + 1 = Z.of_nat (length (t_points t)) + 1)%Z /\
    (t_points t = [] \/ exists p pts, t_points t = p :: pts /\ saved (vsuccess o' tk') p /\ (c_save cfg = true -> b_mp (v_lb (vsuccess o' tk')) < c_m cfg)%Z) /\
    at_accepted (vsuccess o' tk') (mkTally tk' (t_evals t + 1) (t_accepted t + 1) x g ginit (t_points t) (t_f0 t) (t_g0 t)) /\
    (tk' = FINAL_X <-> nle gnorm (vmax3 (nZ 0) (c_gatol cfg) (c_grtol cfg * ginit)%num) = true)).
  { split; [lia|]. split; [exact Hp|]. split.
    - unfold at_accepted. cbv zeta. change (v_cfg (vsuccess o' tk')) with (v_cfg o). rewrite Ec. fold bm. split; [exact Gn|]. split; [|exact Gp].
      intros bx Hbx. apply Qw. change (v_cfg (vsuccess o' tk')) with (v_cfg o) in Hbx. rewrite Ec in Hbx. exact Hbx.
    - unfold tk'. cbn [v_cfg set_gnorm set_w]. rewrite Ec. match goal with |- context [if ?b then FINAL_X else NEW_X] => destruct b end; split; congruence. }
  change (v_task (vsuccess o' tk')) with tk'. destruct tk'; try discriminate; exact X.
Qed.

Lemma check_ok cfg o t x f g : cfg_ok cfg -> box_works (c_box cfg) -> vinv cfg o t -> v_task o = COMPUTE_FG ->
  exists o' x', vm_check o x f g = Some (o', x') /\ v_restarts o' = v_restarts o /\
    (t_evals t = 0%Z -> v_task o' <> ERROR /\ x' = x) /\
    (v_task o' = COMPUTE_FG -> match t_points t with p :: _ => x' = trial_point o' (fst p) (v_stp o') | [] => False end) /\
    (accepted (v_task o') = true -> x' = x /\ (t_points t <> [] ->
       (l_task (v_ls o') = LS_CONVERGENCE \/ l_task (v_ls o') = LS_WARNING /\ l_status (v_ls o') = ROUNDING_ERRORS_PREVENT_PROGRESS) /\
       exists dtg, v_ls o' = fst (ls_iterate (v_ls o) (v_stp o) f dtg))) /\
    vinv cfg o' (tally_step (is_blmvm (c_method cfg)) (c_box cfg) t (VIterate x f g) (v_task o')).
Proof.
  intros K W (Ec & G & Il & Et & Ee & Ei & Er & Hc & Hgi & Hm) A. rewrite A in Hm. rewrite A in Et. symmetry in Et.
  unfold vm_check. cbv zeta. cbn [v_evals set_counts v_ls v_cfg v_stp v_d v_iters v_restarts].
  set (o1 := set_counts o (v_evals o + 1) (v_iters o) (v_restarts o)).
  destruct Hm as [(M1 & M2 & M3)|(M1 & M2 & p & pts & M3 & M4 & M5 & M6)].
  - destruct (Z.gtb_spec (v_evals o + 1) 1); [lia|].
    destruct (accept_ok cfg o1 t x f g (v_iters o) K W) as (Ac & V & Rr); auto; try (cbn [o1 v_evals set_counts]; lia).
    eexists _, _. split; [reflexivity|]. split; [exact Rr|]. split; [intros _; split; [intros X; rewrite X in Ac; discriminate|reflexivity]|].
    split; [intros X; rewrite X in Ac; discriminate|]. split; [intros _; split; [reflexivity|]; intros X; congruence|]. exact V.
  - destruct (Z.gtb_spec (v_evals o + 1) 1); [|lia].
    match goal with |- context [match ?e with Some dtg => _ | None => None end] => assert (exists dtg, e = Some dtg) as (dtg & ->) end.
    { destruct (ls_use_deriv _); [|eauto]. destruct (c_box (v_cfg o)); [|eauto]. assert (get_x0 o1 = Some (fst p)) as -> by apply M4. eauto. }
    pose proof (iterate_inv (v_ls o) (v_stp o) f dtg Il) as Il'. pose proof (iterate_cases (v_ls o) (v_stp o) f dtg) as C.
    assert (Ei' : exists l stp, ls_iterate (v_ls o) (v_stp o) f dtg = (l, stp)) by (destruct (ls_iterate (v_ls o) (v_stp o) f dtg); eauto).
    destruct Ei' as (l & stp & Ei'). rewrite Ei' in *. cbn [fst] in Il'.
    cbn [v_bsmin set_lnsrch o1 set_counts]. fold o1.
    set (o2 := set_steps (set_lnsrch o1 l) stp (v_bsmin o)).
    assert (V : forall st tk, tk = ERROR \/ tk = COMPUTE_FG /\ l_task l = LS_SEARCH -> vinv cfg (set_vtask o2 st tk)
      (mkTally tk (t_evals t + 1) (t_accepted t) (t_x t) (t_g t) (t_ginit t) (t_points t) (t_f0 t) (t_g0 t))).
    { intros st tk Htk. split; [exact Ec|]. split; [exact G|]. split; [exact Il'|].
      split; [reflexivity|]. split; [simpl; lia|]. split; [exact Ei|]. split; [exact Er|].
      split; [cbn [t_points t_accepted t_evals]; lia|]. split; [exact Hgi|].
      destruct Htk as [->|(-> & Hs)]; cbn [v_task set_vtask]; [exact I|]. right. cbn [t_evals t_accepted t_points]. split; [lia|]. split; [lia|].
      exists p, pts. split; [exact M3|]. split; [exact M4|]. split; [exact M5|].
      destruct M6 as (S1 & S2 & S3 & S4 & S5 & S6). destruct C as [(C1 & _)|[(_ & _ & C1 & _)|(_ & _ & C1 & (_ & _ & C2 & C3) & _)]]; [congruence|subst l; discriminate|].
      split; [exact Hs|]. split; [exact C1|]. split; [cbn [v_ls set_vtask set_steps set_lnsrch o2 t_f0]; congruence|]. cbn [v_ls set_vtask set_steps set_lnsrch o2].
      rewrite C3. split; [exact S4|]. split; [exact S5|exact S6]. }
    assert (TS : forall r, r = COMPUTE_FG \/ r = ERROR -> tally_step (is_blmvm (c_method cfg)) (c_box cfg) t (VIterate x f g) r =
      mkTally r (t_evals t + 1) (t_accepted t) (t_x t) (t_g t) (t_ginit t) (t_points t) (t_f0 t) (t_g0 t)).
    { intros r Hr. unfold tally_step. rewrite Et. destruct Hr as [-> | ->]; reflexivity. }
    assert (ACC : (l_task l = LS_CONVERGENCE \/ l_task l = LS_WARNING /\ l_status l = ROUNDING_ERRORS_PREVENT_PROGRESS) ->
      exists o' x', Some (vm_accept (set_counts o2 (v_evals o2) (v_iters o2 + 1) (v_restarts o2)) x g, x) = Some (o', x') /\ v_restarts o' = v_restarts o /\
      (t_evals t = 0%Z -> v_task o' <> ERROR /\ x' = x) /\
      (v_task o' = COMPUTE_FG -> match t_points t with p :: _ => x' = trial_point o' (fst p) (v_stp o') | [] => False end) /\
      (accepted (v_task o') = true -> x' = x /\ (t_points t <> [] ->
         (l_task (v_ls o') = LS_CONVERGENCE \/ l_task (v_ls o') = LS_WARNING /\ l_status (v_ls o') = ROUNDING_ERRORS_PREVENT_PROGRESS) /\
         exists dtg, v_ls o' = fst (ls_iterate (v_ls o) (v_stp o) f dtg))) /\
      vinv cfg o' (tally_step (is_blmvm (c_method cfg)) (c_box cfg) t (VIterate x f g) (v_task o'))).
    { intros Hl. set (o3 := set_counts o2 (v_evals o2) (v_iters o2 + 1) (v_restarts o2)).
      assert (Lac : v_ls (vm_accept o3 x g) = l).
      { unfold vm_accept. destruct (match c_box (v_cfg o3) with Some _ => _ | None => _ end) as [st w]. destruct (negb _); [reflexivity|].
        match goal with |- context [let '(gp, gnorm) := ?e in _] => destruct e as [gp gnorm] end. reflexivity. }
      destruct (accept_ok cfg o3 t x f g (v_iters o + 1)%Z K W) as (Ac & V' & Rr); auto;
        try (cbn [o3 o2 o1 v_evals v_iters v_restarts set_counts set_steps set_lnsrch]; lia).
      { rewrite Ei, M2, M3. simpl length. lia. }
      { rewrite M2, M3. simpl length. lia. }
      { right. exists p, pts. auto. }
      eexists _, _. split; [reflexivity|]. split; [exact Rr|]. split; [lia|]. split; [intros X; rewrite X in Ac; discriminate|].
      split; [|exact V']. intros _. split; [reflexivity|]. intros _. rewrite Lac. split; [exact Hl|]. exists dtg. rewrite Ei'. reflexivity. }
    destruct (l_task l) eqn:Etl.
    + eexists _, _. split; [reflexivity|]. split; [reflexivity|]. split; [lia|]. split; [discriminate|]. split; [discriminate|].
      cbn [v_task vfailure set_vtask]. rewrite TS by auto. apply (V _ ERROR). auto.
    + destruct (trial_ok o2 x p M4) as (st & tk & -> & Htk). eexists _, _. split; [reflexivity|]. split; [reflexivity|]. split; [lia|].
      split; [intros _; rewrite M3; reflexivity|]. split; [destruct Htk as [->|(-> & _)]; discriminate|].
      cbn [v_task set_vtask]. rewrite TS by (destruct Htk as [->|(-> & _)]; auto). apply V. destruct Htk as [->|(-> & _)]; auto.
    + apply ACC. auto.
    + destruct (is_rounding (l_status l)) eqn:Ern; [apply ACC; right; split; [reflexivity|destruct (l_status l); discriminate || reflexivity]|].
      eexists _, _. split; [reflexivity|]. split; [reflexivity|]. split; [lia|]. split; [discriminate|]. split; [discriminate|].
      cbn [v_task vfailure set_vtask]. rewrite TS by auto. apply (V _ ERROR). auto.
Qed.

Lemma vdo_ok cfg o t c : cfg_ok cfg -> box_works (c_box cfg) -> vinv cfg o t ->
  exists o' x', vdo o c = Some (o', (v_task o', x')) /\ vinv cfg o' (tally_step (is_blmvm (c_method cfg)) (c_box cfg) t c (v_task o')).
Proof.
  intros K W V. destruct c as [x|x f g].
  - unfold vdo. destruct (vm_start o x) as [o' x'] eqn:E. exists o', x'. split; [reflexivity|]. unfold tally_step.
    destruct V as (Ec & (L & P & U) & Il & _). set (b := mkLb (b_gamma (v_lb o)) (b_s (v_lb o)) (b_y (v_lb o)) (b_alpha (v_lb o)) (b_rho (v_lb o)) 0 0).
    set (o1 := set_lb (set_counts o 0 0 0) b).
    assert (X : exists st tk, o' = set_vtask o1 st tk /\ (tk = COMPUTE_FG \/ tk = ERROR)).
    { unfold vm_start in E. fold b o1 in E. destruct (c_box (v_cfg o1)) as [bx|].
      - destruct (projvar bx x) as [st x1]. destruct (ok st); injection E as <- <-; eexists _, _; (split; [reflexivity|auto]).
      - injection E as <- <-; eexists _, _; (split; [reflexivity|auto]). }
    destruct X as (st & tk & -> & Htk). cbn [v_task set_vtask].
    split; [exact Ec|]. split; [split; [|split]|].
    + destruct L. split; auto; simpl; lia.
    + intros j Hj. simpl in Hj. lia.
    + reflexivity.
    + split; [exact Il|]. split; [reflexivity|]. split; [reflexivity|]. split; [reflexivity|]. split; [simpl; lia|]. split; [simpl; lia|]. split; [simpl; lia|].
      destruct Htk as [-> | ->]; cbn; auto.
  - unfold vdo, vm_iterate. destruct (v_task o) eqn:Et.
    + eexists _, _. split; [unfold vm_get_task; reflexivity|]. rewrite Et. unfold tally_step. assert (t_task t = ERROR) as -> by (destruct V as (_ & _ & _ & E & _); congruence).
      destruct V as (V1 & V2 & V3 & V4 & V5 & V6 & V7 & V8 & V9 & V10). repeat (split; [assumption|]). rewrite Et. exact I.
    + destruct V as (V1 & V2 & V3 & V4 & V5 & V6 & V7 & V8 & V9 & V10). rewrite Et in V10. contradiction.
    + destruct (check_ok cfg o t x f g K W V Et) as (o' & x' & -> & _ & _ & _ & _ & V'). eexists _, _. split; [reflexivity|]. exact V'.
    + destruct (new_x_ok cfg o t x f g K W V) as (o' & x' & -> & _ & _ & _ & V'); [rewrite Et; reflexivity|]. eexists _, _. split; [reflexivity|]. exact V'.
    + destruct (new_x_ok cfg o t x f g K W V) as (o' & x' & -> & _ & _ & _ & V'); [rewrite Et; reflexivity|]. eexists _, _. split; [reflexivity|]. exact V'.
    + destruct V as (V1 & V2 & V3 & V4 & V5 & V6 & V7 & V8 & V9 & V10). rewrite Et in V10. contradiction.
Qed.

Lemma vrun_ok cfg o t cs : cfg_ok cfg -> box_works (c_box cfg) -> vinv cfg o t ->
  exists o' rs, vrun o cs = Some (o', rs) /\ length rs = length cs /\ vinv cfg o' (count_calls (is_blmvm (c_method cfg)) (c_box cfg) t cs rs).
Proof.
  intros K W. revert o t. induction cs as [|c cs IH]; intros o t V.
  - exists o, []. split; [reflexivity|]. split; [reflexivity|exact V].
  - destruct (vdo_ok cfg o t c K W V) as (o1 & x1 & E & V1). destruct (IH o1 _ V1) as (o2 & rs & E2 & L & V2).
    exists o2, ((v_task o1, x1) :: rs). cbn [vrun]. rewrite E, E2. split; [reflexivity|]. split; [simpl; lia|]. exact V2.
Qed.

(** ** Creation *)
Lemma usable_inv (l : ls N) : usable l -> ls_inv l.
Proof.
  intros (l0 & cs & rs & C & R). destruct (created_inv l0 C) as (Hi & _). destruct (run_inv l0 cs Hi) as (l' & rs' & E & Hi' & _). rewrite R in E. injection E as -> _. exact Hi'.
Qed.

Definition the_opts (opts : option (vmopts N)) : vmopts N := match opts with None => vm_default_options | Some o => o end.

Lemma new_ok opts size lnsrch box o : new_optimizer opts size lnsrch box o ->
  vinv (v_cfg o) o tally0 /\ cfg_ok (v_cfg o) /\ c_box (v_cfg o) = box /\ is_blmvm (c_method (v_cfg o)) = uses_blmvm opts box /\
  c_m (v_cfg o) = Z.min (o_mem (the_opts opts)) size /\ (1 <= size)%Z /\ vm_check_options (Some (the_opts opts)) = SUCCESS /\
  c_gatol (v_cfg o) = o_gatol (the_opts opts) /\ c_grtol (v_cfg o) = o_grtol (the_opts opts) /\ c_save (v_cfg o) = o_save_memory (the_opts opts).
Proof.
  intros (E & Hl). unfold new_vmlmb in E. fold (the_opts opts) in E. set (op := the_opts opts) in *.
  destruct (ok (vm_check_options (Some op))) eqn:Eck; cbn [negb] in E; [|discriminate]. destruct ((size <? 1)%Z || (o_mem op <? 1)%Z) eqn:E1; [discriminate|].
  apply orb_false_elim in E1. destruct E1 as [E1 E2]. apply Z.ltb_ge in E1. apply Z.ltb_ge in E2.
  set (m := if (o_mem op >? size)%Z then size else o_mem op) in E.
  assert (Hm : (1 <= m /\ m = Z.min (o_mem op) size)%Z) by (unfold m; destruct (Z.gtb_spec (o_mem op) size); lia).
  match goal with H : (match ?e with Some _ => _ | None => None end) = _ |- _ => destruct e as [l|] eqn:El; [|discriminate] end.
  assert (Il : ls_inv l).
  { destruct lnsrch as [l'|]; [injection El as <-; apply usable_inv; auto|].
    destruct box; [unfold new_backtrack in El|unfold new_csrch in El]; (destruct (_ || _); [discriminate|]); injection El as <-; exact I. }
  injection E as <-. cbn [v_cfg c_box c_method c_m c_gatol c_grtol c_save]. split; [|split; [|split; [reflexivity|]]].
  - split; [reflexivity|]. split; [split; [|split]|].
    + split; simpl; try rewrite repeat_length; lia.
    + intros j Hj. simpl in Hj. lia.
    + reflexivity.
    + split; [exact Il|]. repeat (split; [simpl; try reflexivity; lia|]). exact I.
  - unfold cfg_ok. cbn [c_box c_method]. destruct box as [b|]; [|split; auto]. destruct (o_blmvm op); split; discriminate.
  - split; [|repeat split; try apply Hm; auto; destruct (vm_check_options (Some op)); try discriminate Eck; reflexivity]. 
    destruct box as [b|]; [|unfold uses_blmvm; destruct opts; reflexivity]. unfold uses_blmvm, op, the_opts. destruct opts as [o|]; [destruct (o_blmvm o); reflexivity|reflexivity].
Qed.
End Inv.
