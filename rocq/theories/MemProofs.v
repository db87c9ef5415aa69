(** * Vectors in memory: proofs *)
From Coq Require Import List ZArith Bool Arith Lia.
From Verif Require Import Num VecModel MemModel MemSpec ListFacts BoxSpec.
Import ListNotations.

Section Mem.
Context {D E : Num} (c : Cast D E).
Notation mem := (mem E).
Notation heap := (heap D E).

Lemma rd_upd_same (m : mem) p j v : rd (upd m p j v) p j = Some v.
Proof. unfold rd, upd. rewrite !Nat.eqb_refl. reflexivity. Qed.

Lemma upd_other (m : mem) p j v b o : ~ (b = fst p /\ o = snd p + j) -> upd m p j v b o = m b o.
Proof.
  intros H. unfold upd. destruct (Nat.eqb_spec b (fst p)), (Nat.eqb_spec o (snd p + j)); simpl; auto.
  exfalso; auto.
Qed.

Lemma same_outside_refl p n (m : mem) : same_outside p n m m.
Proof. intros b o _. reflexivity. Qed.

(** A loop that writes g(j) in dst[j]. *)
Lemma loop_dst (n : nat) (dst : ptr) (g : nat -> mem -> option E) (F : nat -> E) (m : mem) :
  (forall j, j < n -> rd m dst j <> None) ->
  (forall j m', j < n -> same_outside dst j m m' -> g j m' = Some (F j)) ->
  exists m', for_n n (fun j m => do v <- g j m; wr m dst j v) m = Some m' /\
    (forall j, j < n -> rd m' dst j = Some (F j)) /\ same_outside dst n m m'.
Proof.
  intros Hacc Hg. unfold for_n.
  assert (Q : forall k j m1, j + k = n -> same_outside dst j m m1 ->
     (forall i, i < j -> rd m1 dst i = Some (F i)) ->
     exists m', for_loop (fun j m => do v <- g j m; wr m dst j v) k j m1 = Some m' /\
       (forall j, j < n -> rd m' dst j = Some (F j)) /\ same_outside dst n m m').
  { induction k as [|k IH]; intros j m1 Hjk Hs Hd.
    - exists m1. simpl. replace n with j by lia. auto.
    - cbn [for_loop]. rewrite (Hg j m1) by (auto; lia).
      assert (Ha : rd m1 dst j <> None).
      { unfold rd. rewrite Hs; [apply (Hacc j); lia|]. unfold in_area. lia. }
      unfold wr. destruct (rd m1 dst j) eqn:Hr; [|congruence].
      apply IH; [lia| |].
      + intros b o Hn. rewrite upd_other. { apply Hs. unfold in_area in *. lia. }
        unfold in_area in Hn. lia.
      + intros i Hi. destruct (Nat.eq_dec i j) as [->|].
        * apply rd_upd_same.
        * unfold rd. rewrite upd_other by lia. apply Hd. lia. }
  apply Q; auto; try lia. intros b o _; reflexivity.
Qed.

(** Element [j] of an operand is still the initial one when the loop reads it. *)
Lemma read_operand dst x n j (m m' : mem) :
  j < n -> same_or_apart dst x n -> same_outside dst j m m' -> rd m' x j = rd m x j.
Proof.
  intros Hj Hsep Hs. unfold rd. apply Hs. unfold in_area. destruct Hsep as [->|Hsep].
  - lia.
  - intros [H1 H2]. apply (Hsep (fst x) (snd x + j)); unfold in_area; lia.
Qed.

Lemma holds_nth (m : mem) p l j : holds m p l -> j < length l -> exists a, nth_error l j = Some a /\ rd m p j = Some a.
Proof. intros H Hj. destruct (nth_error_Some_ex l j Hj) as [a Ha]. eauto. Qed.

Lemma holds_acc (m : mem) p l j : holds m p l -> j < length l -> rd m p j <> None.
Proof. intros H Hj. destruct (holds_nth m p l j H Hj) as (a & _ & Ha). congruence. Qed.

Lemma ew0_spec f dst n (m : mem) ld :
  length ld = n -> holds m dst ld ->
  exists m', ew0 f dst n m = Some m' /\ holds m' dst (repeat f n) /\ same_outside dst n m m'.
Proof.
  intros Hl Hd.
  destruct (loop_dst n dst (fun _ _ => Some f) (fun _ => f) m) as (m' & Hm & Hv & Hs).
  - intros j Hj. eapply holds_acc; eauto. lia.
  - auto.
  - exists m'. split; [exact Hm|]. split; [|exact Hs].
    intros j a Ha. assert (j < n) by (apply nth_error_lt in Ha; rewrite repeat_length in Ha; exact Ha).
    apply nth_error_repeat_inv in Ha. subst a. auto.
Qed.

Lemma for_n_ext {S} n (f g : nat -> S -> option S) s :
  (forall j s, f j s = g j s) -> for_n n f s = for_n n g s.
Proof.
  intros H. unfold for_n. generalize 0 s. induction n as [|n IH]; intros j s0; simpl; auto.
  rewrite H. destruct (g j s0); auto.
Qed.

Ltac elt H j Hj a Ha := destruct (holds_nth _ _ _ j H) as (a & Ha & ?); [lia|].

Lemma ew1_spec f dst x n (m : mem) lx ld :
  length lx = n -> length ld = n -> holds m x lx -> holds m dst ld -> same_or_apart dst x n ->
  exists m', ew1 f dst x n m = Some m' /\ holds m' dst (map f lx) /\ same_outside dst n m m'.
Proof.
  intros Lx Ld Hx Hd Sx.
  destruct (loop_dst n dst (fun j m => do a <- rd m x j; Some (f a))
             (fun j => match nth_error lx j with Some a => f a | None => nZ 0 end) m) as (m' & Hm & Hv & Hs).
  - intros j Hj. eapply holds_acc; eauto. lia.
  - intros j m1 Hj Hs. rewrite (read_operand dst x n j m m1) by auto.
    elt Hx j Hj a Ha. rewrite H, Ha. reflexivity.
  - exists m'. split; [|split; [|exact Hs]].
    + rewrite <- Hm. apply for_n_ext. intros j s. destruct (rd s x j); auto.
    + intros j b Hb. rewrite nth_error_map in Hb. destruct (nth_error lx j) as [a|] eqn:Ha; [|discriminate].
      simpl in Hb. injection Hb as <-. rewrite Hv by (apply nth_error_lt in Ha; lia). rewrite Ha. reflexivity.
Qed.

Lemma ew2_spec f dst x y n (m : mem) lx ly ld :
  length lx = n -> length ly = n -> length ld = n -> holds m x lx -> holds m y ly -> holds m dst ld ->
  same_or_apart dst x n -> same_or_apart dst y n ->
  exists m', ew2 f dst x y n m = Some m' /\ holds m' dst (map2 f lx ly) /\ same_outside dst n m m'.
Proof.
  intros Lx Ly Ld Hx Hy Hd Sx Sy.
  destruct (loop_dst n dst (fun j m => do a <- rd m x j; do b <- rd m y j; Some (f a b))
             (fun j => match nth_error lx j, nth_error ly j with Some a, Some b => f a b | _, _ => nZ 0 end) m) as (m' & Hm & Hv & Hs).
  - intros j Hj. eapply holds_acc; eauto. lia.
  - intros j m1 Hj Hs. rewrite (read_operand dst x n j m m1), (read_operand dst y n j m m1) by auto.
    elt Hx j Hj a Ha. elt Hy j Hj b Hb. rewrite H, H0, Ha, Hb. reflexivity.
  - exists m'. split; [|split; [|exact Hs]].
    + rewrite <- Hm. apply for_n_ext. intros j s. destruct (rd s x j), (rd s y j); auto.
    + intros j e He. rewrite map2_nth_error in He. destruct (nth_error lx j) as [a|] eqn:Ha; [|discriminate].
      destruct (nth_error ly j) as [b|] eqn:Hb; [|discriminate].
      injection He as <-. rewrite Hv by (apply nth_error_lt in Ha; lia). rewrite Ha, Hb. reflexivity.
Qed.

Lemma ew3_spec f dst x y z n (m : mem) lx ly lz ld :
  length lx = n -> length ly = n -> length lz = n -> length ld = n ->
  holds m x lx -> holds m y ly -> holds m z lz -> holds m dst ld ->
  same_or_apart dst x n -> same_or_apart dst y n -> same_or_apart dst z n ->
  exists m', ew3 f dst x y z n m = Some m' /\ holds m' dst (map3 f lx ly lz) /\ same_outside dst n m m'.
Proof.
  intros Lx Ly Lz Ld Hx Hy Hz Hd Sx Sy Sz.
  destruct (loop_dst n dst (fun j m => do a <- rd m x j; do b <- rd m y j; do e <- rd m z j; Some (f a b e))
             (fun j => match nth_error lx j, nth_error ly j, nth_error lz j with Some a, Some b, Some e => f a b e | _, _, _ => nZ 0 end) m)
    as (m' & Hm & Hv & Hs).
  - intros j Hj. eapply holds_acc; eauto. lia.
  - intros j m1 Hj Hs. rewrite (read_operand dst x n j m m1), (read_operand dst y n j m m1), (read_operand dst z n j m m1) by auto.
    elt Hx j Hj a Ha. elt Hy j Hj b Hb. elt Hz j Hj e He. rewrite H, H0, H1, Ha, Hb, He. reflexivity.
  - exists m'. split; [|split; [|exact Hs]].
    + rewrite <- Hm. apply for_n_ext. intros j s. destruct (rd s x j), (rd s y j), (rd s z j); auto.
    + intros j e He. rewrite map3_nth_error in He. destruct (nth_error lx j) as [a|] eqn:Ha; [|discriminate].
      destruct (nth_error ly j) as [b|] eqn:Hb; [|discriminate]. destruct (nth_error lz j) as [g|] eqn:Hg; [|discriminate].
      injection He as <-. rewrite Hv by (apply nth_error_lt in Ha; lia). rewrite Ha, Hb, Hg. reflexivity.
Qed.

Lemma ew4_spec f dst x y z t n (m : mem) lx ly lz lt ld :
  length lx = n -> length ly = n -> length lz = n -> length lt = n -> length ld = n ->
  holds m x lx -> holds m y ly -> holds m z lz -> holds m t lt -> holds m dst ld ->
  same_or_apart dst x n -> same_or_apart dst y n -> same_or_apart dst z n -> same_or_apart dst t n ->
  exists m', ew4 f dst x y z t n m = Some m' /\
    holds m' dst (map3 (fun p => f (fst p) (snd p)) (combine lx ly) lz lt) /\ same_outside dst n m m'.
Proof.
  intros Lx Ly Lz Lt Ld Hx Hy Hz Ht Hd Sx Sy Sz St.
  destruct (loop_dst n dst (fun j m => do a <- rd m x j; do b <- rd m y j; do e <- rd m z j; do g <- rd m t j; Some (f a b e g))
             (fun j => match nth_error lx j, nth_error ly j, nth_error lz j, nth_error lt j with
                       | Some a, Some b, Some e, Some g => f a b e g | _, _, _, _ => nZ 0 end) m)
    as (m' & Hm & Hv & Hs).
  - intros j Hj. eapply holds_acc; eauto. lia.
  - intros j m1 Hj Hs. rewrite (read_operand dst x n j m m1), (read_operand dst y n j m m1), (read_operand dst z n j m m1), (read_operand dst t n j m m1) by auto.
    elt Hx j Hj a Ha. elt Hy j Hj b Hb. elt Hz j Hj e He. elt Ht j Hj g Hg. rewrite H, H0, H1, H2, Ha, Hb, He, Hg. reflexivity.
  - exists m'. split; [|split; [|exact Hs]].
    + rewrite <- Hm. apply for_n_ext. intros j s. destruct (rd s x j), (rd s y j), (rd s z j), (rd s t j); auto.
    + intros j e He. rewrite map3_nth_error, combine_nth_error in He. destruct (nth_error lx j) as [a|] eqn:Ha; [|discriminate].
      destruct (nth_error ly j) as [b|] eqn:Hb; [|discriminate]. destruct (nth_error lz j) as [g|] eqn:Hg; [|discriminate].
      destruct (nth_error lt j) as [k|] eqn:Hk; [|discriminate].
      injection He as <-. rewrite Hv by (apply nth_error_lt in Ha; lia). rewrite Ha, Hb, Hg, Hk. reflexivity.
Qed.

Lemma ptr_eqb_spec p q : reflect (p = q) (ptr_eqb p q).
Proof.
  unfold ptr_eqb. destruct p as [a b], q as [a' b']. simpl.
  destruct (Nat.eqb_spec a a'), (Nat.eqb_spec b b'); simpl; constructor; congruence.
Qed.

Lemma overlap_false p q n : same_or_apart p q n -> p <> q -> overlap p q n = false.
Proof.
  intros [->|H] Hne; [congruence|]. unfold overlap.
  destruct (Nat.eqb_spec (fst p) (fst q)); simpl; auto.
  destruct (Nat.ltb_spec (snd p) (snd q + n)), (Nat.ltb_spec (snd q) (snd p + n)); simpl; auto.
  exfalso. destruct (Nat.eq_dec n 0) as [->|Hn].
  - assert (snd p = snd q) by lia. apply Hne. destruct p, q; simpl in *; congruence.
  - apply (H (fst p) (max (snd p) (snd q))); unfold in_area; lia.
Qed.

Lemma copy_spec n dst src (m : mem) ls ld :
  length ls = n -> length ld = n -> holds m src ls -> holds m dst ld -> same_or_apart dst src n ->
  exists m', mk_copy n dst src m = Some m' /\ holds m' dst ls /\ same_outside dst n m m'.
Proof.
  intros Ls Ld Hs Hd Hsep. unfold mk_copy. destruct (ptr_eqb_spec dst src) as [->|Hne].
  - exists m. split; auto. split; auto. apply same_outside_refl.
  - unfold memcpy. rewrite overlap_false by auto.
    destruct (ew1_spec (fun a => a) dst src n m ls ld) as (m' & Hm & Hh & Ho); auto.
    rewrite map_id in Hh. eauto.
Qed.

(** ** The result of linear combinations, with the shortcuts *)
Local Open Scope num_scope.
Definition lc1 (alpha : D) (x : list E) (n : nat) : list E :=
  if alpha =? nZ 1 then x else if alpha =? nZ 0 then k_fill c n (nZ 0) else k_scale c alpha x.
Definition lc2 (alpha : D) (x : list E) (beta : D) (y : list E) (n : nat) : list E :=
  if alpha =? nZ 0 then
    if beta =? nZ 0 then k_fill c n (nZ 0) else k_scale c beta y
  else
    if beta =? nZ 0 then k_scale c alpha x else k_axpby c alpha x beta y.
Definition lc3 (alpha : D) (x : list E) (beta : D) (y : list E) (gamma : D) (z : list E) (n : nat) : list E :=
  if alpha =? nZ 0 then
    if beta =? nZ 0 then
      if gamma =? nZ 0 then k_fill c n (nZ 0) else k_scale c gamma z
    else
      if gamma =? nZ 0 then k_scale c beta y else k_axpby c beta y gamma z
  else
    if beta =? nZ 0 then
      if gamma =? nZ 0 then k_scale c alpha x else k_axpby c alpha x gamma z
    else
      if gamma =? nZ 0 then k_axpby c alpha x beta y else k_axpbypcz c alpha x beta y gamma z.
Local Close Scope num_scope.

Lemma lift_writes (h : heap) v s n p l0 l (r : option mem) :
  is_vector h v s n p l0 -> length l = n ->
  (exists m', r = Some m' /\ holds m' p l /\ same_outside p n (h_mem h) m') ->
  exists h', lift h r = Some (OK, h') /\ writes h v l h'.
Proof.
  intros Hv Hl (m' & -> & Hh & Hs). exists (set_mem h m'). split; [reflexivity|].
  exists s, n, p, l0. split; [exact Hv|]. destruct Hv as (H1 & H2 & H3 & H4).
  split; [|split].
  - repeat split; auto.
  - repeat split; auto.
  - exact Hs.
Qed.

Lemma lift_s_writes (h : heap) v s n p l0 l (r : option mem) :
  is_vector h v s n p l0 -> length l = n ->
  (exists m', r = Some m' /\ holds m' p l /\ same_outside p n (h_mem h) m') ->
  exists h', lift_s h r = Some (SUCCESS, h') /\ writes h v l h'.
Proof.
  intros Hv Hl (m' & -> & Hh & Hs). exists (set_mem h m'). split; [reflexivity|].
  exists s, n, p, l0. split; [exact Hv|]. destruct Hv as (H1 & H2 & H3 & H4).
  split; [|split].
  - repeat split; auto.
  - repeat split; auto.
  - exact Hs.
Qed.

Lemma vfill_ok (h : heap) dst s n pd ld alpha :
  is_vector h dst s n pd ld ->
  exists h', opk_vfill c h (Some dst) alpha = Some (OK, h') /\ writes h dst (k_fill c n alpha) h'.
Proof.
  intros Hd. assert (Hd' := Hd). destruct Hd as (D1 & D2 & D3 & D4).
  unfold opk_vfill, get_vec. rewrite D1. simpl. rewrite D2.
  eapply lift_writes; eauto. { apply repeat_length. }
  apply (ew0_spec _ pd n (h_mem h) ld); auto.
Qed.

Lemma vcopy_ok (h : heap) dst src s n pd ps ld ls :
  is_vector h dst s n pd ld -> is_vector h src s n ps ls -> same_or_apart pd ps n ->
  exists h', opk_vcopy h (Some dst) (Some src) = Some (OK, h') /\ writes h dst ls h'.
Proof.
  intros Hd Hs Hsep. assert (Hd' := Hd). assert (Hs' := Hs).
  destruct Hd as (D1 & D2 & D3 & D4). destruct Hs as (S1 & S2 & S3 & S4).
  unfold opk_vcopy, get_vec, optr_eqb. destruct (Nat.eqb_spec src dst) as [->|Hne].
  - exists h. split; [reflexivity|]. rewrite D1 in S1. injection S1 as <-.
    exists s, n, pd, ld. split; [exact Hd'|]. split; [exact Hs'|]. split; [repeat split|apply same_outside_refl].
  - rewrite D1, S1. simpl. rewrite Nat.eqb_refl. simpl. rewrite D2.
    eapply lift_writes; eauto. apply (copy_spec n pd ps (h_mem h) ls ld); auto.
Qed.

Lemma vscale_ok (h : heap) dst src s n pd ps ld ls alpha :
  is_vector h dst s n pd ld -> is_vector h src s n ps ls -> same_or_apart pd ps n ->
  exists h', opk_vscale c h (Some dst) alpha (Some src) = Some (OK, h') /\ writes h dst (lc1 alpha ls n) h'.
Proof.
  intros Hd Hs Hsep. assert (Hd' := Hd). assert (Hs' := Hs).
  destruct Hd as (D1 & D2 & D3 & D4). destruct Hs as (S1 & S2 & S3 & S4).
  unfold opk_vscale, get_vec, lc1. rewrite D1, S1. simpl. rewrite Nat.eqb_refl. simpl. rewrite D2.
  destruct (neq alpha (nZ 1)).
  - destruct (Nat.eqb_spec src dst) as [->|Hne].
    + exists h. split; [reflexivity|]. rewrite D1 in S1. injection S1 as <-.
      exists s, n, pd, ld. split; [exact Hd'|]. split; [exact Hs'|]. split; [repeat split|apply same_outside_refl].
    + eapply lift_writes; eauto. apply (copy_spec n pd ps (h_mem h) ls ld); auto.
  - destruct (neq alpha (nZ 0)).
    + eapply lift_writes; eauto. { apply repeat_length. } apply (ew0_spec _ pd n (h_mem h) ld); auto.
    + eapply lift_writes; eauto. { unfold k_scale. rewrite map_length; auto. }
      apply (ew1_spec _ pd ps n (h_mem h) ls ld); auto.
Qed.

Lemma vaxpby_ok (h : heap) dst x y s n pd px py ld lx ly alpha beta :
  is_vector h dst s n pd ld -> is_vector h x s n px lx -> is_vector h y s n py ly ->
  same_or_apart pd px n -> same_or_apart pd py n ->
  exists h', opk_vaxpby c h (Some dst) alpha (Some x) beta (Some y) = Some (OK, h') /\
             writes h dst (lc2 alpha lx beta ly n) h'.
Proof.
  intros Hd Hx Hy Sx Sy. assert (Hd' := Hd).
  destruct Hd as (D1 & D2 & D3 & D4). destruct Hx as (X1 & X2 & X3 & X4). destruct Hy as (Y1 & Y2 & Y3 & Y4).
  unfold opk_vaxpby, get_vec, lc2. rewrite D1, X1, Y1. cbn [v_owner v_data]. rewrite Nat.eqb_refl. cbn [negb orb]. rewrite D2.
  eapply lift_writes; eauto.
  - destruct (neq alpha _), (neq beta _); unfold k_fill, k_scale, k_axpby; rewrite ?map_length, ?repeat_length; auto.
    apply map2_length; auto.
  - destruct (neq alpha (nZ 0)), (neq beta (nZ 0)).
    + apply (ew0_spec _ pd n (h_mem h) ld); auto.
    + apply (ew1_spec _ pd py n (h_mem h) ly ld); auto.
    + apply (ew1_spec _ pd px n (h_mem h) lx ld); auto.
    + apply (ew2_spec _ pd px py n (h_mem h) lx ly ld); auto.
Qed.

Lemma vaxpbypcz_ok (h : heap) dst x y z s n pd px py pz ld lx ly lz alpha beta gamma :
  is_vector h dst s n pd ld -> is_vector h x s n px lx -> is_vector h y s n py ly -> is_vector h z s n pz lz ->
  same_or_apart pd px n -> same_or_apart pd py n -> same_or_apart pd pz n ->
  exists h', opk_vaxpbypcz c h (Some dst) alpha (Some x) beta (Some y) gamma (Some z) = Some (OK, h') /\
             writes h dst (lc3 alpha lx beta ly gamma lz n) h'.
Proof.
  intros Hd Hx Hy Hz Sx Sy Sz. assert (Hd' := Hd).
  destruct Hd as (D1 & D2 & D3 & D4). destruct Hx as (X1 & X2 & X3 & X4). destruct Hy as (Y1 & Y2 & Y3 & Y4).
  destruct Hz as (Z1 & Z2 & Z3 & Z4).
  unfold opk_vaxpbypcz, get_vec, lc3. rewrite D1, X1, Y1, Z1. cbn [v_owner v_data]. rewrite Nat.eqb_refl. cbn [negb orb]. rewrite D2.
  eapply lift_writes; eauto.
  - destruct (neq alpha _), (neq beta _), (neq gamma _); unfold k_fill, k_scale, k_axpby, k_axpbypcz;
      rewrite ?map_length, ?repeat_length; auto; first [apply map3_length; auto | apply map2_length; auto].
  - destruct (neq alpha (nZ 0)), (neq beta (nZ 0)), (neq gamma (nZ 0)).
    + apply (ew0_spec _ pd n (h_mem h) ld); auto.
    + apply (ew1_spec _ pd pz n (h_mem h) lz ld); auto.
    + apply (ew1_spec _ pd py n (h_mem h) ly ld); auto.
    + apply (ew2_spec _ pd py pz n (h_mem h) ly lz ld); auto.
    + apply (ew1_spec _ pd px n (h_mem h) lx ld); auto.
    + apply (ew2_spec _ pd px pz n (h_mem h) lx lz ld); auto.
    + apply (ew2_spec _ pd px py n (h_mem h) lx ly ld); auto.
    + apply (ew3_spec _ pd px py pz n (h_mem h) lx ly lz ld); auto.
Qed.

Lemma vproduct_ok (h : heap) dst x y s n pd px py ld lx ly :
  is_vector h dst s n pd ld -> is_vector h x s n px lx -> is_vector h y s n py ly ->
  same_or_apart pd px n -> same_or_apart pd py n ->
  exists h', opk_vproduct h (Some dst) (Some x) (Some y) = Some (OK, h') /\ writes h dst (k_product lx ly) h'.
Proof.
  intros Hd Hx Hy Sx Sy. assert (Hd' := Hd).
  destruct Hd as (D1 & D2 & D3 & D4). destruct Hx as (X1 & X2 & X3 & X4). destruct Hy as (Y1 & Y2 & Y3 & Y4).
  unfold opk_vproduct, get_vec. rewrite D1, X1, Y1. cbn [v_owner v_data]. rewrite Nat.eqb_refl. cbn [negb orb]. rewrite D2.
  eapply lift_writes; eauto. { apply map2_length; auto. }
  apply (ew2_spec _ pd px py n (h_mem h) lx ly ld); auto.
Qed.

(** ** Reading *)
Lemma read_from_spec (m : mem) p k : forall j l,
  length l = k -> (forall i a, nth_error l i = Some a -> rd m p (j + i) = Some a) -> read_from m p j k = Some l.
Proof.
  induction k as [|k IH]; intros j [|a l] Hl Hr; simpl in *; try discriminate; auto.
  rewrite (eq_trans (f_equal (rd m p) (eq_sym (Nat.add_0_r j))) (Hr 0 a eq_refl)).
  rewrite (IH (S j) l); auto. intros i b Hb. replace (S j + i) with (j + S i) by lia. apply (Hr (S i)); auto.
Qed.

Lemma read_all_spec (m : mem) p l : holds m p l -> read_all m p (length l) = Some l.
Proof. intros H. apply read_from_spec; auto. Qed.

Lemma vdot_ok (h : heap) x y s n px py lx ly :
  is_vector h x s n px lx -> is_vector h y s n py ly ->
  opk_vdot c h (Some x) (Some y) = Some (OK, k_dot c lx ly).
Proof.
  intros (X1 & X2 & X3 & X4) (Y1 & Y2 & Y3 & Y4). unfold opk_vdot, get_vec. rewrite X1, Y1.
  cbn [v_owner v_data]. rewrite Nat.eqb_refl. cbn [negb]. rewrite X2.
  rewrite <- X3 at 1. rewrite read_all_spec by auto. rewrite <- Y3. rewrite read_all_spec by auto. reflexivity.
Qed.

Lemma vdot3_ok (h : heap) w x y s n pw px py lw lx ly :
  is_vector h w s n pw lw -> is_vector h x s n px lx -> is_vector h y s n py ly ->
  opk_vdot3 c h (Some w) (Some x) (Some y) = Some (OK, k_dot3 c lw lx ly).
Proof.
  intros (W1 & W2 & W3 & W4) (X1 & X2 & X3 & X4) (Y1 & Y2 & Y3 & Y4). unfold opk_vdot3, get_vec. rewrite W1, X1, Y1.
  cbn [v_owner v_data]. rewrite Nat.eqb_refl. cbn [negb orb]. rewrite X2.
  rewrite <- W3 at 1. rewrite read_all_spec by auto.
  rewrite <- X3 at 1. rewrite read_all_spec by auto. rewrite <- Y3. rewrite read_all_spec by auto. reflexivity.
Qed.

Lemma vnorm_ok (k : list E -> D) h x s n px lx : is_vector (h : heap) x s n px lx -> opk_vnorm k h (Some x) = Some (k lx).
Proof.
  intros (X1 & X2 & X3 & X4). unfold opk_vnorm, get_vec. rewrite X1. cbn [v_owner v_data]. rewrite X2.
  rewrite <- X3. rewrite read_all_spec by auto. reflexivity.
Qed.

(** ** Boxes *)
Lemma map_one {A B} (a : B) (l : list A) : map (fun _ => a) l = repeat a (length l).
Proof. induction l; simpl; congruence. Qed.

Lemma get_bound_spec (h : heap) s n b lb :
  is_bound h s n b lb ->
  match b with
  | ONone => get_bound h b = Some MNone /\ lb = BNone
  | OScalar a => get_bound h b = Some (MScalar a) /\ lb = BScalar a
  | OVector v => exists p l, get_bound h b = Some (MVector p) /\ lb = BVector l /\ length l = n /\ holds (h_mem h) p l /\
                             h_vec h v = Some (mkVector s p)
  end.
Proof.
  destruct b as [|a|v]; simpl; intros H; auto.
  destruct H as (p & l & -> & (V1 & V2 & V3 & V4)). exists p, l. rewrite V1. auto.
Qed.

Lemma projvar_length2 n lo hi (x : list E) : bound_size n lo -> bound_size n hi -> length x = n ->
  length (k_boxprojvar c lo hi x) = n.
Proof.
  destruct lo, hi; simpl; intros H1 H2 Hx; rewrite ?map_length; auto;
    first [apply map2_length; auto; congruence | apply map3_length; auto; congruence].
Qed.

Lemma is_bound_size (h : heap) s n b lb : is_bound h s n b lb -> bound_size n lb.
Proof. destruct b as [|a|v]; simpl; [intros ->; exact I..|]. intros (p & l & -> & (_ & _ & H & _)). exact H. Qed.

Ltac bounds Hlo Hhi Alo Ahi :=
  apply get_bound_spec in Hlo; apply get_bound_spec in Hhi;
  repeat match goal with
  | b : obound D |- _ => destruct b
  end;
  repeat match goal with
  | H : exists p l, _ |- _ => destruct H as (? & ? & ? & ? & ? & ? & ?)
  | H : _ /\ _ |- _ => destruct H
  end; subst;
  repeat match goal with H : get_bound _ _ = _ |- _ => rewrite H; clear H end.

Lemma project_variables_ok (h : heap) dst x set s n pd px ld lx lo hi :
  is_vector h dst s n pd ld -> is_vector h x s n px lx -> is_box h set s n lo hi ->
  same_or_apart pd px n -> box_apart h set pd n ->
  exists h', opk_project_variables c h (Some dst) (Some x) (Some set) = Some (SUCCESS, h') /\
             writes h dst (k_boxprojvar c lo hi lx) h'.
Proof.
  intros Hd Hx (b & B1 & B2 & B3 & Blo & Bhi) Sx Sb. assert (Hd' := Hd).
  destruct Hd as (D1 & D2 & D3 & D4). destruct Hx as (X1 & X2 & X3 & X4).
  destruct (Sb b B1) as [Alo Ahi]. clear Sb.
  assert (Slo := is_bound_size _ _ _ _ _ Blo). assert (Shi := is_bound_size _ _ _ _ _ Bhi).
  unfold opk_project_variables, get_vec, get_box. rewrite D1, X1, B1. cbn [v_owner v_data].
  rewrite B2, Nat.eqb_refl. cbn [negb orb]. rewrite B3.
  destruct b as [bs bl bu]. cbn [b_lower b_upper b_space] in *. clear B1 B2.
  assert (L : length (k_boxprojvar c lo hi lx) = n) by (apply projvar_length2; auto).
  bounds Blo Bhi Alo Ahi; cbn [bound_apart] in *;
    repeat match goal with H : forall vv, h_vec _ _ = _ -> _, H' : h_vec _ _ = Some _ |- _ => specialize (H _ H'); cbn [v_data] in H end;
    (eapply lift_s_writes; [exact Hd'|exact L|]); simpl.
  all: first
    [ apply (copy_spec _ pd px (h_mem h) lx ld); auto; fail
    | apply (ew1_spec _ pd px _ (h_mem h) lx ld); auto; fail
    | eapply ew2_spec with (ld := ld); eauto; fail
    | eapply ew3_spec with (ld := ld); eauto; fail ].
Qed.

Lemma projdir_length2 n desc lo hi (x d : list E) : bound_size n lo -> bound_size n hi -> length x = n -> length d = n ->
  length (k_boxprojdir c desc lo hi x d) = n.
Proof.
  destruct lo, hi; simpl; intros H1 H2 Hx Hd; auto;
    first [apply map2_length; auto; congruence | apply map3_length; auto; try congruence].
  rewrite combine_length. lia.
Qed.

Lemma freevar_length2 n desc lo hi (x d : list E) : bound_size n lo -> bound_size n hi -> length x = n -> length d = n ->
  length (k_boxfreevar c desc lo hi x d) = n.
Proof.
  destruct lo, hi; simpl; intros H1 H2 Hx Hd; rewrite ?map_length; auto;
    first [apply map2_length; auto; congruence | apply map3_length; auto; try congruence].
  rewrite combine_length. lia.
Qed.

Lemma project_direction_ok (h : heap) dst x set d s n pd px pdir ld lx ldir lo hi orient :
  is_vector h dst s n pd ld -> is_vector h x s n px lx -> is_vector h d s n pdir ldir -> is_box h set s n lo hi ->
  same_or_apart pd px n -> same_or_apart pd pdir n -> box_apart h set pd n ->
  exists h', opk_project_direction c h (Some dst) (Some x) (Some set) (Some d) orient = Some (SUCCESS, h') /\
             writes h dst (k_boxprojdir c (is_desc orient) lo hi lx ldir) h'.
Proof.
  intros Hd Hx Hdir (b & B1 & B2 & B3 & Blo & Bhi) Sx Sdir Sb. assert (Hd' := Hd).
  destruct Hd as (D1 & D2 & D3 & D4). destruct Hx as (X1 & X2 & X3 & X4). destruct Hdir as (R1 & R2 & R3 & R4).
  destruct (Sb b B1) as [Alo Ahi]. clear Sb.
  assert (Slo := is_bound_size _ _ _ _ _ Blo). assert (Shi := is_bound_size _ _ _ _ _ Bhi).
  unfold opk_project_direction, get_vec, get_box. rewrite D1, X1, B1, R1. cbn [v_owner v_data].
  rewrite B2, Nat.eqb_refl. cbn [negb orb]. rewrite B3.
  destruct b as [bs bl bu]. cbn [b_lower b_upper b_space] in *. clear B1 B2.
  assert (L : length (k_boxprojdir c (is_desc orient) lo hi lx ldir) = n) by (apply projdir_length2; auto).
  bounds Blo Bhi Alo Ahi; cbn [bound_apart] in *;
    repeat match goal with H : forall vv, h_vec _ _ = _ -> _, H' : h_vec _ _ = Some _ |- _ => specialize (H _ H'); cbn [v_data] in H end;
    (eapply lift_s_writes; [exact Hd'|exact L|]); simpl.
  all: first
    [ apply (copy_spec _ pd pdir (h_mem h) ldir ld); auto; fail
    | eapply ew2_spec with (ld := ld); eauto; fail
    | eapply ew3_spec with (ld := ld); eauto; fail
    | eapply ew4_spec with (ld := ld); eauto; fail ].
Qed.

Lemma get_free_variables_ok (h : heap) dst x set d s n pd px pdir ld lx ldir lo hi orient :
  is_vector h dst s n pd ld -> is_vector h x s n px lx -> is_vector h d s n pdir ldir -> is_box h set s n lo hi ->
  same_or_apart pd px n -> same_or_apart pd pdir n -> box_apart h set pd n ->
  exists h', opk_get_free_variables c h (Some dst) (Some x) (Some set) (Some d) orient = Some (SUCCESS, h') /\
             writes h dst (k_boxfreevar c (is_desc orient) lo hi lx ldir) h'.
Proof.
  intros Hd Hx Hdir (b & B1 & B2 & B3 & Blo & Bhi) Sx Sdir Sb. assert (Hd' := Hd).
  destruct Hd as (D1 & D2 & D3 & D4). destruct Hx as (X1 & X2 & X3 & X4). destruct Hdir as (R1 & R2 & R3 & R4).
  destruct (Sb b B1) as [Alo Ahi]. clear Sb.
  assert (Slo := is_bound_size _ _ _ _ _ Blo). assert (Shi := is_bound_size _ _ _ _ _ Bhi).
  unfold opk_get_free_variables, get_vec, get_box. rewrite D1, X1, B1, R1. cbn [v_owner v_data].
  rewrite B2, Nat.eqb_refl. cbn [negb orb]. rewrite B3.
  destruct b as [bs bl bu]. cbn [b_lower b_upper b_space] in *. clear B1 B2.
  assert (L : length (k_boxfreevar c (is_desc orient) lo hi lx ldir) = n) by (apply freevar_length2; auto).
  assert (F1 : map (fun _ => @nZ E 1) ldir = repeat (nZ 1) n) by (rewrite map_one, R3; reflexivity).
  bounds Blo Bhi Alo Ahi; cbn [bound_apart] in *;
    repeat match goal with H : forall vv, h_vec _ _ = _ -> _, H' : h_vec _ _ = Some _ |- _ => specialize (H _ H'); cbn [v_data] in H end;
    (eapply lift_s_writes; [exact Hd'|exact L|]); simpl.
  all: first
    [ eapply ew2_spec with (ld := ld); eauto; fail
    | eapply ew3_spec with (ld := ld); eauto; fail
    | eapply ew4_spec with (ld := ld); eauto; fail
    | idtac ].
  rewrite F1. apply (ew0_spec _ pd _ (h_mem h) ld); auto.
Qed.

Lemma get_step_limits_ok (h : heap) x set d s n px pdir lx ldir lo hi orient :
  is_vector h x s n px lx -> is_vector h d s n pdir ldir -> is_box h set s n lo hi ->
  opk_get_step_limits c h (Some x) (Some set) (Some d) orient =
    Some (SUCCESS, Some (k_boxsteplim c (is_desc orient) lo hi lx ldir)).
Proof.
  intros Hx Hdir (b & B1 & B2 & B3 & Blo & Bhi).
  destruct Hx as (X1 & X2 & X3 & X4). destruct Hdir as (R1 & R2 & R3 & R4).
  unfold opk_get_step_limits, get_vec, get_box. rewrite X1, B1, R1. cbn [v_owner v_data].
  rewrite B2, Nat.eqb_refl. cbn [negb orb]. rewrite B3.
  destruct b as [bs bl bu]. cbn [b_lower b_upper b_space] in *. clear B1 B2.
  bounds Blo Bhi Alo Ahi; unfold mk_boxsteplim, mk_bound; auto;
  repeat match goal with H : holds _ ?p ?l |- context[read_all _ ?p ?n] =>
     replace (read_all (h_mem h) p n) with (Some l) by (symmetry; replace n with (length l) by congruence; apply read_all_spec; auto) end;
  reflexivity.
Qed.

(** ** Exchange *)
Lemma swap_spec n x y (m : mem) lx ly :
  length lx = n -> length ly = n -> holds m x lx -> holds m y ly -> same_or_apart x y n ->
  exists m', mk_swap n x y m = Some m' /\ holds m' x ly /\ holds m' y lx /\
    forall b o, ~ in_area x n b o -> ~ in_area y n b o -> m' b o = m b o.
Proof.
  intros Lx Ly Hx Hy Hsep. unfold mk_swap. destruct (ptr_eqb_spec x y) as [->|Hne].
  - exists m. assert (lx = ly).
    { apply list_eq_nth_error. intros j. destruct (lt_dec j n) as [Hj|Hj].
      - destruct (holds_nth m y lx j) as (a & Ha & Ha'); auto; try lia.
        destruct (holds_nth m y ly j) as (b & Hb & Hb'); auto; try lia. congruence.
      - transitivity (@None E); [|symmetry]; apply nth_error_None; lia. }
    subst. auto.
  - destruct Hsep as [->|Hsep]; [congruence|].
    unfold for_n.
    assert (Q : forall k j m1, j + k = n ->
      (forall i, i < j -> rd m1 x i = nth_error ly i /\ rd m1 y i = nth_error lx i) ->
      (forall i, j <= i < n -> rd m1 x i = nth_error lx i /\ rd m1 y i = nth_error ly i) ->
      (forall b o, ~ in_area x n b o -> ~ in_area y n b o -> m1 b o = m b o) ->
      exists m', for_loop (fun j m => do t <- rd m x j; do b <- rd m y j; do m <- wr m x j b; wr m y j t) k j m1 = Some m' /\
        (forall i, i < n -> rd m' x i = nth_error ly i /\ rd m' y i = nth_error lx i) /\
        (forall b o, ~ in_area x n b o -> ~ in_area y n b o -> m' b o = m b o)).
    { induction k as [|k IH]; intros j m1 Hjk H1 H2 H3.
      - exists m1. simpl. split; auto. split; auto. intros i Hi. apply H1. lia.
      - cbn [for_loop]. destruct (H2 j) as [Ex Ey]; [lia|].
        destruct (nth_error_Some_ex lx j) as [a Ha]; [lia|].
        destruct (nth_error_Some_ex ly j) as [b Hb]; [lia|].
        rewrite Ex, Ey, Ha, Hb. unfold wr. rewrite Ex, Ha.
        assert (NE : forall i, i < n -> ~ (fst y = fst x /\ snd y + i = snd x + j)).
        { intros i Hi [E1 E2]. apply (Hsep (fst y) (snd y + i)); unfold in_area; lia. }
        assert (NE2 : forall i, i < n -> ~ (fst x = fst y /\ snd x + i = snd y + j)).
        { intros i Hi [E1 E2]. apply (Hsep (fst x) (snd x + i)); unfold in_area; lia. }
        assert (Ry : rd (upd m1 x j b) y j = Some b).
        { unfold rd. rewrite upd_other by (apply NE; lia). unfold rd in Ey. congruence. }
        rewrite Ry. apply IH; [lia| | |].
        + intros i Hi. destruct (Nat.eq_dec i j) as [->|Hij].
          * split; [|rewrite rd_upd_same; auto].
            unfold rd. rewrite upd_other by (apply NE2; lia).
            change (rd (upd m1 x j b) x j = nth_error ly j). rewrite rd_upd_same. auto.
          * unfold rd. rewrite !upd_other by first [lia | apply NE; lia | apply NE2; lia]. apply H1. lia.
        + intros i Hi. unfold rd. rewrite !upd_other by first [lia | apply NE; lia | apply NE2; lia]. apply H2. lia.
        + intros b0 o Hnx Hny. rewrite !upd_other; auto; unfold in_area in *; lia. }
    destruct (Q n 0 m) as (m' & Hm & Hv & Hs); auto; try lia.
    + intros i Hi. destruct (holds_nth m x lx i) as (a & Ha & Ha'); auto; try lia.
      destruct (holds_nth m y ly i) as (b & Hb & Hb'); auto; try lia. split; congruence.
    + exists m'. split; [exact Hm|]. split; [|split; [|exact Hs]].
      * intros j a Ha. destruct (Hv j) as [E1 E2]; [apply nth_error_lt in Ha; lia|]. congruence.
      * intros j a Ha. destruct (Hv j) as [E1 E2]; [apply nth_error_lt in Ha; lia|]. congruence.
Qed.
End Mem.
