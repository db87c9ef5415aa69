(** * Reference counting: box sets, optimizers, driver *)
From Coq Require Import List ZArith Bool Arith Lia.
From Verif Require Import Base MemModel ObjModel ObjSpec ObjProofs ObjOps.
Import ListNotations.

Section Ops.
Context {V : Type} (zero : V) (convert : eltype -> eltype -> V -> V).
Notation st := (st V).
Notation content := (content V).

Lemma inv_unnull (s : st) ext inst : inv s (None :: ext) inst -> inv s ext inst.
Proof. apply inv_perm. reflexivity. Qed.

Lemma value_ok_frame (s s' : st) ext ext' inst sp type v : value_ok s ext sp type v -> frame [] s s' -> inv s' ext' inst -> incl ext ext' ->
  inv s ext inst -> anch s ext sp -> value_ok s' ext' sp type v.
Proof.
  intros H F I Hi I0 Ha.
  assert (Q : forall i dt, (forall a o t n, sp = Some a -> get s a = Some o -> body o = CSpace t n -> exists l, nth_error (arrays s) i = Some (dt, l) /\ Z.to_nat n <= length l) ->
     (forall a o t n, sp = Some a -> get s' a = Some o -> body o = CSpace t n -> exists l, nth_error (arrays s') i = Some (dt, l) /\ Z.to_nat n <= length l)).
  { intros i dt Hq a o t n -> Ho B. destruct (anch_live _ _ _ _ I0 Ha) as (o0 & H0 & _).
    destruct (f_old _ _ _ F a o) as (o1 & H1 & _ & Bd & _); [eapply get_lt; eauto|exact Ho|].
    rewrite (f_arr _ _ _ F). apply (Hq a o1 t n); auto. rewrite <- Bd by (intros []). exact B. }
  unfold value_ok in *. destruct type as [|p|p]; auto.
  repeat (match goal with p : positive |- _ => destruct p end; auto); try (destruct v; auto; apply Q; exact H).
  destruct v; auto. destruct H as [H1 H2]. split; [|eapply pt_frame; eauto].
  eapply anch_incl; [|exact Hi]. eapply anch_frame0; eauto.
Qed.

Lemma bound_is_back (s s1 s2 : st) ext inst sp type v b : frame [] s s1 -> inv s ext inst -> anch s ext sp ->
  bound_is convert s1 s2 sp type v b -> bound_is convert s s2 sp type v b.
Proof.
  intros F I Ha.
  assert (Q : forall i p, (exists v asp osp t n ta l, p = Some v /\ length (objs s1) <= v /\ sp = Some asp /\ get s1 asp = Some osp /\ body osp = CSpace t n /\
      nth_error (arrays s1) i = Some (ta, l) /\ Z.to_nat n <= length l /\
      (forall o, get s2 v = Some o -> body o = CVector sp (Inner (map (convert ta t) (firstn (Z.to_nat n) l))) None 0)) ->
   (exists v asp osp t n ta l, p = Some v /\ length (objs s) <= v /\ sp = Some asp /\ get s asp = Some osp /\ body osp = CSpace t n /\
      nth_error (arrays s) i = Some (ta, l) /\ Z.to_nat n <= length l /\
      (forall o, get s2 v = Some o -> body o = CVector sp (Inner (map (convert ta t) (firstn (Z.to_nat n) l))) None 0))).
  { intros i p (w & asp & osp & t & n & ta & l & E1 & E2 & E3 & E4 & E5 & E6 & E7 & E8). pose proof (f_len _ _ _ F). rewrite (f_arr _ _ _ F) in E6. subst sp.
    destruct (anch_live _ _ _ _ I Ha) as (o0 & H0 & _).
    destruct (f_old _ _ _ F asp osp) as (o1 & H1 & _ & Bd & _); [eapply get_lt; eauto|exact E4|].
    exists w, asp, o1, t, n, ta, l. repeat (split; [auto; try lia; try (rewrite <- Bd by (intros []); exact E5)|]). exact E8. }
  unfold bound_is. destruct type as [|p|p]; auto. repeat (match goal with p : positive |- _ => destruct p end; auto); destruct v; auto; destruct b; auto.
Qed.

Lemma bound_is_forward (s s1 s2 : st) T sp type v b : frame T s1 s2 -> Forall (fun p => pt s1 p is_vector) (bound_ref b) ->
  (forall a, In a T -> a < length (objs s)) ->
  bound_is convert s s1 sp type v b -> bound_is convert s s2 sp type v b.
Proof.
  intros F Hp HT.
  assert (Q : forall i p, Forall (fun p => pt s1 p is_vector) [p] -> (exists v asp osp t n ta l, p = Some v /\ length (objs s) <= v /\ sp = Some asp /\ get s asp = Some osp /\ body osp = CSpace t n /\
      nth_error (arrays s) i = Some (ta, l) /\ Z.to_nat n <= length l /\
      (forall o, get s1 v = Some o -> body o = CVector sp (Inner (map (convert ta t) (firstn (Z.to_nat n) l))) None 0)) ->
   (exists v asp osp t n ta l, p = Some v /\ length (objs s) <= v /\ sp = Some asp /\ get s asp = Some osp /\ body osp = CSpace t n /\
      nth_error (arrays s) i = Some (ta, l) /\ Z.to_nat n <= length l /\
      (forall o, get s2 v = Some o -> body o = CVector sp (Inner (map (convert ta t) (firstn (Z.to_nat n) l))) None 0))).
  { intros i p Hpp (w & asp & osp & t & n & ta & l & E1 & E2 & E3 & E4 & E5 & E6 & E7 & E8).
    exists w, asp, osp, t, n, ta, l. repeat (split; [auto|]).
    intros o Ho. subst p. inversion Hpp as [|? ? Hpw _]. destruct (Hpw w eq_refl) as [Lw _].
    destruct (f_old _ _ _ F w o Lw Ho) as (o1 & H1 & _ & Bd & _). rewrite Bd; [apply E8; exact H1|]. intros X. specialize (HT w X). lia. }
  unfold bound_is. destruct type as [|p|p]; auto. repeat (match goal with p : positive |- _ => destruct p end; auto); destruct v; auto; destruct b; auto.
Qed.

(** ** Box sets: algebra.c 806-855 *)
Lemma boxset_ok (s : st) ext inst sp lt lv ut uv : inv s ext inst -> (sp <> None -> anch s ext sp) -> pt s sp is_space ->
  (sp <> None -> value_ok s ext sp lt lv) -> (sp <> None -> value_ok s ext sp ut uv) ->
  ok (new_boxset zero convert sp lt lv ut uv) s (fun p s' => made (fun k => k = KBox sp) s s' p ext inst /\
    forall a, p = Some a -> exists b1 b2, (forall o, get s' a = Some o -> body o = CBox sp b1 b2) /\ bound_is convert s s' sp lt lv b1 /\ bound_is convert s s' sp ut uv b2).
Proof.
  intros I Hin Hp Hl Hu. unfold new_boxset. set (Q := fun p s' => _).
  assert (N : forall s', inv s' ext inst -> frame [] s s' -> ok (ret None) s' Q).
  { intros s' I' F'. apply ok_ret. split; [apply made_null; auto|discriminate]. }
  destruct sp as [asp|]; [|apply N; [exact I|apply frame_refl]].
  specialize (Hin ltac:(discriminate)). specialize (Hl ltac:(discriminate)). specialize (Hu ltac:(discriminate)).
  apply ok_bind. apply (read_space_ok s ext inst); auto. intros _ _ t n _ _ _.
  apply ok_bind. destruct (malloc_ok s ext inst I) as (b & s1 & E1 & I1 & F1 & L1 & G1). exists b, s1. split; [exact E1|].
  destruct b; [|apply N; auto].
  destruct (anch_hold s1 ext inst asp I1) as (s2 & E2 & I2 & F2 & L2).
  { apply (anch_frame0 s s1 ext ext inst); auto using incl_refl. }
  apply ok_bind. exists (Some asp), s2. split; [exact E2|].
  assert (F02 : frame [] s s2) by (eapply frame_trans; eauto).
  assert (W : wt s2 (CBox (Some asp) BNone BNone)).
  { split; [discriminate|]. split; [eapply pt_frame; eauto|constructor]. }
  destruct (allocate_ok s2 ext inst (CBox (Some asp) BNone BNone) I2 W ltac:(discriminate)) as (s3 & E3 & I3 & F3 & G3 & L3).
  set (box := length (objs s2)) in *. simpl in I3.
  apply ok_bind. exists box, s3. split; [exact E3|].
  assert (F03 : frame [] s s3) by (eapply frame_trans; eauto).
  assert (A3 : anch s3 (Some box :: ext) (Some asp)).
  { apply anch_cons. eapply (anch_frame0 s s3 ext); eauto. intros x; right; auto. }
  assert (Lbox : length (objs s) <= box) by (unfold box; lia).
  eapply ok_then.
  { apply (set_bound_ok zero convert s3 (Some box :: ext) inst (Some asp) lt lv); auto.
    - eapply pt_frame; eauto.
    - eapply value_ok_frame; eauto. intros x; right; auto. }
  intros [st1 b1] s4 (I4 & F4 & P4 & N4 & S4 & _). simpl in *.
  (* assign the lower bound *)
  assert (A4 : anch s4 (bound_ref b1 ++ Some box :: ext) (Some asp)).
  { eapply anch_incl; [eapply (anch_frame0 s3 s4 (Some box :: ext)); [exact A3|exact F4|exact I4|]|]; intros x Hx; rewrite in_app_iff; auto. }
  assert (B4 : forall o, get s4 box = Some o -> body o = CBox (Some asp) BNone BNone).
  { intros o Ho. destruct (f_old _ _ _ F4 box o) as (o1 & H1 & _ & Bd & _); [rewrite L3; lia|exact Ho|]. rewrite Bd by (intros []). rewrite G3 in H1. injection H1 as <-. reflexivity. }
  eapply ok_then.
  { apply (assign_ok s4 (bound_ref b1 ++ Some box :: ext) inst box (CBox (Some asp) BNone BNone) (CBox (Some asp) b1 BNone)) with (ext' := Some box :: ext); auto.
    - rewrite in_app_iff. right. left. reflexivity.
    - split; [discriminate|]. split; [eapply pt_frame; [exact F4|]; eapply pt_frame; eauto|]. rewrite app_nil_r. exact P4.
    - intros x. cbn [dropped bound_ref app]. rewrite !cnt_app. simpl. lia. }
  intros _ s5 (I5 & F5 & B5). cbv beta in *.
  assert (F05 : frame [box] s s5) by (eapply frame_trans; [apply frame0; eapply frame_trans; [exact F03|exact F4]|exact F5]).
  assert (F05' : frame [] s s5).
  { eapply frame_fresh; [eapply frame_trans; [exact F03|exact F4]|exact F5| |].
    - intros x [<-|[]]. exact Lbox.
    - intros x o r [<-|[]] Ho. rewrite (B5 o Ho). discriminate. }
  assert (Fail : ok (bind (drop (Some box)) (fun _ => ret None)) s5 Q).
  { eapply ok_then; [apply (drop_top s5 ext inst (Some box)); exact I5|]. intros _ s6 (I6 & F6 & _). cbv beta in *. apply N; [exact I6|eapply frame_trans; eauto]. }
  destruct (is_success st1) eqn:S1; [|exact Fail]. specialize (S4 eq_refl).
  assert (A5 : anch s5 ext (Some asp)).
  { eapply (anch_frame0 s s5 ext); eauto. intros x; right; auto. }
  eapply ok_then.
  { apply (set_bound_ok zero convert s5 (Some box :: ext) inst (Some asp) ut uv); auto.
    - apply anch_cons. exact A5.
    - eapply pt_frame; eauto.
    - eapply value_ok_frame; eauto. intros x; right; auto. }
  intros [st2 b2] s6 (I6 & F6 & P6 & N6 & S6 & _). simpl in *.
  assert (P5 : Forall (fun p => pt s6 p is_vector) (bound_ref b1)).
  { eapply Forall_impl; [|exact P4]. intros p X. eapply pt_frame; [exact F6|]. eapply pt_frame; [exact F5|exact X]. }
  assert (B6 : forall o, get s6 box = Some o -> body o = CBox (Some asp) b1 BNone).
  { intros o Ho. destruct (f_old _ _ _ F6 box o) as (o1 & H1 & _ & Bd & _); [pose proof (f_len _ _ _ F5); pose proof (f_len _ _ _ F4); lia|exact Ho|]. rewrite Bd by (intros []). apply B5. exact H1. }
  eapply ok_then.
  { apply (assign_ok s6 (bound_ref b2 ++ Some box :: ext) inst box (CBox (Some asp) b1 BNone) (CBox (Some asp) b1 b2)) with (ext' := Some box :: ext); auto.
    - rewrite in_app_iff. right. left. reflexivity.
    - split; [discriminate|]. split; [eapply pt_frame; [exact F6|]; eapply pt_frame; eauto|]. apply Forall_app. auto.
    - intros x. cbn [dropped bound_ref app]. rewrite !cnt_app. simpl. lia. }
  intros _ s7 (I7 & F7 & B7). cbv beta in *.
  assert (F07 : frame [] s s7).
  { eapply frame_fresh; [eapply frame_trans; [exact F05'|exact F6]|exact F7| |].
    - intros x [<-|[]]. exact Lbox.
    - intros x o r [<-|[]] Ho. rewrite (B7 o Ho). discriminate. }
  destruct (is_success st2) eqn:S2.
  2: { eapply ok_then; [apply (drop_top s7 ext inst (Some box)); exact I7|]. intros _ s8 (I8 & F8 & _). cbv beta in *. apply N; [exact I8|eapply frame_trans; eauto]. }
  specialize (S6 eq_refl). apply ok_ret. split.
  - split; [exact I7|exact F07| |].
    + intros x [= <-]. exact Lbox.
    + intros x [= <-]. split; [pose proof (f_len _ _ _ F7); pose proof (f_len _ _ _ F6); pose proof (f_len _ _ _ F5); pose proof (f_len _ _ _ F4); lia|].
      intros o Ho. rewrite (B7 o Ho). reflexivity.
  - intros x [= <-]. exists b1, b2. split; [exact B7|].
    assert (Lb : forall a, In a [box] -> a < length (objs s3)) by (intros x [<-|[]]; lia).
    split.
    + eapply (bound_is_back s s3); eauto. eapply (bound_is_forward s3 s6); [exact F7|exact P5|exact Lb|].
      eapply (bound_is_forward s3 s5); [exact (frame0 s5 s6 [box] F6)| |exact Lb|].
      { eapply Forall_impl; [|exact P4]. intros p X. eapply pt_frame; [exact F5|exact X]. }
      eapply (bound_is_forward s3 s4); [exact F5|exact P4|exact Lb|exact S4].
    + eapply (bound_is_back s s5); eauto. eapply (bound_is_forward s5 s6); [exact F7|exact P6| |exact S6].
      intros x [<-|[]]. pose proof (f_len _ _ _ F5); pose proof (f_len _ _ _ F4); lia.
Qed.

(** ** Optimizers *)

(** [p] may be passed to a function: NULL or a referenced object of the right kind *)
Definition avail (s : st) (ext : list ptr) (p : ptr) (K : kind -> Prop) : Prop := (p <> None -> anch s ext p) /\ pt s p K.

Lemma avail_frame (s s' : st) ext inst a p K : avail s ext p K -> frame [a] s s' -> inv s' (Some a :: ext) inst -> ~ In (Some a) ext -> avail s' ext p K.
Proof.
  intros [A B] F I N. split; [|eapply pt_frame; eauto]. intros Hn. eapply (anch_frame [a]); eauto.
  - intros x; right; auto.
  - intros x [<-|[]]. exact N.
Qed.
Lemma avail_frame0 (s s' : st) ext ext' inst p K : avail s ext p K -> frame [] s s' -> inv s' ext' inst -> incl ext ext' -> avail s' ext p K.
Proof. intros [A B] F I N. split; [|eapply pt_frame; eauto]. intros Hn. eapply anch_frame0; eauto. Qed.
Lemma avail_cons (s : st) ext q p K : avail s ext p K -> avail s (q :: ext) p K.
Proof. intros [A B]. split; auto. intros Hn. apply anch_cons. auto. Qed.

Lemma member_gen {A} (R : ptr -> Prop) (s : st) ext inst a c (mk : ptr -> content) K m (k : ptr -> M V A) Q : inv s (Some a :: ext) inst -> (forall o, get s a = Some o -> body o = c) ->
  ok m s (fun p s' => (inv s' (p :: Some a :: ext) inst /\ frame [] s s' /\ pt s' p K) /\ R p) ->
  (forall p s', wt s' c -> pt s' p K -> wt s' (mk p)) -> (forall p, shape (mk p) = shape c) -> new_pair c = [] -> (forall p, new_pair (mk p) = []) ->
  (forall p b, cnt (dropped (mk p)) b = pc p b + cnt (dropped c) b) ->
  (forall p s', R p -> inv s' (Some a :: ext) inst -> frame [a] s s' -> (forall o, get s' a = Some o -> body o = mk p) -> pt s' p K -> ok (k p) s' Q) ->
  ok (bind m (fun p => bind (setc a (mk p)) (fun _ => k p))) s Q.
Proof.
  intros I B Hm W Sh P1 P2 C Hk. eapply ok_then; [exact Hm|]. intros p s1 ((I1 & F1 & Pp) & HR). cbv beta in *.
  assert (B1 : forall o, get s1 a = Some o -> body o = c).
  { intros o Ho. destruct (inv_live _ _ _ a I) as (o0 & H0 & _); [left; reflexivity|].
    destruct (f_old _ _ _ F1 a o) as (o1 & H1 & _ & Bd & _); [eapply get_lt; eauto|exact Ho|]. rewrite Bd by (intros []). apply B. exact H1. }
  eapply ok_then.
  { apply (assign_ok s1 (p :: Some a :: ext) inst a c (mk p)) with (ext' := Some a :: ext); auto.
    - right; left; reflexivity.
    - apply W; auto. destruct (inv_live _ _ _ a I1) as (o1 & H1 & _); [right; left; reflexivity|]. rewrite <- (B1 o1 H1). eapply i_wt; eauto.
    - intros x. rewrite C. simpl. lia. }
  intros _ s2 (I2 & F2 & B2). cbv beta in *. apply Hk; auto.
  - eapply frame_trans; [apply frame0; exact F1|exact F2].
  - eapply pt_frame; eauto.
Qed.
Lemma member_ok {A} (s : st) ext inst a c (mk : ptr -> content) K m (k : ptr -> M V A) Q : inv s (Some a :: ext) inst -> (forall o, get s a = Some o -> body o = c) ->
  ok m s (fun p s' => inv s' (p :: Some a :: ext) inst /\ frame [] s s' /\ pt s' p K) ->
  (forall p s', wt s' c -> pt s' p K -> wt s' (mk p)) -> (forall p, shape (mk p) = shape c) -> new_pair c = [] -> (forall p, new_pair (mk p) = []) ->
  (forall p b, cnt (dropped (mk p)) b = pc p b + cnt (dropped c) b) ->
  (forall p s', inv s' (Some a :: ext) inst -> frame [a] s s' -> (forall o, get s' a = Some o -> body o = mk p) -> pt s' p K -> ok (k p) s' Q) ->
  ok (bind m (fun p => bind (setc a (mk p)) (fun _ => k p))) s Q.
Proof.
  intros I B Hm W Sh P1 P2 C Hk. apply (member_gen (fun _ => True) s ext inst a c mk K m k Q); auto.
  eapply ok_mono; [exact Hm|]. auto.
Qed.

Lemma vcreate_got (s : st) ext inst sp q : inv s (q :: ext) inst -> avail s ext sp is_space -> sp <> None ->
  ok (vcreate zero sp) s (fun p s' => inv s' (p :: q :: ext) inst /\ frame [] s s' /\ pt s' p is_vector).
Proof.
  intros I [A P] Hn. eapply ok_mono; [apply (vcreate_ok zero s (q :: ext) inst); auto; apply anch_cons; auto|].
  intros p s' [[M1 M2 M3 M4] _]. auto.
Qed.
Lemma hold_got (s : st) ext inst p q K : inv s (q :: ext) inst -> avail s ext p K -> p <> None ->
  ok (hold_object p) s (fun p' s' => p' = p /\ inv s' (p' :: q :: ext) inst /\ frame [] s s' /\ pt s' p' K).
Proof.
  intros I [A P] Hn. destruct p as [a|]; [|congruence].
  destruct (anch_hold s (q :: ext) inst a I) as (s' & E & I' & F & L); [apply anch_cons; auto|].
  exists (Some a), s'. split; [exact E|]. split; [reflexivity|]. split; [exact I'|]. split; [exact F|]. eapply pt_frame; eauto.
Qed.
Lemma lnsrch_got (s : st) ext inst ln q : inv s (q :: ext) inst -> avail s ext ln is_lnsrch ->
  ok (match ln with Some _ => hold_object ln | None => new_lnsrch true end) s (fun p s' => inv s' (p :: q :: ext) inst /\ frame [] s s' /\ pt s' p is_lnsrch).
Proof.
  intros I A. destruct ln as [ln|].
  - eapply ok_mono; [apply (hold_got s ext inst (Some ln) q is_lnsrch); auto; discriminate|]. intros p s' H. apply H.
  - eapply ok_mono; [apply (lnsrch_ok s (q :: ext) inst); auto|]. intros p s' [M1 M2 M3 M4]. auto.
Qed.

Lemma cnt_put l k p b : nth_error l k = Some None -> cnt (put_ptr l k p) b = pc p b + cnt l b.
Proof. revert k. induction l as [|q l IH]; intros [|k]; simpl; try discriminate; [intros [= ->]; simpl; lia|]. intros E. rewrite (IH k E). lia. Qed.
Lemma nth_put l k p j : j <> k -> nth_error (put_ptr l k p) j = nth_error l j.
Proof. revert k j. induction l as [|q l IH]; intros [|k] [|j]; simpl; auto; try congruence. Qed.
Lemma Forall_put (P : ptr -> Prop) l k p : Forall P l -> P p -> Forall P (put_ptr l k p).
Proof. intros H Hp. revert k. induction H; intros [|k]; simpl; constructor; auto. Qed.

Definition pristine (r : vm) : Prop := vm_x0 r = None /\ vm_g0 r = None.

Lemma pairs_ok (a : addr) ext inst sp n : ~ In (Some a) ext -> sp <> None -> forall k r (s : st),
  inv s (Some a :: ext) inst -> (forall o, get s a = Some o -> body o = CVmlmb r) -> avail s ext sp is_space -> pristine r ->
  (forall j, k <= j < k + n -> nth_error (vm_s r) j = Some None /\ nth_error (vm_y r) j = Some None) ->
  ok (create_pairs zero a sp r n k) s (fun br s' => inv s' (Some a :: ext) inst /\ frame [a] s s' /\
     (forall o, get s' a = Some o -> body o = CVmlmb (snd br)) /\ exists s1 y1, snd br = set_sy r s1 y1).
Proof.
  intros Na Hn. induction n as [|n IH]; intros k r s I B Av Pr Hk; cbn [create_pairs].
  - apply ok_ret. simpl. split; [exact I|]. split; [apply frame_refl|]. split; [exact B|]. exists (vm_s r), (vm_y r). destruct r; reflexivity.
  - destruct (Hk k ltac:(lia)) as [Ks Ky]. destruct Pr as [Px Pg].
    apply (member_ok s ext inst a (CVmlmb r) (fun p => CVmlmb (set_sy r (put_ptr (vm_s r) k p) (vm_y r))) is_vector); auto.
    + apply vcreate_got; auto.
    + intros p s' (H1 & H2 & H3 & H4 & H5 & H6 & H7 & H8 & H9 & H10 & H11) Hp. simpl.
      repeat match goal with |- _ /\ _ => split end; auto. apply Forall_put; auto.
    + intros p b. simpl. rewrite !cnt_app. simpl. rewrite !cnt_app. rewrite (cnt_put _ _ _ _ Ks). lia.
    + intros p s1 I1 F1 B1 Pp. pose proof (avail_frame _ _ _ _ _ _ _ Av F1 I1 Na) as Av1.
      set (r1 := set_sy r (put_ptr (vm_s r) k p) (vm_y r)) in *.
      destruct (nonnull p) eqn:Np.
      2: { apply ok_ret. simpl. split; [exact I1|]. split; [exact F1|]. split; [exact B1|]. exists (vm_s r1), (vm_y r1). reflexivity. }
      apply (member_ok s1 ext inst a (CVmlmb r1) (fun q => CVmlmb (set_sy r1 (vm_s r1) (put_ptr (vm_y r1) k q))) is_vector); auto.
      * apply vcreate_got; auto.
      * intros q s' (H1 & H2 & H3 & H4 & H5 & H6 & H7 & H8 & H9 & H10 & H11) Hq. simpl in *.
        repeat match goal with |- _ /\ _ => split end; auto. apply Forall_put; auto.
      * intros q b. simpl. rewrite !cnt_app. simpl. rewrite !cnt_app. rewrite (cnt_put _ _ _ _ Ky). lia.
      * intros q s2 I2 F2 B2 Pq. pose proof (avail_frame _ _ _ _ _ _ _ Av1 F2 I2 Na) as Av2.
        set (r2 := set_sy r1 (vm_s r1) (put_ptr (vm_y r1) k q)) in *.
        destruct (nonnull q) eqn:Nq.
        2: { apply ok_ret. simpl. split; [exact I2|]. split; [eapply frame_trans; eauto|]. split; [exact B2|]. exists (vm_s r2), (vm_y r2). reflexivity. }
        eapply ok_mono; [apply (IH (S k) r2 s2); auto|].
        -- split; assumption.
        -- intros j Hj. unfold r2, r1. simpl. rewrite !nth_put by lia. apply Hk. lia.
        -- intros [bb rr] s'' (X1 & X2 & X3 & s' & y' & X4). simpl in *. split; [exact X1|]. split; [eapply frame_trans; [|exact X2]; eapply frame_trans; eauto|].
           split; [exact X3|]. rewrite X4. exists s', y'. reflexivity.
Qed.

Ltac vmwt := let H1 := fresh in intros ? ? (? & ? & ? & ? & ? & ? & ? & ? & ? & ? & H1) ?; simpl in *;
  repeat match goal with |- _ /\ _ => split end; auto; try (intros X; specialize (H1 X); auto; fail).

Lemma vmlmb_members_ok (s : st) a ext inst sp ln box r : ~ In (Some a) ext -> sp <> None ->
  inv s (Some a :: ext) inst -> (forall o, get s a = Some o -> body o = CVmlmb r) ->
  avail s ext sp is_space -> avail s ext ln is_lnsrch -> avail s ext box is_box ->
  pristine r -> vm_vspace r = None -> vm_lnsrch r = None -> vm_d r = None -> vm_w r = None -> vm_box r = None ->
  ok (vmlmb_members zero a sp ln box r) s (fun b s' => inv s' (Some a :: ext) inst /\ frame [a] s s' /\ pt s' (Some a) is_opt).
Proof.
  intros Na Hn I B As Al Ab [Px Pg] Rv Rl Rd Rw Rb. unfold vmlmb_members.
  set (Q := fun b s' => _).
  assert (Fin : forall b s', inv s' (Some a :: ext) inst -> frame [a] s s' -> ok (ret b) s' Q).
  { intros b s' I' F'. apply ok_ret. split; [exact I'|]. split; [exact F'|]. eapply pt_frame; [exact F'|].
    intros x [= <-]. destruct (inv_live _ _ _ a I) as (o & Ho & _); [left; reflexivity|]. split; [eapply get_lt; eauto|]. intros o' Ho'. rewrite (B o' Ho'). exact Logic.I. }
  apply (member_ok s ext inst a (CVmlmb r) (fun p => CVmlmb (set_lnsrch r p (vm_lnsrch r))) is_space); auto.
  { eapply ok_mono; [apply (hold_got s ext inst sp (Some a) is_space); auto|]. intros p s' X; apply X. }
  { vmwt. }
  { intros p b. simpl. rewrite Rv. simpl. lia. }
  intros p1 s1 I1 F1 B1 P1. clear B I.
  apply (avail_frame _ s1 _ inst a) in As, Al, Ab; auto.
  set (r1 := set_lnsrch r p1 (vm_lnsrch r)) in *.
  apply (member_ok s1 ext inst a (CVmlmb r1) (fun p => CVmlmb (set_lnsrch r1 (vm_vspace r1) p)) is_lnsrch); auto.
  { apply lnsrch_got; auto. }
  { vmwt. }
  { intros p b. simpl. rewrite Rl. simpl. lia. }
  intros p2 s2 I2 F2 B2 P2. clear B1 I1.
  apply (avail_frame _ s2 _ inst a) in As, Al, Ab; auto.
  set (r2 := set_lnsrch r1 (vm_vspace r1) p2) in *.
  assert (F02 : frame [a] s s2) by (eapply frame_trans; eauto).
  destruct (nonnull p2); [|apply Fin; auto]. simpl negb. cbn iota.
  eapply ok_then with (Q := fun br s' => inv s' (Some a :: ext) inst /\ frame [a] s2 s' /\ (forall o, get s' a = Some o -> body o = CVmlmb (snd br)) /\
     exists x g, snd br = set_xg r2 x g).
  { change (vm_save_memory r2) with (vm_save_memory r). destruct (vm_save_memory r) eqn:Sv.
    - apply ok_ret. simpl. split; [exact I2|]. split; [apply frame_refl|]. split; [exact B2|]. exists (vm_x0 r2), (vm_g0 r2). reflexivity.
    - apply (member_ok s2 ext inst a (CVmlmb r2) (fun p => CVmlmb (set_xg r2 p (vm_g0 r2))) is_vector); auto.
      { apply vcreate_got; auto. }
      { vmwt. intros X. simpl in X. congruence. }
      { intros p b. simpl. rewrite Sv. simpl. rewrite Px. simpl. lia. }
      intros p3 s3 I3 F3 B3 P3. pose proof (avail_frame _ _ _ _ _ _ _ As F3 I3 Na) as As3.
      set (r3 := set_xg r2 p3 (vm_g0 r2)) in *.
      destruct (nonnull p3).
      2: { apply ok_ret. simpl. split; [exact I3|]. split; [exact F3|]. split; [exact B3|]. exists p3, (vm_g0 r2). reflexivity. }
      apply (member_ok s3 ext inst a (CVmlmb r3) (fun p => CVmlmb (set_xg r3 (vm_x0 r3) p)) is_vector); auto.
      { apply vcreate_got; auto. }
      { vmwt. intros X. simpl in X. congruence. }
      { intros p b. simpl. rewrite Sv. simpl. rewrite Pg. simpl. lia. }
      intros p4 s4 I4 F4 B4 P4. apply ok_ret. simpl. split; [exact I4|]. split; [eapply frame_trans; eauto|]. split; [exact B4|]. exists p3, p4. reflexivity. }
  intros [okk r5] s5 (I5 & F5 & B5 & x5 & g5 & E5). simpl in B5, E5. subst r5. set (r5 := set_xg r2 x5 g5) in *.
  apply (avail_frame _ s5 _ inst a) in As, Al, Ab; auto. clear B2 I2.
  assert (F05 : frame [a] s s5) by (eapply frame_trans; eauto).
  destruct okk; [|apply Fin; auto]. simpl negb. cbn iota.
  apply (member_ok s5 ext inst a (CVmlmb r5) (fun p => CVmlmb (set_dwb r5 p (vm_w r5) (vm_box r5))) is_vector); auto.
  { apply vcreate_got; auto. }
  { vmwt. }
  { intros p b. simpl. rewrite !cnt_app. simpl. rewrite Rd. simpl. lia. }
  intros p6 s6 I6 F6 B6 P6. clear B5 I5.
  apply (avail_frame _ s6 _ inst a) in As, Al, Ab; auto.
  assert (F06 : frame [a] s s6) by (eapply frame_trans; eauto).
  destruct (nonnull p6); [|apply Fin; auto]. simpl negb. cbn iota.
  set (r6 := set_dwb r5 p6 (vm_w r5) (vm_box r5)) in *.
  destruct box as [box|]; [|apply Fin; auto].
  apply (member_ok s6 ext inst a (CVmlmb r6) (fun p => CVmlmb (set_dwb r6 (vm_d r6) (vm_w r6) p)) is_box); auto.
  { eapply ok_mono; [apply (hold_got s6 ext inst (Some box) (Some a) is_box); auto; discriminate|]. intros p s' X; apply X. }
  { vmwt. }
  { intros p b. simpl. rewrite !cnt_app. simpl. rewrite Rb. simpl. lia. }
  intros p7 s7 I7 F7 B7 P7. clear B6 I6.
  apply (avail_frame _ s7 _ inst a) in As, Al, Ab; auto.
  set (r7 := set_dwb r6 (vm_d r6) (vm_w r6) p7) in *.
  apply (member_ok s7 ext inst a (CVmlmb r7) (fun p => CVmlmb (set_dwb r7 (vm_d r7) p (vm_box r7))) is_vector); auto.
  { apply vcreate_got; auto. }
  { vmwt. }
  { intros p b. simpl. rewrite !cnt_app. simpl. rewrite Rw. simpl. lia. }
  intros p8 s8 I8 F8 B8 P8. apply Fin; auto. eapply frame_trans; [|exact F8]. eapply frame_trans; eauto.
Qed.

Lemma nth_repeat_none (m j : nat) : j < m -> nth_error (repeat (@None addr) m) j = Some None.
Proof. revert j. induction m; intros [|j] H; simpl; try lia; auto. apply IHm. lia. Qed.

Lemma vmlmb_init_ok (s : st) a ext inst sp ln box blmvm m save : ~ In (Some a) ext -> sp <> None ->
  inv s (Some a :: ext) inst -> let r := mkVm None None None None None None None None save (repeat None m) (repeat None m) in
  (forall o, get s a = Some o -> body o = CVmlmb r) ->
  avail s ext sp is_space -> avail s ext ln is_lnsrch -> avail s ext box is_box ->
  ok (vmlmb_init zero a blmvm m sp ln box r) s (fun b s' => inv s' (Some a :: ext) inst /\ frame [a] s s' /\ pt s' (Some a) is_opt).
Proof.
  intros Na Hn I r B As Al Ab. unfold vmlmb_init.
  set (Q := fun b s' => _).
  assert (Pa : pt s (Some a) is_opt).
  { intros x [= <-]. destruct (inv_live _ _ _ a I) as (o & Ho & _); [left; reflexivity|]. split; [eapply get_lt; eauto|]. intros o' Ho'. rewrite (B o' Ho'). exact Logic.I. }
  assert (Fin : forall b s', inv s' (Some a :: ext) inst -> frame [a] s s' -> ok (ret b) s' Q).
  { intros b s' I' F'. apply ok_ret. split; [exact I'|]. split; [exact F'|]. eapply pt_frame; [exact F'|exact Pa]. }
  set (r' := fun gp => mkVm None None None None None None gp None save (repeat None m) (repeat None m)).
  eapply ok_then with (Q := fun br s' => inv s' (Some a :: ext) inst /\ frame [a] s s' /\ exists gp, snd br = r' gp /\ (forall o, get s' a = Some o -> body o = CVmlmb (r' gp))).
  { assert (D : ok (ret (true, r)) s (fun br s' => inv s' (Some a :: ext) inst /\ frame [a] s s' /\ exists gp, snd br = r' gp /\ (forall o, get s' a = Some o -> body o = CVmlmb (r' gp)))).
    { apply ok_ret. simpl. split; [exact I|]. split; [apply frame_refl|]. exists None. auto. }
    destruct box as [box|]; [|exact D]. destruct blmvm; [|exact D].
    apply (member_ok s ext inst a (CVmlmb r) (fun p => CVmlmb (r' p)) is_vector); auto.
    { apply vcreate_got; auto. }
    { vmwt. }
    { intros p b. simpl. rewrite !cnt_app. simpl. lia. }
    intros p s1 I1 F1 B1 P1. apply ok_ret. simpl. split; [exact I1|]. split; [exact F1|]. exists p. auto. }
  intros [okk rr] s1 (I1 & F1 & gp & E1 & B1). simpl in E1. subst rr.
  apply (avail_frame _ s1 _ inst a) in As, Al, Ab; auto.
  destruct okk; [|apply Fin; auto]. simpl negb. cbn iota.
  eapply ok_then.
  { apply (pairs_ok a ext inst sp m Na Hn 0 (r' gp) s1); auto.
    - split; reflexivity.
    - intros j Hj. simpl. rewrite nth_repeat_none by lia. auto. }
  intros [okk rr] s2 (I2 & F2 & B2 & s' & y' & E2). simpl in E2, B2. subst rr.
  apply (avail_frame _ s2 _ inst a) in As, Al, Ab; auto.
  assert (F02 : frame [a] s s2) by (eapply frame_trans; eauto).
  destruct okk; [|apply Fin; auto]. simpl negb. cbn iota.
  eapply ok_mono; [apply (vmlmb_members_ok s2 a ext inst); auto; split; reflexivity|].
  intros b s3 (I3 & F3 & P3). split; [exact I3|]. split; [eapply frame_trans; eauto|exact P3].
Qed.

Lemma not_in_fresh (s : st) ext inst a : inv s ext inst -> length (objs s) <= a -> ~ In (Some a) ext.
Proof. intros I L H. destruct (inv_live _ _ _ a I H) as (o & Ho & _). apply get_lt in Ho. lia. Qed.

Lemma vmlmb_ok (s : st) ext inst valid mem save blmvm sp ln box : inv s ext inst ->
  avail s ext sp is_space -> avail s ext ln is_lnsrch -> avail s ext box is_box ->
  ok (new_vmlmb zero valid mem save blmvm sp ln box) s (fun p s' => made is_opt s s' p ext inst).
Proof.
  intros I As Al Ab. unfold new_vmlmb. set (Q := fun p s' => _).
  assert (N : forall s', inv s' ext inst -> frame [] s s' -> ok (ret None) s' Q).
  { intros s' I' F'. apply ok_ret. apply made_null; auto. }
  assert (N0 := N s I (frame_refl [] s)).
  destruct valid; [|exact N0]. simpl negb. cbn iota. destruct sp as [asp|]; [|exact N0].
  assert (As0 := As). destruct As0 as [As1 As2]. specialize (As1 ltac:(discriminate)).
  apply ok_bind. apply (read_space_ok s ext inst); auto. intros _ _ t n _ _ _.
  destruct ((n <? 1)%Z || (mem <? 1)%Z); [exact N0|]. cbv zeta.
  apply ok_bind.
  assert (Rb : exists bad, (match box with None => ret false | Some _ => bind (read_box box) (fun sp => ret (negb (onat_eqb sp (Some asp)))) end) s = Some (bad, s)).
  { destruct box as [ab|]; [|eexists; reflexivity]. destruct Ab as [Ab1 Ab2]. specialize (Ab1 ltac:(discriminate)).
    destruct (anch_live _ _ _ _ I Ab1) as (o & Ho & _). destruct (Ab2 ab eq_refl) as [_ K]. specialize (K o Ho). unfold read_box, bind, read. rewrite Ho.
    destruct (body o); simpl in K; try contradiction. eexists. reflexivity. }
  destruct Rb as [bad Eb]. exists bad, s. split; [exact Eb|]. destruct bad; [exact N0|].
  apply ok_bind. destruct (malloc_ok s ext inst I) as (b & s1 & E1 & I1 & F1 & L1 & G1). exists b, s1. split; [exact E1|].
  destruct b; [|apply N; auto]. simpl negb. cbn iota.
  set (m := Z.to_nat _). set (r := mkVm _ _ _ _ _ _ _ _ _ _ _).
  assert (Dn : forall b, cnt (dropped (CVmlmb r : content)) b = 0).
  { intros b. simpl. rewrite !cnt_app. simpl. rewrite !cnt_app. assert (R : cnt (repeat None m) b = 0) by (clear; induction m; simpl; auto). rewrite R. destruct save; reflexivity. }
  assert (Fn : forall s' : st, Forall (fun p => pt s' p is_vector) (repeat None m : list ptr)).
  { intros s'. apply Forall_forall. intros p Hp. apply repeat_spec in Hp. subst p. intros x; discriminate. }
  assert (W : wt s1 (CVmlmb r)).
  { simpl. repeat match goal with |- _ /\ _ => split end; auto; try (intros x; discriminate). }
  destruct (allocate_ok s1 ext inst (CVmlmb r)) as (s2 & E2 & I2 & F2 & G2 & L2); [|exact W|discriminate|].
  { eapply inv_perm; [|exact I1]. intros x. rewrite cnt_app, Dn. reflexivity. }
  apply ok_bind. eexists _, s2. split; [exact E2|]. set (a := length (objs s1)) in *. simpl in I2.
  assert (Na : ~ In (Some a) ext) by (eapply not_in_fresh; [exact I1|unfold a; lia]).
  assert (F02 : frame [] s s2) by (eapply frame_trans; eauto).
  assert (Ic : incl ext (Some a :: ext)) by (intros x; right; auto).
  eapply ok_then.
  { apply (vmlmb_init_ok s2 a ext inst); auto.
    - discriminate.
    - rewrite G2. intros o [= <-]. reflexivity.
    - eapply avail_frame0; eauto.
    - eapply avail_frame0; eauto.
    - eapply avail_frame0; eauto. }
  intros okk s3 (I3 & F3 & P3). cbv beta in *.
  assert (F03 : frame [] s s3).
  { eapply frame_fresh; [exact F02|exact F3| |].
    - intros x [<-|[]]; unfold a; lia.
    - intros x o r0 [<-|[]] Ho Bo. destruct (P3 a eq_refl) as [_ K]. specialize (K o Ho). rewrite Bo in K. destruct K. }
  destruct okk.
  - apply ok_ret. split; auto. intros x [= <-]. unfold a. lia.
  - eapply ok_then; [apply (drop_top s3 ext inst (Some a)); exact I3|]. intros _ s4 (I4 & F4 & _). cbv beta in *. apply N; [exact I4|eapply frame_trans; eauto].
Qed.

Lemma nlcg_init_ok (s : st) a ext inst sp ln g0n yn : ~ In (Some a) ext -> sp <> None ->
  inv s (Some a :: ext) inst -> (forall o, get s a = Some o -> body o = CNlcg (mkCg None None None None None None)) ->
  avail s ext sp is_space -> avail s ext ln is_lnsrch ->
  ok (nlcg_init zero a g0n yn sp ln) s (fun b s' => inv s' (Some a :: ext) inst /\ frame [a] s s' /\ pt s' (Some a) is_opt).
Proof.
  intros Na Hn I B As Al. unfold nlcg_init. set (Q := fun b s' => _).
  assert (Pa : pt s (Some a) is_opt).
  { intros x [= <-]. destruct (inv_live _ _ _ a I) as (o & Ho & _); [left; reflexivity|]. split; [eapply get_lt; eauto|]. intros o' Ho'. rewrite (B o' Ho'). exact Logic.I. }
  assert (Fin : forall b s', inv s' (Some a :: ext) inst -> frame [a] s s' -> ok (ret b) s' Q).
  { intros b s' I' F'. apply ok_ret. split; [exact I'|]. split; [exact F'|]. eapply pt_frame; [exact F'|exact Pa]. }
  Ltac cgwt := intros ? ? (? & ? & ? & ? & ? & ?) ?; simpl in *; repeat match goal with |- _ /\ _ => split end; auto.
  apply (member_ok s ext inst a (CNlcg (mkCg None None None None None None)) (fun p => CNlcg (mkCg p None None None None None)) is_space); auto.
  { eapply ok_mono; [apply (hold_got s ext inst sp (Some a) is_space); auto|]. intros p s' X; apply X. }
  { cgwt. }
  intros p1 s1 I1 F1 B1 P1. apply (avail_frame _ s1 _ inst a) in As, Al; auto.
  apply (member_ok s1 ext inst a (CNlcg (mkCg p1 None None None None None)) (fun p => CNlcg (mkCg p1 p None None None None)) is_lnsrch); auto.
  { apply lnsrch_got; auto. }
  { cgwt. }
  { intros p b. simpl. lia. }
  intros p2 s2 I2 F2 B2 P2. apply (avail_frame _ s2 _ inst a) in As, Al; auto.
  assert (F02 : frame [a] s s2) by (eapply frame_trans; eauto).
  destruct (nonnull p2); [|apply Fin; auto]. simpl negb. cbn iota.
  apply (member_ok s2 ext inst a (CNlcg (mkCg p1 p2 None None None None)) (fun p => CNlcg (mkCg p1 p2 p None None None)) is_vector); auto.
  { apply vcreate_got; auto. }
  { cgwt. }
  { intros p b. simpl. lia. }
  intros p3 s3 I3 F3 B3 P3. apply (avail_frame _ s3 _ inst a) in As, Al; auto.
  assert (F03 : frame [a] s s3) by (eapply frame_trans; eauto).
  destruct (nonnull p3); [|apply Fin; auto]. simpl negb. cbn iota.
  eapply ok_then with (Q := fun br s' => inv s' (Some a :: ext) inst /\ frame [a] s3 s' /\ (forall o, get s' a = Some o -> body o = CNlcg (mkCg p1 p2 p3 (snd br) None None))).
  { destruct g0n.
    - apply (member_ok s3 ext inst a (CNlcg (mkCg p1 p2 p3 None None None)) (fun p => CNlcg (mkCg p1 p2 p3 p None None)) is_vector); auto.
      { apply vcreate_got; auto. }
      { cgwt. }
      { intros p b. simpl. lia. }
      intros p4 s4 I4 F4 B4 P4. apply ok_ret. auto.
    - apply ok_ret. split; [exact I3|]. split; [apply frame_refl|exact B3]. }
  intros [okk p4] s4 (I4 & F4 & B4). simpl in B4. apply (avail_frame _ s4 _ inst a) in As, Al; auto.
  assert (F04 : frame [a] s s4) by (eapply frame_trans; eauto).
  destruct okk; [|apply Fin; auto]. simpl negb. cbn iota.
  apply (member_ok s4 ext inst a (CNlcg (mkCg p1 p2 p3 p4 None None)) (fun p => CNlcg (mkCg p1 p2 p3 p4 p None)) is_vector); auto.
  { apply vcreate_got; auto. }
  { cgwt. }
  { intros p b. simpl. lia. }
  intros p5 s5 I5 F5 B5 P5. apply (avail_frame _ s5 _ inst a) in As, Al; auto.
  assert (F05 : frame [a] s s5) by (eapply frame_trans; eauto).
  destruct (nonnull p5); [|apply Fin; auto]. simpl negb. cbn iota.
  destruct yn; [|apply Fin; auto].
  apply (member_ok s5 ext inst a (CNlcg (mkCg p1 p2 p3 p4 p5 None)) (fun p => CNlcg (mkCg p1 p2 p3 p4 p5 p)) is_vector); auto.
  { apply vcreate_got; auto. }
  { cgwt. }
  { intros p b. simpl. lia. }
  intros p6 s6 I6 F6 B6 P6. apply Fin; auto. eapply frame_trans; eauto.
Qed.

Lemma nlcg_ok (s : st) ext inst valid flags sp ln : inv s ext inst ->
  avail s ext sp is_space -> avail s ext ln is_lnsrch ->
  ok (new_nlcg zero valid flags sp ln) s (fun p s' => made is_opt s s' p ext inst).
Proof.
  intros I As Al. unfold new_nlcg. set (Q := fun p s' => _).
  assert (N : forall s', inv s' ext inst -> frame [] s s' -> ok (ret None) s' Q).
  { intros s' I' F'. apply ok_ret. apply made_null; auto. }
  assert (N0 := N s I (frame_refl [] s)).
  destruct valid; [|exact N0]. simpl negb. cbn iota. destruct sp as [asp|]; [|exact N0].
  destruct (nlcg_needs _) as [[g0n yn]|]; [|exact N0].
  apply ok_bind. destruct (malloc_ok s ext inst I) as (b & s1 & E1 & I1 & F1 & L1 & G1). exists b, s1. split; [exact E1|].
  destruct b; [|apply N; auto]. simpl negb. cbn iota.
  set (r := mkCg _ _ _ _ _ _).
  assert (W : wt s1 (CNlcg r)).
  { simpl. repeat match goal with |- _ /\ _ => split end; auto; try (intros x; discriminate). }
  destruct (allocate_ok s1 ext inst (CNlcg r)) as (s2 & E2 & I2 & F2 & G2 & L2); [|exact W|discriminate|].
  { eapply inv_perm; [|exact I1]. intros x. reflexivity. }
  apply ok_bind. eexists _, s2. split; [exact E2|]. set (a := length (objs s1)) in *. simpl in I2.
  assert (Na : ~ In (Some a) ext) by (eapply not_in_fresh; [exact I1|unfold a; lia]).
  assert (F02 : frame [] s s2) by (eapply frame_trans; eauto).
  assert (Ic : incl ext (Some a :: ext)) by (intros x; right; auto).
  eapply ok_then.
  { apply (nlcg_init_ok s2 a ext inst); auto.
    - discriminate.
    - rewrite G2. intros o [= <-]. reflexivity.
    - eapply avail_frame0; eauto.
    - eapply avail_frame0; eauto. }
  intros okk s3 (I3 & F3 & P3). cbv beta in *.
  assert (F03 : frame [] s s3).
  { eapply frame_fresh; [exact F02|exact F3| |].
    - intros x [<-|[]]; unfold a; lia.
    - intros x o r0 [<-|[]] Ho Bo. destruct (P3 a eq_refl) as [_ K]. specialize (K o Ho). rewrite Bo in K. destruct K. }
  destruct okk.
  - apply ok_ret. split; auto. intros x [= <-]. unfold a. lia.
  - eapply ok_then; [apply (drop_top s3 ext inst (Some a)); exact I3|]. intros _ s4 (I4 & F4 & _). cbv beta in *. apply N; [exact I4|eapply frame_trans; eauto].
Qed.

(** ** Re-wrapping: simple_vector.c 993-1033 *)
Definition same_pair (f1 f2 : option nat) (c1 c2 : nat) : bool := onat_eqb f1 f2 && Nat.eqb c1 c2.

Lemma onat_spec a b : onat_eqb a b = true <-> a = b.
Proof. destruct a, b; simpl; split; try congruence; rewrite Nat.eqb_eq; congruence. Qed.

Lemma rewrap_run (s : st) ext inst t v a o w d f c nd nf nc : inv s ext inst -> v = Some a -> get s a = Some o -> (0 < refs o)%Z -> body o = CVector w d f c ->
  exists e s', rewrap_vector t v nd nf nc s = Some (e, s') /\
    (is_success e = false -> s' = s) /\
    (is_success e = true -> exists d', nd = Some d' /\
       s' = mkSt (upd (objs s) a (Some (mkObj (refs o) (CVector w d' nf nc)))) (arrays s) (mallocs s)
              ((match f with Some g => if same_pair f nf c nc then [] else [Called g c] | None => [] end) ++ events s)).
Proof.
  intros I -> H P B. unfold rewrap_vector.
  assert (W : wt s (body o)) by (eapply i_wt; eauto). rewrite B in W. destruct W as [Wn Wp].
  destruct w as [w|]; [|congruence]. destruct (Wp w eq_refl) as [Lw Kw].
  assert (Lv : live s w).
  { apply (i_edge _ _ _ I). apply get_nth in H. pose proof (sumof_ge (fun oo => edges_of oo w) _ _ _ H) as G. unfold indeg.
    unfold edges_of at 1 in G. apply Z.ltb_lt in P. rewrite P, B in G. simpl in G. rewrite Nat.eqb_refl in G. lia. }
  destruct Lv as [ow Hw]. specialize (Kw _ Hw). destruct (body ow) as [ts n| | | | | | |] eqn:Bw; simpl in Kw; try contradiction.
  pose proof (get_lt _ _ _ H) as L.
  assert (Hup : forall (l : list (option (obj V))) k x y, upd (upd l k x) k y = upd l k y).
  { clear. induction l; intros [|k] x y; simpl; congruence. }
  unfold bind at 1, read_vector, bind at 1, read at 1. rewrite H, B. unfold ret at 1.
  unfold bind at 1, read_space, bind at 1, read at 1. rewrite Hw, Bw. unfold ret at 1.
  destruct (negb (eltype_eqb t ts)). { exists BAD_SPACE, s. repeat split; auto; discriminate. }
  destruct nd as [d'|]. 2: { exists ILLEGAL_ADDRESS, s. repeat split; auto; discriminate. }
  unfold bind at 1, setc at 1, bind at 1, read at 1. rewrite H. unfold write at 1. rewrite H.
  set (s1 := set s a (Some (mkObj (refs o) (CVector (Some w) d None 0)))).
  assert (E : exists evs, (match f with Some f0 => if negb (onat_eqb f nf) || negb (Nat.eqb c nc) then log (Called f0 c) else ret tt | None => ret tt end) s1
     = Some (tt, mkSt (objs s1) (arrays s1) (mallocs s1) (evs ++ events s1)) /\ evs = match f with Some g => if same_pair f nf c nc then [] else [Called g c] | None => [] end).
  { unfold same_pair. destruct f as [g|].
    - rewrite <- negb_andb. destruct (onat_eqb (Some g) nf && Nat.eqb c nc); [exists []|exists [Called g c]]; split; reflexivity.
    - exists []; split; reflexivity. }
  destruct E as (evs & E & Ev). exists SUCCESS. eexists.
  assert (Gx : get (mkSt (objs s1) (arrays s1) (mallocs s1) (evs ++ events s1)) a = Some (mkObj (refs o) (CVector (Some w) d None 0))).
  { change (get s1 a = Some (mkObj (refs o) (CVector (Some w) d None 0))). unfold s1. rewrite get_set, Nat.eqb_refl. apply Nat.ltb_lt in L. rewrite L. reflexivity. }
  split.
  { unfold bind at 1. rewrite E. unfold bind at 1, setc at 1, bind at 1, read at 1. rewrite Gx. unfold write. rewrite Gx. reflexivity. }
  split; [discriminate|]. intros _. exists d'. split; [reflexivity|]. unfold set, s1. simpl. rewrite Hup, Ev. reflexivity.
Qed.

Lemma rewrap_ok (s : st) ext inst t v nd nf nc : inv s ext inst -> avail s ext v is_vector ->
  ok (rewrap_vector t v nd nf nc) s (fun e s' =>
    (is_success e = false -> s' = s) /\
    (is_success e = true -> exists a o w d f c, v = Some a /\ get s a = Some o /\ body o = CVector w d f c /\
       inv s' ext (match nf with Some g => if same_pair f nf c nc then inst else (g, nc) :: inst | None => inst end) /\ frame [a] s s' /\
       exists d', nd = Some d' /\ get s' a = Some (mkObj (refs o) (CVector w d' nf nc)))).
Proof.
  intros I [Ha Hp]. destruct v as [a|].
  2: { exists ILLEGAL_ADDRESS, s. split; [reflexivity|]. split; auto; discriminate. }
  specialize (Ha ltac:(discriminate)). destruct (anch_live _ _ _ _ I Ha) as (o & H & P). destruct (Hp a eq_refl) as [L K]. specialize (K o H).
  destruct (body o) as [|w d f c| | | | | |] eqn:B; simpl in K; try contradiction.
  destruct (rewrap_run s ext inst t (Some a) a o w d f c nd nf nc I eq_refl H P B) as (e & s' & E & N & S).
  exists e, s'. split; [exact E|]. split; [exact N|]. intros Hs. destruct (S Hs) as (d' & En & Es). clear N S.
  exists a, o, w, d, f, c. split; [reflexivity|]. split; [exact H|]. split; [exact B|].
  assert (W : wt s (body o)) by (eapply i_wt; eauto).
  split; [|split].
  - subst s'. apply (inv_set_gen s ext inst a o (mkObj (refs o) (CVector w d' nf nc)) ext); simpl; auto.
    + rewrite B. reflexivity.
    + rewrite B in W. exact W.
    + intros x. destruct f; [destruct (same_pair _ _ _ _)|]; reflexivity.
    + intros x. destruct f; [destruct (same_pair _ _ _ _)|]; reflexivity.
    + intros g e'. apply Z.ltb_lt in P. rewrite P, B. unfold same_pair. destruct f as [f|], nf as [nf|]; simpl; try lia.
      * destruct (Nat.eqb_spec f nf), (Nat.eqb_spec c nc); subst; simpl; try lia.
    + intros b. rewrite B. simpl. lia.
  - subst s'. destruct (frame_set [a] s a o (mkObj (refs o) (CVector w d' nf nc)) H) as [F1 F2 F3 F4 F5 F6]; simpl; auto; [rewrite B; reflexivity|]. split; auto.
  - exists d'. split; [exact En|]. subst s'. change (get (set s a (Some (mkObj (refs o) (CVector w d' nf nc)))) a = Some (mkObj (refs o) (CVector w d' nf nc))).
    rewrite get_set, Nat.eqb_refl. apply Nat.ltb_lt in L. rewrite L. reflexivity.
Qed.

(** vmlmb.c 705-711 *)
Lemma slot_ok (s : st) ext inst a o r k : inv s ext inst -> In (Some a) ext -> get s a = Some o -> body o = CVmlmb r -> k < length (vm_s r) -> k < length (vm_y r) ->
  ok (vmlmb_slot a k) s (fun _ s' => inv s' ext inst /\ frame [a] s s').
Proof.
  intros I Ha H B Ls Ly. unfold vmlmb_slot. apply ok_bind. exists r, s. split; [unfold read_vmlmb, bind, read; rewrite H, B; reflexivity|].
  destruct (vm_save_memory r) eqn:Sv; [|apply ok_ret; split; [exact I|apply frame_refl]].
  destruct (nth_error (vm_s r) k) as [p|] eqn:Es; [|apply nth_error_None in Es; lia].
  destruct (nth_error (vm_y r) k) as [q|] eqn:Ey; [|apply nth_error_None in Ey; lia].
  eapply ok_mono.
  { apply (assign_ok s ext inst a (CVmlmb r) (CVmlmb (set_xg r p q))) with (ext' := ext); auto.
    - intros o' Ho'. congruence.
    - assert (W : wt s (CVmlmb r)) by (rewrite <- B; eapply i_wt; eauto).
      destruct W as (H1 & H2 & H3 & H4 & H5 & H6 & H7 & H8 & H9 & H10 & H11). simpl.
      apply nth_error_In in Es, Ey. repeat match goal with |- _ /\ _ => split end; auto.
      + rewrite Forall_forall in H9. auto.
      + rewrite Forall_forall in H10. auto.
    - intros b. simpl. rewrite Sv. reflexivity. }
  intros _ s' (X1 & X2 & _). auto.
Qed.

(** ** Driver: driver.c 293-423 *)

(** values accepted for a bound by [opk_new_optimizer]: scalars, arrays of at least [n] elements, vectors *)
Definition driver_value_ok (s : st) (ext : list ptr) (n : Z) (type : Z) (v : vptr V) : Prop :=
  match type with
  | 1%Z => match v with PNull => True | PScalar t _ => t = FLOAT | _ => False end
  | 2%Z => match v with PNull => True | PScalar t _ => t = DOUBLE | _ => False end
  | 3%Z | 5%Z => match v with PNull => True | PArray i => exists l, nth_error (arrays s) i = Some (FLOAT, l) /\ Z.to_nat n <= length l | _ => False end
  | 4%Z | 6%Z => match v with PNull => True | PArray i => exists l, nth_error (arrays s) i = Some (DOUBLE, l) /\ Z.to_nat n <= length l | _ => False end
  | 7%Z => match v with PNull => True | PObj a => anch s ext (Some a) /\ pt s (Some a) is_vector | _ => False end
  | _ => True
  end.

Lemma driver_value (s s' : st) ext ext' inst n type v sp t : driver_value_ok s ext n type v -> arrays s' = arrays s ->
  (forall a, anch s ext (Some a) -> anch s' ext' (Some a)) -> (forall p K, pt s p K -> pt s' p K) ->
  (forall a o, sp = Some a -> get s' a = Some o -> body o = CSpace t n) -> inv s' ext' inst -> value_ok s' ext' sp type v.
Proof.
  intros H Ea Han Hpt Hsp I. unfold driver_value_ok in H. unfold value_ok.
  assert (Q : forall i dt, (exists l, nth_error (arrays s) i = Some (dt, l) /\ Z.to_nat n <= length l) ->
    (forall a o t0 n0, sp = Some a -> get s' a = Some o -> body o = CSpace t0 n0 -> exists l, nth_error (arrays s') i = Some (dt, l) /\ Z.to_nat n0 <= length l)).
  { intros i dt Hq a o t0 n0 E1 E2 E3. rewrite Ea. rewrite (Hsp a o E1 E2) in E3. injection E3 as _ <-. exact Hq. }
  destruct type as [|p|p]; auto.
  repeat (match goal with p : positive |- _ => destruct p end; auto); try (destruct v; auto; apply Q; exact H).
  destruct v; auto. destruct H as [H1 H2]. auto.
Qed.

Lemma wrap_static_ok (s : st) ext inst single sp type v : inv s ext inst -> anch s ext sp -> pt s sp is_space -> value_ok s ext sp type v ->
  (type <> 0%Z -> is_null v = false) ->
  ok (wrap_static single sp type v) s (fun r s' => inv s' (snd r :: ext) inst /\ frame [] s s' /\
     value_ok s' (snd r :: ext) sp (snd (fst (fst r))) (snd (fst r)) /\ (fst (fst (fst r)) = false -> snd r = None)).
Proof.
  intros I Ha Hp Hv Hnn. unfold wrap_static.
  assert (Dflt : forall b, ok (ret (b, type, v, None)) s (fun r s' => inv s' (snd r :: ext) inst /\ frame [] s s' /\
     value_ok s' (snd r :: ext) sp (snd (fst (fst r))) (snd (fst r)) /\ (fst (fst (fst r)) = false -> snd r = None))).
  { intros b. apply ok_ret. simpl. split; [apply inv_null; exact I|]. split; [apply frame_refl|]. split; [|reflexivity].
    eapply value_ok_frame; eauto using frame_refl, inv_null. intros x; right; auto. }
  destruct (Z.eqb_spec type (if single then 3 else 4)) as [E|N]; [|apply Dflt].
  specialize (Hnn ltac:(destruct single; lia)).
  assert (Hv2 : exists i, v = PArray i /\ forall a o t n, sp = Some a -> get s a = Some o -> body o = CSpace t n -> exists l, nth_error (arrays s) i = Some (if single then FLOAT else DOUBLE, l) /\ Z.to_nat n <= length l).
  { destruct single; rewrite E in Hv; simpl in Hv; destruct v; try contradiction; try discriminate; eauto. }
  destruct Hv2 as (i & -> & Hi). destruct sp as [asp|]; [|destruct Ha; congruence].
  destruct (anch_live _ _ _ _ I Ha) as (osp & Hsp & _). destruct (Hp asp eq_refl) as [_ Ksp]. specialize (Ksp _ Hsp).
  destruct (body osp) as [t n| | | | | | |] eqn:Bsp; simpl in Ksp; try contradiction.
  destruct (Hi asp osp t n eq_refl Hsp Bsp) as (l & Hl & Len).
  apply ok_bind. eexists _, s. split; [unfold read_array; rewrite Hl; reflexivity|]. cbv iota beta.
  eapply ok_then; [apply (wrap_ok s ext inst); auto|].
  intros p s1 [[M1 M2 M3 M4] Mg]. destruct p as [a|].
  - apply ok_ret. simpl in *. split; [exact M1|]. split; [exact M2|]. split; [|discriminate]. split; [apply anch_in; [discriminate|left; reflexivity]|exact M4].
  - apply ok_ret. simpl in *. split; [exact M1|]. split; [exact M2|]. split; [|reflexivity].
    eapply value_ok_frame; eauto. intros x; right; auto.
Qed.

Ltac drwt := intros ? ? (? & ? & ? & ? & ?) ?; simpl in *; repeat match goal with |- _ /\ _ => split end; auto.

Lemma driver_anchor (s : st) a ext inst r p : inv s (Some a :: ext) inst -> (forall o, get s a = Some o -> body o = CDriver r) ->
  In p (dropped (CDriver r : content)) -> p <> None -> anch s (Some a :: ext) p.
Proof.
  intros I B Hd Hn. split; [exact Hn|]. right. destruct (inv_live _ _ _ a I) as (o & Ho & _); [left; reflexivity|].
  exists a, o. split; [left; reflexivity|]. split; [exact Ho|]. rewrite (B o Ho). exact Hd.
Qed.

Lemma driver_init_ok (s : st) a ext inst single bounded n lt lv ut uv : ~ In (Some a) ext -> inv s (Some a :: ext) inst ->
  (forall o, get s a = Some o -> body o = CDriver (mkDr None None None None None single)) ->
  driver_value_ok s ext n lt lv -> driver_value_ok s ext n ut uv -> (lt <> 0%Z -> is_null lv = false) -> (ut <> 0%Z -> is_null uv = false) ->
  ok (driver_init zero convert a single bounded n lt lv ut uv) s (fun br s' => inv s' (Some a :: ext) inst /\ frame [a] s s' /\
     (forall o, get s' a = Some o -> body o = CDriver (snd br)) /\ (fst br = true -> dr_vspace (snd br) <> None) /\ dr_optimizer (snd br) = None /\
     dr_single (snd br) = single /\ fresh_xg s (snd br)).
Proof.
  intros Na I B Hl Hu Nl Nu. unfold driver_init. set (t := if single then FLOAT else DOUBLE). set (Q := fun br s' => _). cbv zeta.
  apply (member_gen (fun _ => True) s ext inst a (CDriver (mkDr None None None None None single)) (fun p => CDriver (mkDr None p None None None single)) (fun k => k = KSpace t n)); auto.
  { eapply ok_mono; [apply (space_ok s (Some a :: ext) inst t n); exact I|]. intros p s' [[M1 M2 M3 M4] Mg]. split; [|exact Logic.I]. split; [exact M1|]. split; [exact M2|].
    intros b ->. destruct (M4 b eq_refl) as [Lb _]. split; [exact Lb|]. intros o Ho. destruct (Mg b eq_refl) as [G _]. rewrite G in Ho. injection Ho as <-. reflexivity. }
  { intros p s' (H1 & H2 & H3 & H4 & H5) Hp. simpl. repeat match goal with |- _ /\ _ => split end; auto. intros b Eb. destruct (Hp b Eb) as [L K]. split; [exact L|]. intros o Ho. rewrite (K o Ho). exact Logic.I. }
  intros sp s1 _ I1 F1 B1 P1.
  assert (P1s : pt s1 sp is_space). { intros b Eb. destruct (P1 b Eb) as [L K]. split; [exact L|]. intros o Ho. rewrite (K o Ho). exact Logic.I. }
  destruct (nonnull sp) eqn:Ns.
  2: { apply ok_ret. simpl. split; [exact I1|]. split; [exact F1|]. split; [exact B1|]. split; [discriminate|]. split; [reflexivity|]. split; [reflexivity|]. split; intros x; discriminate. }
  assert (Hsn : sp <> None) by (intros ->; discriminate). simpl negb. cbn iota.
  assert (L01 : forall p, fresh s1 p -> fresh s p).
  { intros p Hp x Hx. specialize (Hp x Hx). pose proof (f_len _ _ _ F1). lia. }
  apply (member_gen (fresh s1) s1 ext inst a (CDriver (mkDr None sp None None None single)) (fun p => CDriver (mkDr None sp p None None single)) is_vector); auto.
  { eapply ok_mono; [apply (wrap_ok s1 (Some a :: ext) inst t sp (Some Local) None 0); auto|].
    - eapply driver_anchor; eauto. simpl. auto.
    - intros p s' [[M1 M2 M3 M4] Mg]. split; [|exact M3]. split; [destruct p; exact M1|]. auto. }
  { drwt. }
  { intros p b. simpl. lia. }
  intros x s2 Fx I2 F2 B2 P2. assert (P2s := pt_frame _ _ _ _ _ F2 P1s). assert (P2k := pt_frame _ _ _ _ _ F2 P1).
  assert (F02 : frame [a] s s2) by (eapply frame_trans; eauto).
  apply (member_gen (fresh s2) s2 ext inst a (CDriver (mkDr None sp x None None single)) (fun p => CDriver (mkDr None sp x p None single)) is_vector); auto.
  { eapply ok_mono; [apply (wrap_ok s2 (Some a :: ext) inst t sp (Some Local) None 0); auto|].
    - eapply driver_anchor; eauto. simpl. auto.
    - intros p s' [[M1 M2 M3 M4] Mg]. split; [|exact M3]. split; [destruct p; exact M1|]. auto. }
  { drwt. }
  { intros p b. simpl. lia. }
  intros g s3 Fg I3 F3 B3 P3. assert (P3s := pt_frame _ _ _ _ _ F3 P2s). assert (P3k := pt_frame _ _ _ _ _ F3 P2k).
  assert (F03 : frame [a] s s3) by (eapply frame_trans; eauto).
  assert (L02 : fresh s g).
  { intros y Hy. specialize (Fg y Hy). pose proof (f_len _ _ _ F02). lia. }
  assert (Ret : forall b, ok (ret (b, mkDr None sp x g None single)) s3 Q).
  { intros b. apply ok_ret. simpl. split; [exact I3|]. split; [exact F03|]. split; [exact B3|]. split; [auto|]. split; [reflexivity|]. split; [reflexivity|]. split; simpl; auto. }
  destruct (negb (nonnull x && nonnull g)); [apply Ret|]. destruct bounded; [|apply Ret]. simpl negb. cbn iota.
  assert (A3 : anch s3 (Some a :: ext) sp) by (eapply driver_anchor; eauto; simpl; auto).
  assert (V3 : forall type v, driver_value_ok s ext n type v -> value_ok s3 (Some a :: ext) sp type v).
  { intros type v Hv. eapply (driver_value s s3 ext (Some a :: ext) inst n type v sp t); auto.
    - exact (f_arr _ _ _ F03).
    - intros b Hb. apply anch_cons. eapply (anch_frame [a]); eauto; [intros y; right; auto|]. intros y [<-|[]]. exact Na.
    - intros p K. apply pt_frame with (T := [a]). exact F03.
    - intros b o Eb Ho. destruct (P3k b Eb) as [_ K]. specialize (K o Ho). destruct (body o); simpl in K; congruence. }
  eapply ok_then; [apply (wrap_static_ok s3 (Some a :: ext) inst single sp lt lv); auto|].
  intros [[[ok1 lt'] lv'] lvec] s4 (I4 & F4 & V4 & N4). simpl in I4, V4, N4.
  assert (Ic4 : incl (Some a :: ext) (lvec :: Some a :: ext)) by (intros y; right; auto).
  assert (A4 : anch s4 (lvec :: Some a :: ext) sp) by (apply anch_cons; eapply anch_frame0; eauto).
  assert (F04 : frame [a] s s4) by (eapply frame_trans; [exact F03|apply frame0; exact F4]).
  assert (Bx : forall s', frame [] s3 s' -> forall o, get s' a = Some o -> body o = CDriver (mkDr None sp x g None single)).
  { intros s' F' o Ho. destruct (inv_live _ _ _ a I3) as (o3 & H3 & _); [left; reflexivity|].
    destruct (f_old _ _ _ F' a o) as (o1 & H1 & _ & Bd & _); [eapply get_lt; eauto|exact Ho|]. rewrite Bd by (intros []). apply B3. exact H1. }
  assert (End_ : forall b s', inv s' (Some a :: ext) inst -> frame [] s3 s' -> ok (ret (b, mkDr None sp x g None single)) s' Q).
  { intros b s' I' F'. apply ok_ret. simpl. split; [exact I'|]. split; [eapply frame_trans; [exact F03|apply frame0; exact F']|].
    split; [apply Bx; exact F'|]. split; [auto|]. split; [reflexivity|]. split; [reflexivity|]. split; simpl; auto. }
  destruct ok1; simpl negb; cbn iota.
  2: { rewrite (N4 eq_refl) in I4. apply End_; [apply inv_unnull; exact I4|exact F4]. }
  eapply ok_then.
  { apply (wrap_static_ok s4 (lvec :: Some a :: ext) inst single sp ut uv); auto.
    - eapply pt_frame; [exact F4|exact P3s].
    - eapply value_ok_frame; [apply V3; exact Hu|exact F4|exact I4|exact Ic4|exact I3|exact A3]. }
  intros [[[ok2 ut'] uv'] uvec] s5 (I5 & F5 & V5 & N5). simpl in I5, V5, N5.
  assert (F35 : frame [] s3 s5) by (eapply frame_trans; eauto).
  destruct ok2; simpl negb; cbn iota.
  2: { rewrite (N5 eq_refl) in I5. eapply ok_then; [apply (drop_top s5 (Some a :: ext) inst lvec); apply inv_unnull; exact I5|].
       intros _ s6 (I6 & F6 & _). cbv beta in *. apply End_; [exact I6|eapply frame_trans; eauto]. }
  assert (Ic5 : incl (lvec :: Some a :: ext) (uvec :: lvec :: Some a :: ext)) by (intros y; right; auto).
  assert (A5 : anch s5 (uvec :: lvec :: Some a :: ext) sp) by (apply anch_cons; eapply anch_frame0; eauto).
  assert (P5s : pt s5 sp is_space) by (eapply pt_frame; [exact F35|exact P3s]).
  set (ext5 := uvec :: lvec :: ext) in *.
  assert (I5' : inv s5 (Some a :: ext5) inst) by (eapply inv_perm; [|exact I5]; intros y; unfold ext5; simpl; lia).
  assert (Hi5 : incl (uvec :: lvec :: Some a :: ext) (Some a :: ext5)) by (intros y; unfold ext5; simpl; tauto).
  apply (member_ok s5 ext5 inst a (CDriver (mkDr None sp x g None single)) (fun p => CDriver (mkDr None sp x g p single)) is_box); auto.
  { apply Bx. exact F35. }
  { eapply ok_mono; [apply (boxset_ok s5 (Some a :: ext5) inst sp lt' lv' ut' uv'); auto|].
    - intros _. eapply anch_incl; eauto.
    - intros _. eapply value_ok_frame; [exact V4|exact F5|exact I5'| |exact I4|exact A4].
      intros y. unfold ext5. simpl. tauto.
    - intros _. eapply value_ok_frame; [exact V5|apply frame_refl|exact I5'|exact Hi5|exact I5|exact A5].
    - intros p s' [[M1 M2 M3 M4] _]. split; [exact M1|]. split; [exact M2|].
      intros b Eb. destruct (M4 b Eb) as [L K]. split; [exact L|]. intros o Ho. rewrite (K o Ho). exact Logic.I. }
  { drwt. }
  { intros p b. simpl. lia. }
  intros box s6 I6 F6 B6 P6.
  eapply ok_then; [apply (drop_top s6 (uvec :: Some a :: ext) inst lvec); eapply inv_perm; [|exact I6]; intros y; unfold ext5; simpl; lia|].
  intros _ s7 (I7 & F7 & _). cbv beta in *.
  eapply ok_then; [apply (drop_top s7 (Some a :: ext) inst uvec); exact I7|].
  intros _ s8 (I8 & F8 & _). cbv beta in *.
  assert (F68 : frame [] s6 s8) by (eapply frame_trans; eauto).
  apply ok_ret. simpl. split; [exact I8|]. split.
  { eapply frame_trans; [exact F03|]. eapply frame_trans; [apply frame0; exact F35|]. eapply frame_trans; [exact F6|]. apply frame0. exact F68. }
  split; [|split; [auto|split; [reflexivity|split; [reflexivity|split; simpl; auto]]]].
  intros o Ho. destruct (inv_live _ _ _ a I6) as (o6 & H6 & _); [left; reflexivity|].
  destruct (f_old _ _ _ F68 a o) as (o1 & H1 & _ & Bd & _); [eapply get_lt; eauto|exact Ho|]. rewrite Bd by (intros []). apply B6. exact H1.
Qed.

Lemma driver_ok (s : st) ext inst opts t n lt lv ut uv ln : inv s ext inst -> avail s ext ln is_lnsrch ->
  driver_value_ok s ext n lt lv -> driver_value_ok s ext n ut uv -> (forall l, mallocs s <> false :: l) ->
  ok (new_optimizer zero convert opts t n lt lv ut uv ln) s (fun p s' => made (fun k => k = KDriver) s s' p ext inst).
Proof.
  intros I Al Hl Hu Hm. unfold new_optimizer. set (Q := fun p s' => _).
  assert (N : forall s', inv s' ext inst -> frame [] s s' -> ok (ret None) s' Q).
  { intros s' I' F'. apply ok_ret. apply made_null; auto. }
  assert (N0 := N s I (frame_refl [] s)).
  destruct (n <? 1)%Z; [exact N0|]. set (single := eltype_eqb t FLOAT).
  destruct (negb single && negb (eltype_eqb t DOUBLE)); [exact N0|].
  destruct (negb _); [exact N0|].
  destruct (negb (Bool.eqb (lt =? 0)%Z (is_null lv)) || negb (Bool.eqb (ut =? 0)%Z (is_null uv))) eqn:En; [exact N0|].
  assert (Nl : lt <> 0%Z -> is_null lv = false).
  { intros X. apply orb_false_iff in En. destruct En as [En _]. apply Z.eqb_neq in X. rewrite X in En. destruct (is_null lv); [discriminate|reflexivity]. }
  assert (Nu : ut <> 0%Z -> is_null uv = false).
  { intros X. apply orb_false_iff in En. destruct En as [_ En]. apply Z.eqb_neq in X. rewrite X in En. destruct (is_null uv); [discriminate|reflexivity]. }
  set (bounded := negb _ || negb _). cbv zeta.
  destruct (match opts with ONlcg _ _ => bounded | OVmlmb _ _ _ _ => false | OUnknown => true end) eqn:Eo; [exact N0|].
  apply ok_bind. destruct (malloc_ok s ext inst I) as (b & s1 & E1 & I1 & F1 & L1 & G1). exists b, s1. split; [exact E1|].
  assert (Hb : b = true). { unfold malloc in E1. destruct (mallocs s) as [|[|] l] eqn:Em; try congruence. }
  subst b. simpl negb. cbn iota.
  set (r0 := mkDr None None None None None single).
  destruct (allocate_ok s1 ext inst (CDriver r0)) as (s2 & E2 & I2 & F2 & G2 & L2).
  { eapply inv_perm; [|exact I1]. reflexivity. }
  { simpl. repeat match goal with |- _ /\ _ => split end; intros x; discriminate. }
  { intros r [= <-]. split; intros x; discriminate. }
  apply ok_bind. eexists _, s2. split; [exact E2|]. set (a := length (objs s1)) in *. simpl in I2.
  assert (Na : ~ In (Some a) ext) by (eapply not_in_fresh; [exact I1|unfold a; lia]).
  assert (F02 : frame [] s s2) by (eapply frame_trans; eauto).
  assert (Ic : incl ext (Some a :: ext)) by (intros x; right; auto).
  assert (Dv : forall type v, driver_value_ok s ext n type v -> driver_value_ok s2 ext n type v).
  { intros type v H. unfold driver_value_ok in *. rewrite (f_arr _ _ _ F02). destruct type as [|p|p]; auto.
    repeat (match goal with p : positive |- _ => destruct p end; auto).
    destruct v; auto. destruct H as [H1 H2]. split; [eapply anch_frame0; eauto|eapply pt_frame; eauto]. }
  eapply ok_then.
  { apply (driver_init_ok s2 a ext inst single bounded n lt lv ut uv); auto; try (rewrite G2; intros o [= <-]; reflexivity). }
  intros [okk r] s3 (I3 & F3 & B3 & Vs & Op & Si & Fx & Fg). simpl in B3, Vs, Op, Si, Fx, Fg.
  assert (F03 : frame [] s s3).
  { eapply frame_fresh; [exact F02|exact F3| |].
    - intros x [<-|[]]; unfold a; lia.
    - intros x o r1 [<-|[]] Ho Bo. rewrite (B3 o Ho) in Bo. injection Bo as <-. eapply fresh_le; [apply (f_len _ _ _ F02)|]. split; assumption. }
  destruct okk; simpl negb; cbn iota.
  2: { eapply ok_then; [apply (drop_top s3 ext inst (Some a)); exact I3|]. intros _ s4 (I4 & F4 & _). cbv beta in *. apply N; [exact I4|eapply frame_trans; eauto]. }
  specialize (Vs eq_refl).
  assert (W3 : wt s3 (CDriver r)).
  { destruct (inv_live _ _ _ a I3) as (o3 & H3 & _); [left; reflexivity|]. rewrite <- (B3 o3 H3). eapply i_wt; eauto. }
  destruct W3 as (W1 & W2 & W3 & W4 & W5).
  assert (As : avail s3 (Some a :: ext) (dr_vspace r) is_space).
  { split; [intros X; eapply driver_anchor; eauto; simpl; auto|exact W2]. }
  assert (Ab : avail s3 (Some a :: ext) (dr_box r) is_box).
  { split; [intros X; eapply driver_anchor; eauto; do 4 right; left; reflexivity|exact W5]. }
  assert (Al3 : avail s3 (Some a :: ext) ln is_lnsrch).
  { apply avail_cons. exact (avail_frame0 s s3 ext (Some a :: ext) inst ln is_lnsrch Al F03 I3 Ic). }
  apply (member_ok s3 ext inst a (CDriver r) (fun o => CDriver (mkDr o (dr_vspace r) (dr_x r) (dr_g r) (dr_box r) single)) is_opt); auto.
  { destruct opts as [valid flags|valid mem save blmvm|]; [| |discriminate].
    - eapply ok_mono; [apply (nlcg_ok s3 (Some a :: ext) inst); auto|]. intros p s' [M1 M2 M3 M4]. auto.
    - eapply ok_mono; [apply (vmlmb_ok s3 (Some a :: ext) inst); auto|]. intros p s' [M1 M2 M3 M4]. auto. }
  { drwt. }
  { intros p b. simpl. rewrite Op. simpl. lia. }
  intros o s4 I4 F4 B4 P4.
  assert (F04 : frame [] s s4).
  { eapply frame_fresh; [exact F03|exact F4| |].
    - intros x [<-|[]]; unfold a; lia.
    - intros x o' r1 [<-|[]] Ho Bo. rewrite (B4 o' Ho) in Bo. injection Bo as <-. eapply fresh_le; [apply (f_len _ _ _ F02)|]. split; assumption. }
  destruct (nonnull o).
  - apply ok_ret. split; [exact I4|exact F04|intros x [= <-]; unfold a; lia|].
    intros x [= <-]. destruct (inv_live _ _ _ a I4) as (o4 & H4 & _); [left; reflexivity|]. split; [eapply get_lt; eauto|]. intros o' Ho'. rewrite (B4 o' Ho'). reflexivity.
  - eapply ok_then; [apply (drop_top s4 ext inst (Some a)); exact I4|]. intros _ s5 (I5 & F5 & _). cbv beta in *. apply N; [exact I5|eapply frame_trans; eauto].
Qed.

End Ops.
