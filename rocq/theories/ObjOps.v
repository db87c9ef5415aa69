(** * Reference counting: the functions of the library preserve the invariant *)
From Coq Require Import List ZArith Bool Arith Lia.
From Verif Require Import Base MemModel ObjModel ObjSpec ObjProofs.
Import ListNotations.

Section Ops.
Context {V : Type} (zero : V) (convert : eltype -> eltype -> V -> V).
Notation st := (st V).
Notation content := (content V).

Definition ok {A} (m : M V A) (s : st) (Q : A -> st -> Prop) : Prop := exists x s', m s = Some (x, s') /\ Q x s'.
Lemma ok_bind {A B} (m : M V A) (k : A -> M V B) s Q : ok m s (fun x s1 => ok (k x) s1 Q) -> ok (bind m k) s Q.
Proof. intros (x & s1 & E & y & s2 & E2 & H). exists y, s2. unfold bind. rewrite E. auto. Qed.
Lemma ok_ret {A} (x : A) (s : st) (Q : A -> st -> Prop) : Q x s -> ok (ret x) s Q.
Proof. intros H. exists x, s. auto. Qed.
Lemma ok_mono {A} (m : M V A) s (Q Q' : A -> st -> Prop) : ok m s Q -> (forall x s', Q x s' -> Q' x s') -> ok m s Q'.
Proof. intros (x & s1 & E & H) HQ. exists x, s1. auto. Qed.
Lemma ok_then {A B} (m : M V A) (k : A -> M V B) s (Q : A -> st -> Prop) (Q' : B -> st -> Prop) :
  ok m s Q -> (forall x s1, Q x s1 -> ok (k x) s1 Q') -> ok (bind m k) s Q'.
Proof. intros H K. apply ok_bind. eapply ok_mono; eauto. Qed.

Record made (K : kind -> Prop) (s s' : st) (p : ptr) (ext : list ptr) (inst : list (nat * nat)) : Prop := mkMade {
  m_inv : inv s' (p :: ext) inst;
  m_frame : frame [] s s';
  m_fresh : fresh s p;
  m_pt : pt s' p K
}.

Lemma inv_null (s : st) ext inst : inv s ext inst -> inv s (None :: ext) inst.
Proof. apply inv_perm. reflexivity. Qed.
Lemma made_null K (s s' : st) ext inst : inv s' ext inst -> frame [] s s' -> made K s s' None ext inst.
Proof. intros I F. split; [apply inv_null; exact I|exact F| |]; intros a; discriminate. Qed.

Lemma frame_fresh (s0 s1 s2 : st) T : frame [] s0 s1 -> frame T s1 s2 -> (forall a, In a T -> length (objs s0) <= a) ->
  (forall a o r, In a T -> get s2 a = Some o -> body o = CDriver r -> fresh_xg s0 r) -> frame [] s0 s2.
Proof.
  intros F G HT HD. split.
  - pose proof (f_len _ _ _ F). pose proof (f_len _ _ _ G). lia.
  - intros a o' L H. pose proof (f_len _ _ _ F) as L2. destruct (f_old _ _ _ G a o' ltac:(lia) H) as (o2 & H2 & E2 & B2 & Z2).
    destruct (f_old _ _ _ F a o2 L H2) as (o1 & H1 & E1 & B1 & Z1). exists o1. split; [exact H1|]. split; [congruence|].
    split; [intros N; rewrite B2, B1; auto; intros Hin; specialize (HT a Hin); lia|tauto].
  - intros a o' L H. destruct (Nat.lt_ge_cases a (length (objs s1))) as [L2|L2].
    + destruct (f_old _ _ _ G a o' L2 H) as (o2 & H2 & _ & _ & Z2). pose proof (f_new _ _ _ F a o2 L H2). tauto.
    + apply (f_new _ _ _ G a o' L2 H).
  - intros a o H Z. apply (f_zero _ _ _ G); auto. apply (f_zero _ _ _ F); auto.
  - rewrite (f_arr _ _ _ G). apply (f_arr _ _ _ F).
  - intros a o' r L H _ B. destruct (in_dec Nat.eq_dec a T) as [Hin|NT]; [eauto|]. destruct (Nat.lt_ge_cases a (length (objs s1))) as [L2|L2].
    + destruct (f_old _ _ _ G a o' L2 H) as (o2 & H2 & _ & B2 & _). apply (f_drv _ _ _ F a o2 r L H2); [intros []|]. rewrite <- B2; auto.
    + eapply fresh_le; [apply (f_len _ _ _ F)|]. eapply (f_drv _ _ _ G); eauto.
Qed.
Lemma frame0 (s s' : st) T : frame [] s s' -> frame T s s'.
Proof. apply frame_weaken. intros x []. Qed.

(** [p] is referenced by [ext], or by an object which is. *)
Definition anch (s : st) (ext : list ptr) (p : ptr) : Prop :=
  p <> None /\ (In p ext \/ exists a o, In (Some a) ext /\ get s a = Some o /\ In p (dropped (body o))).
Lemma anch_in (s : st) ext p : p <> None -> In p ext -> anch s ext p.
Proof. intros; split; auto. Qed.
Lemma anch_incl (s : st) ext ext' p : anch s ext p -> incl ext ext' -> anch s ext' p.
Proof. intros [A [B|(a & o & B & C & D)]] I; split; auto. right. exists a, o. auto. Qed.
Lemma anch_cons (s : st) ext q p : anch s ext p -> anch s (q :: ext) p.
Proof. intros A. eapply anch_incl; eauto. intros x. right. auto. Qed.
Lemma anch_live (s : st) ext inst a : inv s ext inst -> anch s ext (Some a) -> exists o, get s a = Some o /\ (0 < refs o)%Z.
Proof.
  intros I [_ [H|(b & o & Hb & Ho & Hd)]]; [eapply inv_live; eauto|].
  destruct (inv_live _ _ _ _ I Hb) as (o' & Ho' & P). assert (o' = o) by congruence. subst o'.
  assert (Hi : 0 < indeg s a).
  { apply cnt_in in Hd. apply get_nth in Ho. pose proof (sumof_ge (fun oo => edges_of oo a) _ _ _ Ho) as G. unfold indeg.
    unfold edges_of at 1 in G. apply Z.ltb_lt in P. rewrite P in G. lia. }
  destruct (i_edge _ _ _ I a Hi) as [oa Ha]. exists oa. split; [exact Ha|]. rewrite (i_cnt _ _ _ I a oa Ha). lia.
Qed.
Lemma anch_frame T (s s' : st) ext ext' inst p : anch s ext p -> frame T s s' -> inv s' ext' inst -> incl ext ext' ->
  (forall a, In a T -> ~ In (Some a) ext) -> anch s' ext p.
Proof.
  intros [A [B|(a & o & B & C & D)]] F I Hi HT; split; auto. right.
  destruct (inv_live _ _ _ a I) as (o' & H' & P); [auto|]. exists a, o'. split; [exact B|]. split; [exact H'|].
  destruct (f_old _ _ _ F a o') as (o1 & H1 & _ & Bd & _); [eapply get_lt; eauto|exact H'|].
  rewrite Bd by (intros X; apply (HT a X B)). congruence.
Qed.
Lemma anch_frame0 (s s' : st) ext ext' inst p : anch s ext p -> frame [] s s' -> inv s' ext' inst -> incl ext ext' -> anch s' ext p.
Proof. intros A F I Hi. eapply (anch_frame []); eauto. Qed.
Lemma anch_hold (s : st) ext inst a : inv s ext inst -> anch s ext (Some a) ->
  exists s', hold_object (Some a) s = Some (Some a, s') /\ inv s' (Some a :: ext) inst /\ frame [] s s' /\ length (objs s') = length (objs s).
Proof. intros I Hin. destruct (anch_live _ _ _ _ I Hin) as (o & H & P). eapply hold_ok; eauto. Qed.

(** The members of a referenced object after an operation which does not change it. *)
Lemma frame_body T (s s' : st) ext inst a o : frame T s s' -> inv s' ext inst -> In (Some a) ext -> get s a = Some o -> ~ In a T ->
  exists o', get s' a = Some o' /\ body o' = body o /\ (0 < refs o')%Z.
Proof.
  intros F I Hin H N. destruct (inv_live _ _ _ _ I Hin) as (o' & H' & P). exists o'. split; [exact H'|]. split; [|exact P].
  destruct (f_old _ _ _ F a o') as (o1 & H1 & _ & B & _); [eapply get_lt; eauto|exact H'|]. rewrite B by exact N. congruence.
Qed.

Lemma read_space_ok (s : st) ext inst p (Q : eltype * Z -> st -> Prop) : inv s ext inst -> anch s ext p -> pt s p is_space ->
  (forall a o t n, p = Some a -> get s a = Some o -> body o = CSpace t n -> Q (t, n) s) -> ok (read_space p) s Q.
Proof.
  intros I Hin Hp HQ. destruct p as [a|]; [|destruct Hin; congruence]. destruct (anch_live _ _ _ _ I Hin) as (o & H & P).
  destruct (Hp a eq_refl) as [_ K]. specialize (K o H). destruct (body o) eqn:B; simpl in K; try contradiction.
  eexists _, s. split; [|eapply HQ; eauto]. unfold read_space, bind, read. rewrite H, B. reflexivity.
Qed.

Definition new_inst (p : ptr) (free : option nat) (client : nat) : list (nat * nat) :=
  match p, free with Some _, Some f => [(f, client)] | _, _ => [] end.

Lemma allocate_vector_ok (s : st) ext inst sp d free client : inv s ext inst -> anch s ext sp -> pt s sp is_space ->
  ok (allocate_vector sp d free client) s (fun p s' => made is_vector s s' p ext (new_inst p free client ++ inst) /\
     forall a, p = Some a -> get s' a = Some (mkObj 1 (CVector sp d free client))).
Proof.
  intros I Hin Hp. unfold allocate_vector. apply ok_bind.
  destruct (malloc_ok s ext inst I) as (b & s1 & E1 & I1 & F1 & L1 & G1). exists b, s1. split; [exact E1|].
  destruct b.
  2: { apply ok_ret. split; [|discriminate]. apply made_null; auto. }
  destruct sp as [a|]; [|destruct Hin; congruence].
  destruct (anch_hold s1 ext inst a I1) as (s2 & E2 & I2 & F2 & L2).
  { apply (anch_frame0 s s1 ext ext inst); auto using incl_refl. }
  apply ok_bind. exists (Some a), s2. split; [exact E2|].
  assert (W : wt s2 (CVector (Some a) d free client)).
  { split; [discriminate|]. eapply pt_frame; [exact F2|]. eapply pt_frame; [exact F1|]. exact Hp. }
  destruct (allocate_ok s2 ext inst (CVector (Some a) d free client) I2 W ltac:(discriminate)) as (s3 & E3 & I3 & F3 & G3 & L3).
  apply ok_bind. eexists _, s3. split; [exact E3|]. apply ok_ret. split.
  - split.
    + exact I3.
    + eapply frame_trans; [exact F1|]. eapply frame_trans; eauto.
    + intros b [= <-]. lia.
    + intros b [= <-]. split; [lia|]. intros o. rewrite G3. intros [= <-]. exact Logic.I.
  - intros b [= <-]. exact G3.
Qed.

Lemma vcreate_ok (s : st) ext inst sp : inv s ext inst -> anch s ext sp -> pt s sp is_space ->
  ok (vcreate zero sp) s (fun p s' => made is_vector s s' p ext inst /\
     forall a, p = Some a -> exists l, get s' a = Some (mkObj 1 (CVector sp (Inner l) None 0))).
Proof.
  intros I Hin Hp. unfold vcreate. apply ok_bind. apply (read_space_ok s ext inst); auto. intros a o t n _ _ _.
  eapply ok_mono; [apply (allocate_vector_ok s ext inst); auto|]. intros p s' [Hm Hg]. split.
  - destruct p; exact Hm.
  - intros b E. eexists. auto.
Qed.

Lemma wrap_ok (s : st) ext inst t sp d free client : inv s ext inst -> anch s ext sp -> pt s sp is_space ->
  ok (wrap_vector t sp d free client) s (fun p s' => made is_vector s s' p ext (new_inst p free client ++ inst) /\
     forall a, p = Some a -> exists d', d = Some d' /\ get s' a = Some (mkObj 1 (CVector sp d' free client))).
Proof.
  intros I Hin Hp. unfold wrap_vector. apply ok_bind. apply (read_space_ok s ext inst); auto. intros a o ts n _ _ _.
  assert (N : ok (ret None) s (fun p s' => made is_vector s s' p ext (new_inst p free client ++ inst) /\
     forall a, p = Some a -> exists d', d = Some d' /\ get s' a = Some (mkObj 1 (CVector sp d' free client)))).
  { apply ok_ret. split; [|discriminate]. apply made_null; [exact I|apply frame_refl]. }
  destruct (negb (eltype_eqb t ts)); [exact N|]. destruct d as [d|]; [|exact N].
  eapply ok_mono; [apply (allocate_vector_ok s ext inst); auto|]. intros p s' [Hm Hg]. split; [exact Hm|].
  intros b E. exists d. auto.
Qed.

Lemma drop_top (s : st) ext inst p : inv s (p :: ext) inst -> ok (drop p) s (fun _ s' => inv s' ext inst /\ frame [] s s' /\ length (objs s') = length (objs s)).
Proof.
  intros I. destruct (drop_ok 8 s ext inst p I) as (s' & E & I' & F & L); [lia| |exists tt, s'; auto].
  intros a o _ _. destruct (shape (body o)); simpl; lia.
Qed.

(** [setc] with the members found by [frame_body] *)
Lemma setc_top (s : st) ext inst a o c ext' : inv s ext inst -> get s a = Some o -> (0 < refs o)%Z -> shape c = shape (body o) -> wt s c ->
  (forall f d, pair_of (Some (mkObj (refs o) c)) f d = pair_of (Some o) f d) ->
  (forall b, cnt ext' b + cnt (dropped c) b = cnt ext b + cnt (dropped (body o)) b) ->
  ok (setc a c) s (fun _ s' => inv s' ext' inst /\ frame [a] s s' /\ get s' a = Some (mkObj (refs o) c)).
Proof. intros. destruct (setc_ok s ext inst a o c ext') as (s' & E & I & F & G & L); auto. exists tt, s'. auto. Qed.

Lemma space_ok (s : st) ext inst t n : inv s ext inst ->
  ok (new_vector_space t n) s (fun p s' => made is_space s s' p ext inst /\ forall a, p = Some a -> get s' a = Some (mkObj 1 (CSpace t n)) /\ (1 <= n)%Z).
Proof.
  intros I. unfold new_vector_space.
  assert (N : forall s', inv s' ext inst -> frame [] s s' -> ok (ret None) s' (fun p s' => made is_space s s' p ext inst /\ forall a, p = Some a -> get s' a = Some (mkObj 1 (CSpace t n)) /\ (1 <= n)%Z)).
  { intros s' I' F'. apply ok_ret. split; [|discriminate]. apply made_null; auto. }
  destruct (Z.ltb_spec n 1); [apply N; [exact I|apply frame_refl]|].
  apply ok_bind. destruct (malloc_ok s ext inst I) as (b & s1 & E1 & I1 & F1 & L1 & G1). exists b, s1. split; [exact E1|].
  destruct b; [|apply N; auto].
  destruct (allocate_ok s1 ext inst (CSpace t n) I1 Logic.I ltac:(discriminate)) as (s2 & E2 & I2 & F2 & G2 & L2).
  apply ok_bind. eexists _, s2. split; [exact E2|]. apply ok_ret. split.
  - split; [exact I2|eapply frame_trans; eauto| |].
    + intros b [= <-]. lia.
    + intros b [= <-]. split; [lia|]. rewrite G2. intros o [= <-]. exact Logic.I.
  - intros b [= <-]. auto.
Qed.

Lemma lnsrch_ok (s : st) ext inst v : inv s ext inst -> ok (new_lnsrch v) s (fun p s' => made is_lnsrch s s' p ext inst).
Proof.
  intros I. unfold new_lnsrch.
  assert (N : forall s', inv s' ext inst -> frame [] s s' -> ok (ret None) s' (fun p s' => made is_lnsrch s s' p ext inst)).
  { intros s' I' F'. apply ok_ret. apply made_null; auto. }
  destruct v; [|apply N; [exact I|apply frame_refl]].
  apply ok_bind. destruct (malloc_ok s ext inst I) as (b & s1 & E1 & I1 & F1 & L1 & G1). exists b, s1. split; [exact E1|].
  destruct b; [|apply N; auto].
  destruct (allocate_ok s1 ext inst CLnsrch I1 Logic.I ltac:(discriminate)) as (s2 & E2 & I2 & F2 & G2 & L2).
  apply ok_bind. eexists _, s2. split; [exact E2|]. apply ok_ret.
  split; [exact I2|eapply frame_trans; eauto| |].
  - intros b [= <-]. lia.
  - intros b [= <-]. split; [lia|]. rewrite G2. intros o [= <-]. exact Logic.I.
Qed.

Lemma operator_ok (s : st) ext inst i o : inv s ext inst -> (i <> None -> anch s ext i) -> (o <> None -> anch s ext o) -> pt s i is_space -> pt s o is_space ->
  ok (new_operator i o) s (fun p s' => made (fun k => k = KOperator) s s' p ext inst).
Proof.
  intros I Hi Ho Pi Po. unfold new_operator.
  assert (N : forall s', inv s' ext inst -> frame [] s s' -> ok (ret None) s' (fun p s' => made (fun k => k = KOperator) s s' p ext inst)).
  { intros s' I' F'. apply ok_ret. apply made_null; auto. }
  destruct i as [i|]; [|apply N; [exact I|apply frame_refl]]. destruct o as [o|]; [|apply N; [exact I|apply frame_refl]].
  specialize (Hi ltac:(discriminate)). specialize (Ho ltac:(discriminate)).
  apply ok_bind. apply (read_space_ok s ext inst); auto. intros _ _ t1 n1 _ _ _.
  apply ok_bind. apply (read_space_ok s ext inst); auto. intros _ _ t2 n2 _ _ _.
  apply ok_bind. destruct (malloc_ok s ext inst I) as (b & s1 & E1 & I1 & F1 & L1 & G1). exists b, s1. split; [exact E1|].
  destruct b; [|apply N; auto].
  destruct (anch_hold s1 ext inst i I1) as (s2 & E2 & I2 & F2 & L2).
  { apply (anch_frame0 s s1 ext ext inst); auto using incl_refl. }
  apply ok_bind. exists (Some i), s2. split; [exact E2|].
  destruct (anch_hold s2 _ inst o I2) as (s3 & E3 & I3 & F3 & L3).
  { apply anch_cons. eapply (anch_frame []); [|exact F2|exact I2|intros x; right; auto|intros x []]. apply (anch_frame0 s s1 ext ext inst); auto using incl_refl. }
  apply ok_bind. exists (Some o), s3. split; [exact E3|].
  assert (F : frame [] s s3) by (eapply frame_trans; [exact F1|]; eapply frame_trans; eauto).
  assert (W : wt s3 (COperator (Some i) (Some o))) by (split; eapply pt_frame; eauto).
  destruct (allocate_ok s3 ext inst (COperator (Some i) (Some o))) as (s4 & E4 & I4 & F4 & G4 & L4); [|exact W|discriminate|].
  { eapply inv_perm; [|exact I3]. intros x. simpl. lia. }
  apply ok_bind. eexists _, s4. split; [exact E4|]. apply ok_ret.
  split; [exact I4|eapply frame_trans; eauto| |].
  - intros b [= <-]. lia.
  - intros b [= <-]. split; [lia|]. rewrite G4. intros x [= <-]. reflexivity.
Qed.

(** A new value of a member of the object [a], referenced by [ext]. *)
Lemma assign_ok (s : st) ext inst a c c' : inv s ext inst -> In (Some a) ext -> (forall o, get s a = Some o -> body o = c) -> shape c' = shape c ->
  wt s c' -> new_pair c = [] -> new_pair c' = [] -> forall ext',
  (forall b, cnt ext' b + cnt (dropped c') b = cnt ext b + cnt (dropped c) b) ->
  ok (setc a c') s (fun _ s' => inv s' ext' inst /\ frame [a] s s' /\ (forall o, get s' a = Some o -> body o = c')).
Proof.
  intros I Hin Hb Hs W P1 P2 ext' Hc. destruct (inv_live _ _ _ _ I Hin) as (o & H & P). specialize (Hb o H). subst c.
  eapply ok_mono; [apply (setc_top s ext inst a o c' ext'); auto|].
  - intros f d. unfold pair_of. simpl. destruct (0 <? refs o)%Z; [|reflexivity]. unfold new_pair in P1, P2.
    destruct c' as [| ? ? [|] ?| | | | | |]; destruct (body o) as [| ? ? [|] ?| | | | | |]; try discriminate; reflexivity.
  - intros _ s' (A & B & C). split; [exact A|]. split; [exact B|]. rewrite C. intros o' [= <-]. reflexivity.
Qed.

(** ** Box sets *)

(** What the client may pass as the value of a bound: the documented kinds, an array of the right type and length *)
Definition value_ok (s : st) (ext : list ptr) (sp : ptr) (type : Z) (v : vptr V) : Prop :=
  match type with
  | 1%Z => match v with PNull => True | PScalar t _ => t = FLOAT | _ => False end
  | 2%Z => match v with PNull => True | PScalar t _ => t = DOUBLE | _ => False end
  | 3%Z | 5%Z => match v with PNull => True | PArray i => forall a o t n, sp = Some a -> get s a = Some o -> body o = CSpace t n -> exists l, nth_error (arrays s) i = Some (FLOAT, l) /\ Z.to_nat n <= length l | _ => False end
  | 4%Z | 6%Z => match v with PNull => True | PArray i => forall a o t n, sp = Some a -> get s a = Some o -> body o = CSpace t n -> exists l, nth_error (arrays s) i = Some (DOUBLE, l) /\ Z.to_nat n <= length l | _ => False end
  | 7%Z => match v with PNull => True | PObj a => anch s ext (Some a) /\ pt s (Some a) is_vector | _ => False end
  | _ => True
  end.

(** The bound obtained, where [s] is the state before and [s'] the state after. *)
Definition bound_is (s s' : st) (sp : ptr) (type : Z) (v : vptr V) (b : bound V) : Prop :=
  match type, v, b with
  | 0%Z, PNull, BNone => True
  | 1%Z, PScalar t x, BScalar y | 2%Z, PScalar t x, BScalar y => y = convert t DOUBLE x
  | 7%Z, PObj a, BVector p => p = Some a
  | (3%Z | 4%Z | 5%Z | 6%Z), PArray i, BVector p =>
    exists v asp osp t n ta l, p = Some v /\ length (objs s) <= v /\ sp = Some asp /\ get s asp = Some osp /\ body osp = CSpace t n /\
      nth_error (arrays s) i = Some (ta, l) /\ Z.to_nat n <= length l /\
      (forall o, get s' v = Some o -> body o = CVector sp (Inner (map (convert ta t) (firstn (Z.to_nat n) l))) None 0)
  | _, _, _ => False
  end.

Lemma set_bound_ok (s : st) ext inst sp type v : inv s ext inst -> anch s ext sp -> pt s sp is_space -> value_ok s ext sp type v ->
  ok (set_bound zero convert sp type v) s (fun r s' => inv s' (bound_ref (snd r) ++ ext) inst /\ frame [] s s' /\
    Forall (fun p => pt s' p is_vector) (bound_ref (snd r)) /\
    (is_success (fst r) = false -> snd r = BNone) /\
    (is_success (fst r) = true -> bound_is s s' sp type v (snd r)) /\
    (is_success (fst r) = true -> forall a, snd r = BVector (Some a) -> (exists o, get s a = Some o) -> v = PObj a)).
Proof.
  intros I Hin Hp Hv. unfold set_bound.
  assert (N : forall st s', inv s' ext inst -> frame [] s s' -> is_success st = false ->
    ok (ret (st, BNone)) s' (fun r s' => inv s' (bound_ref (snd r) ++ ext) inst /\ frame [] s s' /\
    Forall (fun p => pt s' p is_vector) (bound_ref (snd r)) /\ (is_success (fst r) = false -> snd r = BNone) /\
    (is_success (fst r) = true -> bound_is s s' sp type v (snd r)) /\
    (is_success (fst r) = true -> forall a, snd r = BVector (Some a) -> (exists o, get s a = Some o) -> v = PObj a))).
  { intros e s' I' F' E. apply ok_ret. simpl. rewrite E. repeat (split; [first [assumption|constructor|reflexivity|congruence|auto]|]); congruence. }
  assert (Fr := frame_refl [] s).
  destruct (Z.eqb_spec type 0) as [E|N0].
  { subst type. destruct v; try (apply N; auto; fail). apply ok_ret. simpl. split; [exact I|]. split; [exact Fr|]. split; [constructor|]. repeat split; auto; discriminate. }
  destruct ((type =? 1)%Z || (type =? 2)%Z) eqn:E12.
  { assert (C : (type = 1 \/ type = 2)%Z) by (apply orb_true_iff in E12; rewrite !Z.eqb_eq in E12; exact E12).
    destruct v as [|t x|i|a]; [apply N; auto| | |]; [|destruct C as [-> | ->]; destruct Hv..].
    assert (T : t = if (type =? 1)%Z then FLOAT else DOUBLE) by (destruct C as [-> | ->]; exact Hv).
    rewrite T. replace (eltype_eqb _ _) with true by (destruct (type =? 1)%Z; reflexivity). apply ok_ret. simpl.
    split; [exact I|]. split; [exact Fr|]. split; [constructor|]. split; [discriminate|]. split; [|discriminate]. intros _. destruct C as [-> | ->]; reflexivity. }
  apply orb_false_iff in E12. rewrite !Z.eqb_neq in E12.
  destruct (Z.eqb_spec type 7) as [E|N7].
  { subst type. destruct v as [|t x|i|a]; [apply N; auto|destruct Hv..|]. destruct Hv as [Ha Pa].
    destruct (anch_live _ _ _ _ I Ha) as (o & Ho & P). destruct (Pa a eq_refl) as [_ Ka]. specialize (Ka o Ho).
    destruct (body o) as [|w d f c| | | | | |] eqn:B; simpl in Ka; try contradiction.
    apply ok_bind. exists (w, d, f, c), s. split; [unfold read_vector, bind, read; rewrite Ho, B; reflexivity|].
    destruct (negb (onat_eqb w sp)); [apply N; auto|].
    destruct (anch_hold s ext inst a I Ha) as (s2 & E2 & I2 & F2 & L2). apply ok_bind. exists (Some a), s2. split; [exact E2|].
    apply ok_ret. simpl. split; [exact I2|]. split; [exact F2|]. split; [constructor; [eapply pt_frame; eauto|constructor]|].
    split; [discriminate|]. split; [reflexivity|]. intros _ b [= <-] _. reflexivity. }
  destruct ((3 <=? type) && (type <=? 6))%Z eqn:E36; [|apply N; auto].
  assert (C : (type = 3 \/ type = 4 \/ type = 5 \/ type = 6)%Z) by (apply andb_true_iff in E36; rewrite !Z.leb_le in E36; lia).
  destruct v as [|t x|i|a]; [apply N; auto|destruct C as [-> | [-> | [-> | ->]]]; destruct Hv| |destruct C as [-> | [-> | [-> | ->]]]; destruct Hv].
  set (dt := if ((type =? 5) || (type =? 3))%Z then FLOAT else DOUBLE).
  assert (Hv2 : forall a o t n, sp = Some a -> get s a = Some o -> body o = CSpace t n -> exists l, nth_error (arrays s) i = Some (dt, l) /\ Z.to_nat n <= length l).
  { unfold dt. destruct C as [-> | [-> | [-> | ->]]]; exact Hv. }
  eapply ok_then; [apply (vcreate_ok s ext inst); auto|].
  intros vec s1 [[I1 F1 Fs Pv] Hg]. destruct vec as [v|]; [|apply N; [eapply inv_perm; [|exact I1]; reflexivity|exact F1|reflexivity]].
  destruct (Hg v eq_refl) as [l0 Gv].
  destruct sp as [asp|]; [|destruct Hin; congruence].
  destruct (anch_live _ _ _ _ I Hin) as (osp & Hsp & _). destruct (Hp asp eq_refl) as [_ Ksp]. specialize (Ksp _ Hsp).
  destruct (body osp) as [t n| | | | | | |] eqn:Bsp; simpl in Ksp; try contradiction.
  destruct (Hv2 asp osp t n eq_refl Hsp Bsp) as (l & Hl & Len).
  destruct (anch_live s1 (Some v :: ext) inst asp I1) as (osp1 & Hsp1 & _).
  { apply anch_cons. apply (anch_frame0 s s1 ext (Some v :: ext) inst); auto using incl_refl, incl_tl. }
  assert (Bsp1 : body osp1 = body osp).
  { destruct (f_old _ _ _ F1 asp osp1) as (o1 & H1 & _ & Bd & _); [eapply get_lt; eauto|exact Hsp1|]. rewrite Bd by (intros []). congruence. }
  rewrite Bsp in Bsp1.
  apply ok_bind. exists (t, n), s1. split; [unfold read_space, bind, read; rewrite Hsp1, Bsp1; reflexivity|].
  apply ok_bind. exists (dt, l), s1. split; [unfold read_array; rewrite (f_arr _ _ _ F1), Hl; reflexivity|].
  replace (negb (eltype_eqb dt dt)) with false by (unfold dt; destruct ((type =? 5) || (type =? 3))%Z; reflexivity).
  destruct (Nat.ltb_spec (length l) (Z.to_nat n)); [lia|]. simpl orb. cbn iota.
  apply ok_bind. exists (Some asp, Inner l0, None, 0), s1. split; [unfold read_vector, bind, read; rewrite Gv; reflexivity|].
  eapply ok_then.
  { apply (setc_top s1 (Some v :: ext) inst v (mkObj 1 (CVector (Some asp) (Inner l0) None 0)) (CVector (Some asp) (Inner (map (convert dt t) (firstn (Z.to_nat n) l))) None 0) (Some v :: ext)); simpl; auto; try lia.
    split; [discriminate|]. eapply pt_frame; [exact F1|]. exact Hp. }
  simpl. intros _ s2 (I2 & F2 & G2). apply ok_ret. simpl.
  assert (F : frame [] s s2). { eapply frame_fresh; [exact F1|exact F2| |].
    - intros b [<-|[]]. apply Fs. reflexivity.
    - intros b o r [<-|[]]. rewrite G2. intros [= <-]. discriminate. }
  split; [exact I2|]. split; [exact F|]. split.
  { constructor; [|constructor]. eapply pt_frame; [exact F2|]. exact Pv. }
  split; [discriminate|]. split.
  - intros _. assert (Bd : exists v0 asp0 osp0 t0 n0 ta l1, Some v = Some v0 /\ length (objs s) <= v0 /\ Some asp = Some asp0 /\ get s asp0 = Some osp0 /\ body osp0 = CSpace t0 n0 /\
      nth_error (arrays s) i = Some (ta, l1) /\ Z.to_nat n0 <= length l1 /\
      (forall o, get s2 v0 = Some o -> body o = CVector (Some asp) (Inner (map (convert ta t0) (firstn (Z.to_nat n0) l1))) None 0)).
    { exists v, asp, osp, t, n, dt, l. repeat (split; [auto; apply Fs; reflexivity|]). rewrite G2. intros o [= <-]. reflexivity. }
    destruct C as [-> | [-> | [-> | ->]]]; exact Bd.
  - intros _ b [= <-] [o Ho]. specialize (Fs v eq_refl). apply get_lt in Ho. lia.
Qed.

End Ops.
