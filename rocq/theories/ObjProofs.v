(** * Reference counting: invariant and its preservation *)
From Coq Require Import List ZArith Bool Arith Lia.
From Verif Require Import Base MemModel ObjModel ObjSpec.
Import ListNotations.

Section Counts.
Context {V : Type}.

Definition pc (p : ptr) (a : addr) : nat := match p with Some b => if Nat.eqb b a then 1 else 0 | None => 0 end.
Fixpoint cnt (l : list ptr) (a : addr) : nat := match l with [] => 0 | p :: l => pc p a + cnt l a end.
Lemma cnt_app l1 l2 a : cnt (l1 ++ l2) a = cnt l1 a + cnt l2 a.
Proof. induction l1; simpl; lia. Qed.
Lemma cnt_in l a : 0 < cnt l a <-> In (Some a) l.
Proof.
  induction l as [|[b|] l IH]; simpl; [lia| |].
  - destruct (Nat.eqb_spec b a); [subst; split; [auto|lia]|]. rewrite IH. split; [auto|]. intros [E|]; [congruence|auto].
  - rewrite IH. split; [auto|]. intros [E|]; [discriminate|auto].
Qed.
Lemma pc_self a : pc (Some a) a = 1.
Proof. simpl. rewrite Nat.eqb_refl. reflexivity. Qed.

Fixpoint sumof (g : option (obj V) -> nat) (l : list (option (obj V))) : nat := match l with [] => 0 | x :: l => g x + sumof g l end.
Lemma sumof_app g l1 l2 : sumof g (l1 ++ l2) = sumof g l1 + sumof g l2.
Proof. induction l1; simpl; lia. Qed.
Lemma sumof_upd g l a x y : nth_error l a = Some x -> sumof g (upd l a y) + g x = sumof g l + g y.
Proof. revert a. induction l; intros [|k]; simpl; try discriminate; [intros [= ->]; lia|]. intros E. specialize (IHl _ E). lia. Qed.
Lemma sumof_ge g l a x : nth_error l a = Some x -> g x <= sumof g l.
Proof. revert a. induction l; intros [|k]; simpl; try discriminate; [intros [= ->]; lia|]. intros E. specialize (IHl _ E). lia. Qed.
Lemma sumof_zero g l : (forall x, In x l -> g x = 0) -> sumof g l = 0.
Proof. induction l; simpl; auto. intros H. rewrite (H a), IHl; auto. Qed.
Lemma sumof_pos g l : 0 < sumof g l -> exists a x, nth_error l a = Some x /\ 0 < g x.
Proof.
  induction l; simpl; [lia|]. intros H. destruct (Nat.eq_dec (g a) 0).
  - destruct IHl as (k & x & E & P); [lia|]. exists (S k), x. auto.
  - exists 0, a. simpl. split; [reflexivity|lia].
Qed.
Lemma length_upd (l : list (option (obj V))) a x : length (upd l a x) = length l.
Proof. revert a. induction l; intros [|a']; simpl; auto. Qed.
Lemma nth_upd (l : list (option (obj V))) a b x : nth_error (upd l a x) b = if Nat.eqb a b then (if b <? length l then Some x else None) else nth_error l b.
Proof.
  revert a b. induction l as [|y l IH]; intros a b; simpl.
  - destruct (Nat.eqb a b); destruct b; reflexivity.
  - destruct a, b; simpl; auto. rewrite IH. destruct (Nat.eqb a b); auto.
Qed.

Definition edges_of (oo : option (obj V)) (a : addr) : nat :=
  match oo with Some o => if (0 <? refs o)%Z then cnt (dropped (body o)) a else 0 | None => 0 end.
Definition indeg (s : st V) (a : addr) : nat := sumof (fun oo => edges_of oo a) (objs s).

Definition pair_of (oo : option (obj V)) (f c : nat) : nat :=
  match oo with
  | Some o =>
    if (0 <? refs o)%Z then
      match body o with CVector _ _ (Some f') c' => if Nat.eqb f f' && Nat.eqb c c' then 1 else 0 | _ => 0 end
    else 0
  | None => 0
  end.
Definition installed (s : st V) (f c : nat) : nat := sumof (fun oo => pair_of oo f c) (objs s).

Fixpoint nev (p : event -> bool) (l : list event) : nat := match l with [] => 0 | e :: l => (if p e then 1 else 0) + nev p l end.
Definition is_fin (a : addr) (e : event) : bool := match e with Finalized b => Nat.eqb a b | _ => false end.
Definition is_free (a : addr) (e : event) : bool := match e with Freed b => Nat.eqb a b | _ => false end.
Definition is_call (f c : nat) (e : event) : bool := match e with Called f' c' => Nat.eqb f f' && Nat.eqb c c' | _ => false end.
Fixpoint npair (l : list (nat * nat)) (f c : nat) : nat :=
  match l with [] => 0 | (f', c') :: l => (if Nat.eqb f f' && Nat.eqb c c' then 1 else 0) + npair l f c end.
End Counts.

Section Inv.
Context {V : Type}.
Notation st := (st V).
Notation obj := (obj V).
Notation content := (content V).

Definition pt (s : st) (p : ptr) (K : kind -> Prop) : Prop :=
  forall a, p = Some a -> a < length (objs s) /\ forall o, get s a = Some o -> K (shape (body o)).

Definition wt (s : st) (c : content) : Prop :=
  match c with
  | CSpace _ _ => True
  | CVector w _ _ _ => w <> None /\ pt s w is_space
  | CBox sp lo up => sp <> None /\ pt s sp is_space /\ Forall (fun p => pt s p is_vector) (bound_ref lo ++ bound_ref up)
  | CLnsrch => True
  | COperator i o => pt s i is_space /\ pt s o is_space
  | CVmlmb r => pt s (vm_vspace r) is_space /\ pt s (vm_lnsrch r) is_lnsrch /\
     pt s (vm_x0 r) is_vector /\ pt s (vm_g0 r) is_vector /\ pt s (vm_d r) is_vector /\ pt s (vm_w r) is_vector /\
     pt s (vm_gp r) is_vector /\ pt s (vm_box r) is_box /\
     Forall (fun p => pt s p is_vector) (vm_s r) /\ Forall (fun p => pt s p is_vector) (vm_y r) /\
     (vm_save_memory r = true -> (vm_x0 r = None \/ In (vm_x0 r) (vm_s r)) /\ (vm_g0 r = None \/ In (vm_g0 r) (vm_y r)))
  | CNlcg r => pt s (cg_vspace r) is_space /\ pt s (cg_lnsrch r) is_lnsrch /\
     pt s (cg_x0 r) is_vector /\ pt s (cg_g0 r) is_vector /\ pt s (cg_d r) is_vector /\ pt s (cg_y r) is_vector
  | CDriver r => pt s (dr_optimizer r) is_opt /\ pt s (dr_vspace r) is_space /\ pt s (dr_x r) is_vector /\ pt s (dr_g r) is_vector /\ pt s (dr_box r) is_box
  end.

Lemma wt_rank s c b o : wt s c -> In (Some b) (dropped c) -> get s b = Some o -> krank (shape (body o)) < krank (shape c).
Proof.
  assert (P : forall p K n, pt s p K -> (forall k, K k -> krank k < n) -> Some b = p -> get s b = Some o -> krank (shape (body o)) < n).
  { intros p K n Hp HK <- Hg. destruct (Hp b eq_refl) as [_ Hk]. auto. }
  assert (Sp : forall n k, is_space k -> krank k < S n) by (intros n []; simpl; try tauto; lia).
  assert (Ve : forall n k, is_vector k -> krank k < S (S n)) by (intros n []; simpl; try tauto; lia).
  assert (Bo : forall n k, is_box k -> krank k < S (S (S n))) by (intros n []; simpl; try tauto; lia).
  assert (Ln : forall n k, is_lnsrch k -> krank k < S n) by (intros n []; simpl; try tauto; lia).
  assert (Op : forall k, is_opt k -> krank k < 4) by (intros []; simpl; try tauto; lia).
  Local Ltac fin P b := try match goal with E : ?p = Some b |- _ => symmetry in E end;
    match goal with H : pt _ ?p ?K, E : Some b = ?p |- _ => apply (P p K _ H); [simpl; auto|exact E|assumption] end.
  destruct c as [t n|w d f cd|sp lo up| |i u|r|r|r]; simpl; try tauto.
  - intros [_ H] [E|[]] Hg. fin P b.
  - intros (_ & Hs & Hb) Hin Hg. rewrite app_assoc in Hin. apply in_app_iff in Hin. destruct Hin as [Hin|[E|[]]].
    + rewrite Forall_forall in Hb. specialize (Hb _ Hin). apply (P _ _ _ Hb); auto.
    + fin P b.
  - intros [H1 H2] [E|[E|[]]] Hg; fin P b.
  - intros (H1 & H2 & H3 & H4 & H5 & H6 & H7 & H8 & H9 & H10 & _) Hin Hg.
    rewrite Forall_forall in H9, H10.
    destruct Hin as [E|[E|Hin]]; [fin P b|fin P b|].
    apply in_app_iff in Hin. destruct Hin as [Hin|Hin].
    + destruct (vm_save_memory r); [destruct Hin|]. destruct Hin as [E|[E|[]]]; fin P b.
    + destruct Hin as [E|[E|[E|[E|Hin]]]]; try (fin P b; fail).
      apply in_app_iff in Hin. destruct Hin as [Hin|Hin]; [specialize (H9 _ Hin) as Hx|specialize (H10 _ Hin) as Hx]; apply (P _ _ _ Hx); auto.
  - intros (H1 & H2 & H3 & H4 & H5 & H6) Hin Hg.
    destruct Hin as [E|[E|[E|[E|[E|[E|[]]]]]]]; fin P b.
  - intros (H1 & H2 & H3 & H4 & H5) Hin Hg.
    destruct Hin as [E|[E|[E|[E|[E|[]]]]]]; fin P b.
Qed.

Definition live (s : st) (a : addr) : Prop := exists o, get s a = Some o.
Definition dead (s : st) (a : addr) : bool :=
  (a <? length (objs s)) && match get s a with Some o => negb (0 <? refs o)%Z | None => true end.
Definition gone (s : st) (a : addr) : bool :=
  (a <? length (objs s)) && match get s a with Some o => false | None => true end.

(** The invariant.  [ext]: the references held by the client and by the functions being executed; [inst]: the callbacks
    installed so far.  The objects whose counter is zero are being finalized. *)
Record inv (s : st) (ext : list ptr) (inst : list (nat * nat)) : Prop := mkInv {
  i_cnt : forall a o, get s a = Some o -> refs o = Z.of_nat (cnt ext a + indeg s a);
  i_ext : forall a, 0 < cnt ext a -> live s a;
  i_edge : forall a, 0 < indeg s a -> live s a;
  i_wt : forall a o, get s a = Some o -> wt s (body o);
  i_fin : forall a, nev (is_fin a) (events s) = if dead s a then 1 else 0;
  i_free : forall a, nev (is_free a) (events s) = if gone s a then 1 else 0;
  i_call : forall f c, nev (is_call f c) (events s) + installed s f c = npair inst f c
}.

(** The vectors of a driver are newer than [s]. *)
Definition fresh (s : st) (p : ptr) : Prop := forall a, p = Some a -> length (objs s) <= a.
Definition fresh_xg (s : st) (r : dr) : Prop := fresh s (dr_x r) /\ fresh s (dr_g r).
Lemma fresh_le (s s' : st) r : length (objs s) <= length (objs s') -> fresh_xg s' r -> fresh_xg s r.
Proof. intros L [A B]. split; intros a E; [specialize (A a E)|specialize (B a E)]; lia. Qed.

(** [T]: objects whose members may change *)
Record frame (T : list addr) (s s' : st) : Prop := mkFrame {
  f_len : length (objs s) <= length (objs s');
  f_old : forall a o', a < length (objs s) -> get s' a = Some o' -> exists o, get s a = Some o /\ shape (body o') = shape (body o) /\
     (~ In a T -> body o' = body o) /\ (refs o' = 0 <-> refs o = 0)%Z;
  f_new : forall a o', length (objs s) <= a -> get s' a = Some o' -> refs o' <> 0%Z;
  f_zero : forall a o, get s a = Some o -> refs o = 0%Z -> get s' a = Some o;
  f_arr : arrays s' = arrays s;
  f_drv : forall a o' r, length (objs s) <= a -> get s' a = Some o' -> ~ In a T -> body o' = CDriver r -> fresh_xg s r
}.

Lemma get_lt (s : st) a o : get s a = Some o -> a < length (objs s).
Proof. unfold get. intros H. apply nth_error_Some. destruct (nth_error (objs s) a); congruence. Qed.
Lemma get_nth (s : st) a o : get s a = Some o <-> nth_error (objs s) a = Some (Some o).
Proof. unfold get. destruct (nth_error (objs s) a); split; congruence. Qed.

Lemma frame_refl T s : frame T s s.
Proof.
  split; auto.
  - intros a o' _ H. exists o'. tauto.
  - intros a o' H1 H2. apply get_lt in H2. lia.
  - intros a o' r H1 H2. apply get_lt in H2. lia.
Qed.
Lemma frame_trans T s1 s2 s3 : frame T s1 s2 -> frame T s2 s3 -> frame T s1 s3.
Proof.
  intros F G. split.
  - pose proof (f_len _ _ _ F). pose proof (f_len _ _ _ G). lia.
  - intros a o' L H. pose proof (f_len _ _ _ F) as L2. destruct (f_old _ _ _ G a o' ltac:(lia) H) as (o2 & H2 & E2 & B2 & Z2).
    destruct (f_old _ _ _ F a o2 L H2) as (o1 & H1 & E1 & B1 & Z1). exists o1. split; [exact H1|]. split; [congruence|].
    split; [intros N; rewrite B2, B1; auto|tauto].
  - intros a o' L H. destruct (Nat.lt_ge_cases a (length (objs s2))) as [L2|L2].
    + destruct (f_old _ _ _ G a o' L2 H) as (o2 & H2 & _ & _ & Z2). pose proof (f_new _ _ _ F a o2 L H2). tauto.
    + apply (f_new _ _ _ G a o' L2 H).
  - intros a o H Z. apply (f_zero _ _ _ G); auto. apply (f_zero _ _ _ F); auto.
  - rewrite (f_arr _ _ _ G). apply (f_arr _ _ _ F).
  - intros a o' r L H NT B. destruct (Nat.lt_ge_cases a (length (objs s2))) as [L2|L2].
    + destruct (f_old _ _ _ G a o' L2 H) as (o2 & H2 & _ & B2 & _). apply (f_drv _ _ _ F a o2 r L H2 NT). rewrite <- B2; auto.
    + eapply fresh_le; [apply (f_len _ _ _ F)|]. eapply (f_drv _ _ _ G); eauto.
Qed.
Lemma frame_weaken T T' s s' : incl T T' -> frame T s s' -> frame T' s s'.
Proof. intros I [F1 F2 F3 F4 F5 F6]. split; auto.
  - intros a o' L H. destruct (F2 a o' L H) as (o & A & B & C & D). exists o. repeat split; auto; tauto.
  - intros a o' r L H NT. eapply F6; eauto.
Qed.

Lemma pt_frame T s s' p K : frame T s s' -> pt s p K -> pt s' p K.
Proof.
  intros F H a ->. destruct (H a eq_refl) as [L Hk]. pose proof (f_len _ _ _ F). split; [lia|].
  intros o Ho. destruct (f_old _ _ _ F a o L Ho) as (o1 & H1 & E & _). rewrite E. auto.
Qed.
Lemma wt_frame T s s' c : frame T s s' -> wt s c -> wt s' c.
Proof.
  intros F. assert (P : forall p K, pt s p K -> pt s' p K) by (intros; eapply pt_frame; eauto).
  assert (Q : forall l K, Forall (fun p => pt s p K) l -> Forall (fun p => pt s' p K) l) by (intros; eapply Forall_impl; [|eauto]; intros; apply P; auto).
  destruct c; simpl; auto; try tauto.
  - intros [A B]; auto.
  - intros (A & B & C); auto.
  - intros [A B]; auto.
  - intros (A1 & A2 & A3 & A4 & A5 & A6 & A7 & A8 & A9 & A10 & A11). repeat match goal with |- _ /\ _ => split end; auto.
  - intros (A1 & A2 & A3 & A4 & A5 & A6). repeat match goal with |- _ /\ _ => split end; auto.
  - intros (A1 & A2 & A3 & A4 & A5). repeat match goal with |- _ /\ _ => split end; auto.
Qed.

Lemma inv_perm s ext ext' inst : (forall a, cnt ext a = cnt ext' a) -> inv s ext inst -> inv s ext' inst.
Proof.
  intros E [A B C D F G I]. split; auto.
  - intros a o H. rewrite <- E. auto.
  - intros a. rewrite <- E. auto.
Qed.

(** A referenced object is live, with a positive counter. *)
Lemma inv_live s ext inst a : inv s ext inst -> In (Some a) ext -> exists o, get s a = Some o /\ (0 < refs o)%Z.
Proof.
  intros I H. apply cnt_in in H. destruct (i_ext _ _ _ I a H) as [o Ho]. exists o. split; [exact Ho|].
  rewrite (i_cnt _ _ _ I a o Ho). lia.
Qed.

(** ** Objects changed in place *)
Lemma get_set (s : st) a b oo : get (set s a oo) b = if Nat.eqb a b then (if b <? length (objs s) then oo else None) else get s b.
Proof. unfold get, set. simpl. rewrite nth_upd. destruct (Nat.eqb a b); [destruct (b <? length (objs s)); reflexivity|reflexivity]. Qed.
Lemma indeg_set (s : st) a o oo b : get s a = Some o -> indeg (set s a oo) b + edges_of (Some o) b = indeg s b + edges_of oo b.
Proof. intros H. apply get_nth in H. unfold indeg, set. simpl. exact (sumof_upd (fun oo => edges_of oo b) _ _ _ oo H). Qed.
Lemma installed_set (s : st) a o oo f c : get s a = Some o -> installed (set s a oo) f c + pair_of (Some o) f c = installed s f c + pair_of oo f c.
Proof. intros H. apply get_nth in H. unfold installed, set. simpl. exact (sumof_upd (fun oo => pair_of oo f c) _ _ _ oo H). Qed.

Lemma frame_set T s a o o' : get s a = Some o -> shape (body o') = shape (body o) -> (In a T \/ body o' = body o) -> (0 < refs o)%Z -> (0 < refs o')%Z ->
  frame T s (set s a (Some o')).
Proof.
  intros H S B P P'. pose proof (get_lt _ _ _ H) as L. split.
  - unfold set. simpl. rewrite length_upd. lia.
  - intros b o2 Lb. rewrite get_set. destruct (Nat.eqb_spec a b) as [<-|N].
    + apply Nat.ltb_lt in L. rewrite L. intros [= <-]. exists o. split; [exact H|]. split; [exact S|]. split; [tauto|]. split; lia.
    + intros H2. exists o2. tauto.
  - intros b o2 Lb. rewrite get_set. destruct (Nat.eqb_spec a b) as [<-|N]; [lia|]. intros H2. apply get_lt in H2. lia.
  - intros b o2 H2 Z. rewrite get_set. destruct (Nat.eqb_spec a b) as [<-|N]; [|exact H2]. rewrite H in H2. injection H2 as <-. lia.
  - reflexivity.
  - intros b o2 r Lb. rewrite get_set. destruct (Nat.eqb_spec a b) as [<-|N]; [lia|]. intros H2. apply get_lt in H2. lia.
Qed.

Lemma dead_set s a o o' b : get s a = Some o -> (0 < refs o)%Z -> (0 < refs o')%Z -> dead (set s a (Some o')) b = dead s b.
Proof.
  intros H P P'. pose proof (get_lt _ _ _ H) as L. unfold dead. rewrite get_set. unfold set. simpl. rewrite length_upd.
  destruct (Nat.eqb_spec a b) as [<-|N]; [|reflexivity]. rewrite H. apply Nat.ltb_lt in L. rewrite L. simpl.
  apply Z.ltb_lt in P, P'. rewrite P, P'. reflexivity.
Qed.
Lemma gone_set s a o o' b : get s a = Some o -> gone (set s a (Some o')) b = gone s b.
Proof.
  intros H. pose proof (get_lt _ _ _ H) as L. unfold gone. rewrite get_set. unfold set. simpl. rewrite length_upd.
  destruct (Nat.eqb_spec a b) as [<-|N]; [|reflexivity]. rewrite H. apply Nat.ltb_lt in L. rewrite L. reflexivity.
Qed.

(** Change of the counter (with the external references) or of the members (references move between members and stack). *)
Lemma inv_set_gen s ext inst a o o' ext' inst' evs mal : inv s ext inst -> get s a = Some o -> (0 < refs o)%Z -> (0 < refs o')%Z ->
  shape (body o') = shape (body o) -> wt s (body o') ->
  (forall x, nev (is_fin x) evs = 0) -> (forall x, nev (is_free x) evs = 0) ->
  (forall f c, nev (is_call f c) evs + pair_of (Some o') f c + npair inst f c = pair_of (Some o) f c + npair inst' f c) ->
  (forall b, (Z.of_nat (cnt ext' b) + Z.of_nat (cnt (dropped (body o')) b) - (if Nat.eqb a b then refs o' else 0)
           = Z.of_nat (cnt ext b) + Z.of_nat (cnt (dropped (body o)) b) - (if Nat.eqb a b then refs o else 0))%Z) ->
  inv (mkSt (upd (objs s) a (Some o')) (arrays s) mal (evs ++ events s)) ext' inst'.
Proof.
  intros I H P P' S W Ef Er Hp Hc. pose proof (get_lt _ _ _ H) as L.
  assert (Fr : frame [a] s (set s a (Some o'))) by (apply (frame_set _ _ _ o); simpl; auto).
  set (s2 := mkSt _ _ _ _).
  assert (Fr2 : frame [a] s s2) by (destruct Fr; split; auto).
  assert (G : forall b, get s2 b = get (set s a (Some o')) b) by reflexivity.
  assert (Ne : forall q, nev q (evs ++ events s) = nev q evs + nev q (events s)) by (intros q; clear; induction evs; simpl; [reflexivity|rewrite IHevs; lia]).
  assert (Ind : forall b, indeg s2 b + cnt (dropped (body o)) b = indeg s b + cnt (dropped (body o')) b).
  { intros b. pose proof (indeg_set s a o (Some o') b H) as E. unfold edges_of in E.
    apply Z.ltb_lt in P, P'. rewrite P, P' in E. exact E. }
  assert (Lv : forall b, live s b -> live s2 b).
  { intros b [ob Hb]. unfold live. rewrite G, get_set. destruct (Nat.eqb_spec a b) as [<-|N]; [|eauto]. apply Nat.ltb_lt in L. rewrite L. eauto. }
  assert (Lpos : forall b, 0 < cnt ext' b + indeg s2 b -> live s2 b).
  { intros b Hb. apply Lv. destruct (Nat.eqb_spec a b) as [<-|N]; [exists o; exact H|].
    specialize (Hc b). specialize (Ind b). destruct (Nat.eqb_spec a b); [congruence|].
    destruct (Nat.eq_dec (cnt ext b) 0); [apply (i_edge _ _ _ I)|apply (i_ext _ _ _ I)]; lia. }
  split.
  - intros b ob. rewrite G, get_set. destruct (Nat.eqb_spec a b) as [<-|N].
    + apply Nat.ltb_lt in L. rewrite L. intros [= <-]. specialize (Hc a). specialize (Ind a). rewrite Nat.eqb_refl in Hc.
      pose proof (i_cnt _ _ _ I a o H). lia.
    + intros Hb. pose proof (i_cnt _ _ _ I b ob Hb). specialize (Hc b). specialize (Ind b). destruct (Nat.eqb_spec a b); [congruence|]. lia.
  - intros b Hb. apply Lpos. lia.
  - intros b Hb. apply Lpos. lia.
  - intros b ob. rewrite G, get_set. destruct (Nat.eqb_spec a b) as [<-|N].
    + apply Nat.ltb_lt in L. rewrite L. intros [= <-]. eapply wt_frame; eauto.
    + intros Hb. eapply wt_frame; eauto. eapply i_wt; eauto.
  - intros b. change (dead s2 b) with (dead (set s a (Some o')) b). rewrite (dead_set s a o o' b H P P'). unfold s2. simpl events. rewrite Ne, Ef. apply (i_fin _ _ _ I).
  - intros b. change (gone s2 b) with (gone (set s a (Some o')) b). rewrite (gone_set s a o o' b H). unfold s2. simpl events. rewrite Ne, Er. apply (i_free _ _ _ I).
  - intros f c. pose proof (i_call _ _ _ I f c). pose proof (installed_set s a o (Some o') f c H) as E. specialize (Hp f c).
    change (installed s2 f c) with (installed (set s a (Some o')) f c). unfold s2. simpl events. rewrite Ne. lia.
Qed.

Lemma inv_set s ext inst a o o' ext' : inv s ext inst -> get s a = Some o -> (0 < refs o)%Z -> (0 < refs o')%Z ->
  shape (body o') = shape (body o) -> wt s (body o') ->
  (forall f c, pair_of (Some o') f c = pair_of (Some o) f c) ->
  (forall b, (Z.of_nat (cnt ext' b) + Z.of_nat (cnt (dropped (body o')) b) - (if Nat.eqb a b then refs o' else 0)
           = Z.of_nat (cnt ext b) + Z.of_nat (cnt (dropped (body o)) b) - (if Nat.eqb a b then refs o else 0))%Z) ->
  inv (set s a (Some o')) ext' inst.
Proof.
  intros I H P P' S W Hp Hc. apply (inv_set_gen s ext inst a o o' ext' inst [] (mallocs s)); auto.
  intros f c. rewrite Hp. reflexivity.
Qed.

(** ** Primitive operations *)
Lemma hold_ok s ext inst a o : inv s ext inst -> get s a = Some o -> (0 < refs o)%Z ->
  exists s', hold_object (Some a) s = Some (Some a, s') /\ inv s' (Some a :: ext) inst /\ frame [] s s' /\ length (objs s') = length (objs s).
Proof.
  intros I H P.
  exists (set s a (Some (mkObj (refs o + 1) (body o)))). split.
  { unfold hold_object, bind, read, write. rewrite H. simpl. rewrite H. reflexivity. }
  split; [|split; [apply (frame_set _ _ _ o); simpl; auto; lia|unfold set; simpl; apply length_upd]].
  apply (inv_set s ext inst a o); simpl; auto; try lia.
  - eapply i_wt; eauto.
  - intros f c. assert (Q : (0 < refs o + 1)%Z) by lia. apply Z.ltb_lt in P, Q. rewrite P, Q. reflexivity.
  - intros b. destruct (Nat.eqb_spec a b); lia.
Qed.

Lemma setc_ok s ext inst a o c ext' : inv s ext inst -> get s a = Some o -> (0 < refs o)%Z -> shape c = shape (body o) -> wt s c ->
  (forall f d, pair_of (Some (mkObj (refs o) c)) f d = pair_of (Some o) f d) ->
  (forall b, cnt ext' b + cnt (dropped c) b = cnt ext b + cnt (dropped (body o)) b) ->
  exists s', setc a c s = Some (tt, s') /\ inv s' ext' inst /\ frame [a] s s' /\ get s' a = Some (mkObj (refs o) c) /\ length (objs s') = length (objs s).
Proof.
  intros I H P S W Hp Hc. exists (set s a (Some (mkObj (refs o) c))). split.
  { unfold setc, bind, read, write. rewrite H. simpl. rewrite H. reflexivity. }
  split; [|split; [apply (frame_set _ _ _ o); simpl; auto|split; [|unfold set; simpl; apply length_upd]]].
  - apply (inv_set s ext inst a o); simpl; auto. intros b. specialize (Hc b). destruct (Nat.eqb_spec a b); lia.
  - rewrite get_set, Nat.eqb_refl. apply get_lt in H. apply Nat.ltb_lt in H. rewrite H. reflexivity.
Qed.

Lemma malloc_ok s ext inst : inv s ext inst ->
  exists b s', malloc s = Some (b, s') /\ inv s' ext inst /\ frame [] s s' /\ length (objs s') = length (objs s) /\ (forall a, get s' a = get s a).
Proof.
  intros I. unfold malloc. destruct (mallocs s) as [|b l] eqn:E.
  - exists true, s. split; [reflexivity|]. split; [exact I|]. split; [apply frame_refl|]. split; reflexivity.
  - exists b. eexists. split; [reflexivity|]. split; [destruct I; split; auto|]. split; [|split; [reflexivity|reflexivity]].
    destruct (frame_refl [] s) as [F1 F2 F3 F4 F5 F6]. split; auto.
Qed.

Lemma nth_app_new {A} (l : list A) x k : nth_error (l ++ [x]) k = if k <? length l then nth_error l k else if Nat.eqb k (length l) then Some x else None.
Proof.
  destruct (Nat.ltb_spec k (length l)); [apply nth_error_app1; auto|]. rewrite nth_error_app2 by auto.
  destruct (Nat.eqb_spec k (length l)) as [->|N]; [rewrite Nat.sub_diag; reflexivity|].
  destruct (k - length l) as [|j] eqn:E; [lia|]. destruct j; reflexivity.
Qed.

Definition new_pair (c : content) : list (nat * nat) :=
  match c with CVector _ _ (Some f) d => [(f, d)] | _ => [] end.

Lemma allocate_ok s ext inst c : inv s (dropped c ++ ext) inst -> wt s c -> (forall r, c = CDriver r -> fresh_xg s r) ->
  exists s', allocate_object c s = Some (length (objs s), s') /\ inv s' (Some (length (objs s)) :: ext) (new_pair c ++ inst) /\ frame [] s s' /\
    get s' (length (objs s)) = Some (mkObj 1 c) /\ length (objs s') = S (length (objs s)).
Proof.
  intros I W Hd. set (n := length (objs s)). eexists. split; [reflexivity|].
  set (s' := mkSt _ _ _ _).
  assert (G : forall a, get s' a = if a <? n then get s a else if Nat.eqb a n then Some (mkObj 1 c) else None).
  { intros a. unfold get, s'. simpl. rewrite nth_app_new. fold n. destruct (a <? n); [reflexivity|]. destruct (Nat.eqb a n); reflexivity. }
  assert (Len : length (objs s') = S n) by (unfold s'; simpl; rewrite app_length; simpl; lia).
  assert (Fr : frame [] s s').
  { split.
    - rewrite Len. unfold n. lia.
    - intros a o' L. fold n in L. rewrite G. apply Nat.ltb_lt in L. rewrite L. intros H. exists o'. tauto.
    - intros a o' L. fold n in L. rewrite G. destruct (Nat.ltb_spec a n); [lia|]. destruct (Nat.eqb a n); [|discriminate]. intros [= <-]. simpl. lia.
    - intros a o H _. rewrite G. pose proof (get_lt _ _ _ H) as L. fold n in L. apply Nat.ltb_lt in L. rewrite L. exact H.
    - reflexivity.
    - intros a o' r L. fold n in L. rewrite G. destruct (Nat.ltb_spec a n); [lia|]. destruct (Nat.eqb a n); [|discriminate]. intros [= <-] _. simpl. apply Hd. }
  assert (Ind : forall b, indeg s' b = indeg s b + cnt (dropped c) b).
  { intros b. unfold indeg, s'. simpl. rewrite sumof_app. simpl. lia. }
  assert (Fresh : cnt (dropped c ++ ext) n = 0 /\ indeg s n = 0).
  { split; [destruct (Nat.eq_dec (cnt (dropped c ++ ext) n) 0) as [E|E]; auto; exfalso|destruct (Nat.eq_dec (indeg s n) 0) as [E|E]; auto; exfalso].
    - destruct (i_ext _ _ _ I n) as [o Ho]; [lia|]. apply get_lt in Ho. unfold n in Ho. lia.
    - destruct (i_edge _ _ _ I n) as [o Ho]; [lia|]. apply get_lt in Ho. unfold n in Ho. lia. }
  destruct Fresh as [Fr1 Fr2]. rewrite cnt_app in Fr1.
  assert (Lv : forall b, live s b -> live s' b).
  { intros b [o Ho]. exists o. rewrite G. pose proof (get_lt _ _ _ Ho) as L. fold n in L. apply Nat.ltb_lt in L. rewrite L. exact Ho. }
  assert (Gn : get s' n = Some (mkObj 1 c)) by (rewrite G, Nat.ltb_irrefl, Nat.eqb_refl; reflexivity).
  split; [|split; [exact Fr|split; [exact Gn|exact Len]]].
  split.
  - intros a o. rewrite G. destruct (Nat.ltb_spec a n) as [L|L].
    + intros H. rewrite (i_cnt _ _ _ I a o H), Ind, cnt_app. simpl. destruct (Nat.eqb_spec n a); [lia|]. lia.
    + destruct (Nat.eqb_spec a n) as [->|]; [|discriminate]. intros [= <-]. simpl. rewrite Ind, Nat.eqb_refl. lia.
  - intros a. simpl. destruct (Nat.eqb_spec n a) as [<-|N]; [eexists; exact Gn|]. intros H. apply Lv. apply (i_ext _ _ _ I). rewrite cnt_app. lia.
  - intros a H. apply Lv. rewrite Ind in H. destruct (Nat.eq_dec (indeg s a) 0).
    + apply (i_ext _ _ _ I). rewrite cnt_app. lia.
    + apply (i_edge _ _ _ I). lia.
  - intros a o. rewrite G. destruct (Nat.ltb_spec a n) as [L|L].
    + intros H. eapply wt_frame; eauto. eapply i_wt; eauto.
    + destruct (Nat.eqb_spec a n) as [->|]; [|discriminate]. intros [= <-]. eapply wt_frame; eauto.
  - intros a. simpl. rewrite (i_fin _ _ _ I). unfold dead. rewrite G, Len. fold n. destruct (Nat.ltb_spec a n) as [L|L].
    + destruct (Nat.ltb_spec a (S n)); [reflexivity|lia].
    + simpl. destruct (Nat.eqb_spec a n) as [->|N].
      * rewrite andb_false_r. reflexivity.
      * destruct (Nat.ltb_spec a (S n)); [lia|reflexivity].
  - intros a. simpl. rewrite (i_free _ _ _ I). unfold gone. rewrite G, Len. fold n. destruct (Nat.ltb_spec a n) as [L|L].
    + destruct (Nat.ltb_spec a (S n)); [reflexivity|lia].
    + simpl. destruct (Nat.eqb_spec a n) as [->|N].
      * rewrite andb_false_r. reflexivity.
      * destruct (Nat.ltb_spec a (S n)); [lia|reflexivity].
  - intros f d. pose proof (i_call _ _ _ I f d) as E. unfold installed in *. unfold s'. simpl. rewrite sumof_app. simpl.
    unfold new_pair. destruct c as [| w dd [f'|] d'| | | | | |]; simpl in *; try lia.
Qed.

(** ** Finalization *)
Lemma log_inv s ext inst e s' : (forall a, is_fin a e = false) -> (forall a, is_free a e = false) -> (forall f c, is_call f c e = false) ->
  log e s = Some (tt, s') -> inv s ext inst -> inv s' ext inst.
Proof.
  intros A B C [= <-] I. destruct I as [I1 I2 I3 I4 I5 I6 I7]. split; simpl; auto.
  - intros a. rewrite A. apply I5.
  - intros a. rewrite B. apply I6.
  - intros f c. rewrite C. apply I7.
Qed.

(** The last reference is removed: the finalizer is called, the members become external references. *)
Lemma zero_ok s ext inst a o : inv s (Some a :: ext) inst -> get s a = Some o -> refs o = 1%Z ->
  exists s2, (bind (write a (mkObj (refs o - 1) (body o))) (fun _ => bind (log (Finalized a)) (fun _ => before_drops (body o)))) s = Some (tt, s2) /\
    inv s2 (dropped (body o) ++ ext) inst /\
    (forall b, get s2 b = if Nat.eqb a b then Some (mkObj 0 (body o)) else get s b) /\ length (objs s2) = length (objs s) /\ arrays s2 = arrays s.
Proof.
  intros I H R. pose proof (get_lt _ _ _ H) as L.
  set (s1 := set s a (Some (mkObj 0 (body o)))).
  assert (G : forall b, get s1 b = if Nat.eqb a b then Some (mkObj 0 (body o)) else get s b).
  { intros b. unfold s1. rewrite get_set. destruct (Nat.eqb_spec a b) as [<-|]; [|reflexivity]. apply Nat.ltb_lt in L. rewrite L. reflexivity. }
  assert (Len : length (objs s1) = length (objs s)) by (unfold s1, set; simpl; apply length_upd).
  pose proof (i_cnt _ _ _ I a o H) as Ca. rewrite R in Ca. simpl in Ca. rewrite Nat.eqb_refl in Ca.
  assert (Ind : forall b, indeg s1 b + cnt (dropped (body o)) b = indeg s b).
  { intros b. pose proof (indeg_set s a o (Some (mkObj 0 (body o))) b H) as E. unfold edges_of in E. rewrite R in E. simpl in E. fold s1 in E. lia. }
  set (calls := match body o with CVector _ _ (Some f) d => [Called f d] | _ => [] end).
  exists (mkSt (objs s1) (arrays s1) (mallocs s1) (calls ++ Finalized a :: events s1)).
  split; [|split; [|split; [exact G|split; [exact Len|reflexivity]]]].
  { unfold bind at 1. unfold write. rewrite H, R. change (1 - 1)%Z with 0%Z. fold s1. unfold bind at 1. unfold log at 1.
    unfold before_drops, calls. destruct (body o) as [t n|w d f c|sp lo up| |i u|r|r|r] eqn:B; try reflexivity.
    pose proof (i_wt _ _ _ I a o H) as W. rewrite B in W. destruct W as [Wn Wp]. destruct w as [b|]; [|congruence].
    destruct (Wp b eq_refl) as [Lb Kb].
    assert (Nab : Nat.eqb a b = false).
    { apply Nat.eqb_neq. intros <-. specialize (Kb _ H). rewrite B in Kb. exact Kb. }
    assert (Lb2 : live s b). { apply (i_edge _ _ _ I). specialize (Ind b). simpl in Ind. rewrite Nat.eqb_refl in Ind. lia. }
    destruct Lb2 as [ob Hb]. unfold bind, read. unfold get at 1. simpl.
    match goal with |- context[match nth_error ?l b with _ => _ end] => change (match nth_error l b with Some o1 => o1 | None => None end) with (get s1 b) end.
    rewrite G, Nab, Hb. specialize (Kb ob Hb). destruct (body ob); simpl in Kb; try contradiction. destruct f; reflexivity. }
  set (s2 := mkSt _ _ _ _). assert (G2 : forall b, get s2 b = get s1 b) by reflexivity. assert (Ind2 : forall b, indeg s2 b = indeg s1 b) by reflexivity.
  assert (Fr : forall p K, pt s p K -> pt s2 p K).
  { intros p K Hp b ->. destruct (Hp b eq_refl) as [Lb Kb]. split; [change (b < length (objs s1)); rewrite Len; exact Lb|]. intros ob. rewrite G2, G. destruct (Nat.eqb_spec a b) as [<-|]; [|apply Kb].
    intros [= <-]. simpl. apply (Kb o H). }
  assert (Fw : forall c, wt s c -> wt s2 c).
  { assert (Q : forall l K, Forall (fun p => pt s p K) l -> Forall (fun p => pt s2 p K) l) by (intros; eapply Forall_impl; [|eauto]; intros; apply Fr; auto).
    intros c. destruct c; simpl; auto; try tauto.
    - intros [A B]; auto.
    - intros (A & B & C); auto.
    - intros [A B]; auto.
    - intros (A1 & A2 & A3 & A4 & A5 & A6 & A7 & A8 & A9 & A10 & A11). repeat match goal with |- _ /\ _ => split end; auto.
    - intros (A1 & A2 & A3 & A4 & A5 & A6). repeat match goal with |- _ /\ _ => split end; auto.
    - intros (A1 & A2 & A3 & A4 & A5). repeat match goal with |- _ /\ _ => split end; auto. }
  assert (Lv : forall b, live s b -> live s2 b).
  { intros b [ob Hb]. unfold live. rewrite G2, G. destruct (Nat.eqb a b); eauto. }
  assert (Nf : nev (is_fin a) (events s) = 0).
  { rewrite (i_fin _ _ _ I). unfold dead. rewrite H, R. simpl. rewrite andb_false_r. reflexivity. }
  split.
  - intros b ob. rewrite G2, G, Ind2, cnt_app. specialize (Ind b). destruct (Nat.eqb_spec a b) as [<-|N].
    + intros [= <-]. simpl. lia.
    + intros Hb. rewrite (i_cnt _ _ _ I b ob Hb). simpl. destruct (Nat.eqb_spec a b); [congruence|]. lia.
  - intros b Hb. apply Lv. rewrite cnt_app in Hb. specialize (Ind b). destruct (Nat.eq_dec (cnt ext b) 0).
    + apply (i_edge _ _ _ I). lia.
    + apply (i_ext _ _ _ I). simpl. lia.
  - intros b Hb. apply Lv. rewrite Ind2 in Hb. specialize (Ind b). apply (i_edge _ _ _ I). lia.
  - intros b ob. rewrite G2, G. destruct (Nat.eqb_spec a b) as [<-|N].
    + intros [= <-]. apply Fw. simpl. eapply i_wt; eauto.
    + intros Hb. apply Fw. eapply i_wt; eauto.
  - intros b. assert (E : nev (is_fin b) (events s2) = (if Nat.eqb b a then 1 else 0) + nev (is_fin b) (events s)).
    { unfold s2, calls. simpl events. destruct (body o) as [|w d [f|] c| | | | | |]; reflexivity. }
    rewrite E. unfold dead. rewrite G2, G. change (length (objs s2)) with (length (objs s1)). rewrite Len. destruct (Nat.eqb_spec b a) as [Eba|N].
    + subst b. rewrite Nat.eqb_refl. rewrite Nf. apply Nat.ltb_lt in L. rewrite L. reflexivity.
    + destruct (Nat.eqb_spec a b); [congruence|]. rewrite (i_fin _ _ _ I). reflexivity.
  - intros b. assert (E : nev (is_free b) (events s2) = nev (is_free b) (events s)).
    { unfold s2, calls. simpl events. destruct (body o) as [|w d [f|] c| | | | | |]; reflexivity. }
    rewrite E, (i_free _ _ _ I). unfold gone. rewrite G2, G. change (length (objs s2)) with (length (objs s1)). rewrite Len.
    destruct (Nat.eqb_spec a b) as [<-|N]; [rewrite H|]; reflexivity.
  - intros f d. rewrite <- (i_call _ _ _ I f d).
    pose proof (installed_set s a o (Some (mkObj 0 (body o))) f d H) as E. fold s1 in E. unfold pair_of in E. rewrite R in E. simpl in E.
    change (installed s2 f d) with (installed s1 f d).
    unfold s2, calls. simpl events. destruct (body o) as [|w dd [f'|] c| | | | | |]; simpl in *; lia.
Qed.

(** The object is released after its finalization. *)
Lemma release_ok s ext inst a c : inv s ext inst -> get s a = Some (mkObj 0 c) ->
  exists s', release a s = Some (tt, s') /\ inv s' ext inst /\ (forall b, get s' b = if Nat.eqb a b then None else get s b) /\ length (objs s') = length (objs s) /\ arrays s' = arrays s.
Proof.
  intros I H. pose proof (get_lt _ _ _ H) as L. unfold release. rewrite H. eexists. split; [reflexivity|]. set (s' := mkSt _ _ _ _).
  assert (Len : length (objs s') = length (objs s)) by (simpl; apply length_upd).
  assert (G : forall b, get s' b = if Nat.eqb a b then None else get s b).
  { intros b. change (get s' b) with (get (set s a None) b). rewrite get_set. destruct (Nat.eqb_spec a b) as [<-|]; [|reflexivity]. destruct (a <? length (objs s)); reflexivity. }
  split; [|split; [exact G|split; [exact Len|reflexivity]]].
  pose proof (i_cnt _ _ _ I _ _ H) as Ca. simpl in Ca.
  assert (Ind : forall b, indeg s' b = indeg s b).
  { intros b. pose proof (indeg_set s a _ None b H) as E. simpl in E. change (indeg s' b) with (indeg (set s a None) b). lia. }
  assert (Fr : forall p K, pt s p K -> pt s' p K).
  { intros p K Hp b ->. destruct (Hp b eq_refl) as [Lb Kb]. split; [rewrite Len; exact Lb|]. intros ob. rewrite G. destruct (Nat.eqb a b); [discriminate|apply Kb]. }
  assert (Fw : forall c, wt s c -> wt s' c).
  { assert (Q : forall l K, Forall (fun p => pt s p K) l -> Forall (fun p => pt s' p K) l) by (intros; eapply Forall_impl; [|eauto]; intros; apply Fr; auto).
    intros c0. destruct c0; simpl; auto; try tauto.
    - intros [A B]; auto.
    - intros (A & B & C); auto.
    - intros [A B]; auto.
    - intros (A1 & A2 & A3 & A4 & A5 & A6 & A7 & A8 & A9 & A10 & A11). repeat match goal with |- _ /\ _ => split end; auto.
    - intros (A1 & A2 & A3 & A4 & A5 & A6). repeat match goal with |- _ /\ _ => split end; auto.
    - intros (A1 & A2 & A3 & A4 & A5). repeat match goal with |- _ /\ _ => split end; auto. }
  assert (Lv : forall b, live s b -> a <> b -> live s' b).
  { intros b [ob Hb] N. exists ob. rewrite G. destruct (Nat.eqb_spec a b); [congruence|exact Hb]. }
  split.
  - intros b ob. rewrite G, Ind. destruct (Nat.eqb a b); [discriminate|]. apply (i_cnt _ _ _ I).
  - intros b Hb. apply Lv; [apply (i_ext _ _ _ I); auto|]. intros <-. lia.
  - intros b Hb. rewrite Ind in Hb. apply Lv; [apply (i_edge _ _ _ I); auto|]. intros <-. lia.
  - intros b ob. rewrite G. destruct (Nat.eqb a b); [discriminate|]. intros Hb. apply Fw. eapply i_wt; eauto.
  - intros b. simpl events. simpl nev. rewrite (i_fin _ _ _ I). unfold dead. rewrite G, Len. destruct (Nat.eqb_spec a b) as [<-|]; [rewrite H|]; reflexivity.
  - intros b. simpl events. simpl nev. rewrite (i_free _ _ _ I). unfold gone. rewrite G, Len. destruct (Nat.eqb_spec a b) as [<-|N].
    + rewrite H, Nat.eqb_refl. apply Nat.ltb_lt in L. rewrite L. reflexivity.
    + destruct (Nat.eqb_spec b a); [congruence|]. reflexivity.
  - intros f d. simpl events. simpl nev. rewrite <- (i_call _ _ _ I f d). pose proof (installed_set s a _ None f d H) as E. simpl in E.
    change (installed s' f d) with (installed (set s a None) f d). lia.
Qed.

Lemma drop_ok fuel : forall s ext inst p, inv s (p :: ext) inst -> 0 < fuel ->
  (forall a o, p = Some a -> get s a = Some o -> krank (shape (body o)) < fuel) ->
  exists s', drop_object fuel p s = Some (tt, s') /\ inv s' ext inst /\ frame [] s s' /\ length (objs s') = length (objs s).
Proof.
  induction fuel as [|fuel IH]; intros s ext inst p I Hf Hr; [lia|].
  destruct p as [a|].
  2: { exists s. split; [reflexivity|]. split; [|split; [apply frame_refl|reflexivity]]. eapply inv_perm; [|exact I]. reflexivity. }
  destruct (inv_live _ _ _ a I) as (o & H & P); [left; reflexivity|].
  specialize (Hr a o eq_refl H).
  destruct (Z.ltb_spec (refs o - 1) 1) as [L1|L1].
  - assert (R : refs o = 1%Z) by lia.
    destruct (zero_ok s ext inst a o I H R) as (s2 & E2 & I2 & G2 & Len2 & A2).
    (* the loop *)
    assert (Loop : forall l s ext, inv s (l ++ ext) inst -> (forall b ob, In (Some b) l -> get s b = Some ob -> krank (shape (body ob)) < fuel) -> (l <> [] -> 0 < fuel) ->
      exists s', each (drop_object fuel) l s = Some (tt, s') /\ inv s' ext inst /\ frame [] s s' /\ length (objs s') = length (objs s)).
    { clear - IH. induction l as [|p l IHl]; intros s ext I Hr Hf.
      - exists s. split; [reflexivity|]. split; [exact I|]. split; [apply frame_refl|reflexivity].
      - destruct (IH s (l ++ ext) inst p I) as (s1 & E1 & I1 & F1 & N1).
        + apply Hf. discriminate.
        + intros b ob -> Hb. apply (Hr b ob); [left; reflexivity|exact Hb].
        + destruct (IHl s1 ext I1) as (s3 & E3 & I3 & F3 & N3).
          * intros b ob Hb Hg. destruct (f_old _ _ _ F1 b ob) as (ob1 & Hg1 & S1 & _); [rewrite <- N1; eapply get_lt; eauto|exact Hg|].
            rewrite S1. apply (Hr b ob1); [right; exact Hb|exact Hg1].
          * intros _. apply Hf. discriminate.
          * exists s3. split; [simpl; unfold bind; rewrite E1; exact E3|]. split; [exact I3|]. split; [eapply frame_trans; eauto|congruence]. }
    assert (W : wt s (body o)) by (eapply i_wt; eauto).
    destruct (Loop (dropped (body o)) s2 ext I2) as (s3 & E3 & I3 & F3 & N3).
    { intros b ob Hb Hg. rewrite G2 in Hg. assert (krank (shape (body ob)) < krank (shape (body o))); [|lia].
      destruct (Nat.eqb_spec a b) as [<-|N]; [|eapply wt_rank; eauto].
      exfalso. pose proof (wt_rank s _ _ _ W Hb H). lia. }
    { intros Hd. destruct (body o) eqn:B; simpl in Hd, Hr; try congruence; lia. }
    assert (G3 : get s3 a = Some (mkObj 0 (body o))).
    { apply (f_zero _ _ _ F3); [|reflexivity]. rewrite G2, Nat.eqb_refl. reflexivity. }
    destruct (release_ok s3 ext inst a _ I3 G3) as (s4 & E4 & I4 & G4 & N4 & A4).
    exists s4. split; [|split; [exact I4|split; [|congruence]]].
    + cbn [drop_object]. unfold bind at 1, read at 1. rewrite H. 
      assert (Lt : (refs o - 1 <? 1)%Z = true) by (apply Z.ltb_lt; lia). rewrite Lt.
      revert E2. unfold bind. destruct (write a _ s) as [[[] t1]|]; [|discriminate]. simpl. unfold log. simpl.
      destruct (before_drops (body o) _) as [[[] t2]|]; [|discriminate]. intros [= ->]. rewrite E3. exact E4.
    + split.
      * lia.
      * intros b ob Lb Hg. rewrite G4 in Hg. destruct (Nat.eqb_spec a b) as [<-|N]; [discriminate|].
        destruct (f_old _ _ _ F3 b ob) as (o2 & H2 & S2 & B2 & Z2); [lia|exact Hg|].
        rewrite G2 in H2. destruct (Nat.eqb_spec a b); [congruence|]. exists o2. auto.
      * intros b ob Lb Hg. apply get_lt in Hg. lia.
      * intros b ob Hb Hz. rewrite G4. destruct (Nat.eqb_spec a b) as [<-|N]; [congruence|].
        apply (f_zero _ _ _ F3); [|exact Hz]. rewrite G2. destruct (Nat.eqb_spec a b); [congruence|exact Hb].
      * rewrite A4, (f_arr _ _ _ F3). exact A2.
      * intros b ob r Lb Hg. apply get_lt in Hg. lia.
  - exists (set s a (Some (mkObj (refs o - 1) (body o)))). split.
    { cbn [drop_object]. unfold bind, read. rewrite H. unfold write. rewrite H. destruct (Z.ltb_spec (refs o - 1) 1); [lia|]. reflexivity. }
    split; [|split; [apply (frame_set _ _ _ o); simpl; auto; lia|unfold set; simpl; apply length_upd]].
    apply (inv_set s (Some a :: ext) inst a o); simpl; auto; try lia.
    + eapply i_wt; eauto.
    + intros f c. assert (Q : (0 < refs o - 1)%Z) by lia. apply Z.ltb_lt in P, Q. rewrite P, Q. reflexivity.
    + intros b. destruct (Nat.eqb_spec a b); lia.
Qed.

End Inv.
