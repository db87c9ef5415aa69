(** * Reference counted objects: properties C01, C02, C03, C48 and C50

    The definitions used in the statements are those of ObjSpec.v: [reach s own inst] says that a well-behaved client (which
    only passes and drops references it owns) can reach the state [s], owning the references [own], having installed the
    callbacks [inst].  [V] is the type of the elements; nothing is assumed about it. *)
From Coq Require Import List ZArith Bool Arith Lia.
From Verif Require Import Base MemModel ObjModel ObjSpec ObjProofs ObjOps ObjOps2 ObjFinal ObjBox.
Import ListNotations.

(** ** The histories of the examples *)
Section Histories.
Context {V : Type} (zero : V) (convert : eltype -> eltype -> V -> V).
Fixpoint run (l : list (op V)) (x : st V * list ptr * list (nat * nat)) : option (st V * list ptr * list (nat * nat)) :=
  match l with
  | [] => Some x
  | c :: l => let '(s, own, inst) := x in
    match exec zero convert c s with Some (r, s') => run l (s', own_after c r own, inst_after s c r inst) | None => None end
  end.
Fixpoint allowed (l : list (op V)) (x : st V * list ptr * list (nat * nat)) : Prop :=
  match l with
  | [] => True
  | c :: l => let '(s, own, inst) := x in permitted s own c /\
    match exec zero convert c s with Some (r, s') => allowed l (s', own_after c r own, inst_after s c r inst) | None => False end
  end.
Lemma run_reach l : forall s own inst, reach zero convert s own inst -> allowed l (s, own, inst) ->
  forall s' own' inst', run l (s, own, inst) = Some (s', own', inst') -> reach zero convert s' own' inst'.
Proof.
  induction l as [|c l IH]; simpl; intros s own inst R A s' own' inst' E.
  - injection E as <- <- <-. exact R.
  - destruct A as [P A]. destruct (exec zero convert c s) as [[r s1]|] eqn:X; [|discriminate]. eapply IH; [|exact A|exact E]. eapply reach_step; eauto.
Qed.
End Histories.

Definition same (_ _ : eltype) (x : Z) : Z := x.
Notation zrun := (run 0%Z same).
Definition start : st Z * list ptr * list (nat * nat) := (mkSt [] [(DOUBLE, [10; 20; 30]%Z)] [] [], [], []).
(** A space (0), a vector (1), a wrapped array with the callback 7 for the data 42 (2), a box whose lower bound is a copy of
    the array (3, the copy is 4) and whose upper bound is the vector, a line search (5), an optimizer (6 and its vectors). *)
Definition building : list (op Z) :=
  [NewSpace DOUBLE 3; Create (Some 0); Wrap DOUBLE (Some 0) (Some 0) (Some 7) 42; NewBox (Some 0) 6 (PArray 0) 7 (PObj 1);
   NewLnsrch true; NewVmlmb true 2 true false (Some 0) (Some 5) (Some 3); Slot 6 1].
Definition leaving : list (op Z) :=
  [Drop (Some 0); Drop (Some 1); Hold (Some 3); Drop (Some 3); Drop (Some 5); Rewrap DOUBLE (Some 2) (Some 0) (Some 8) 1; WriteArray 0 [5; 6; 7]%Z].
Definition final : list (op Z) := [Drop (Some 6); Drop (Some 2); Drop None; Drop (Some 3)].
Definition demo_state (l : list (op Z)) : st Z := match zrun l start with Some (s, _, _) => s | None => fst (fst start) end.
Definition demo_own (l : list (op Z)) : list ptr := match zrun l start with Some (_, own, _) => own | None => [] end.
Definition demo_inst (l : list (op Z)) : list (nat * nat) := match zrun l start with Some (_, _, i) => i | None => [] end.
Ltac perm := unfold permitted, arg, nonnil, bound_arg, space_size in *; repeat match goal with
  | |- _ /\ _ => split
  | |- True => exact Logic.I
  | |- forall _, _ => intro
  | H : False |- _ => destruct H
  | H : exists _, _ |- _ => destruct H
  | H : _ /\ _ |- _ => destruct H
  | H : None = Some _ |- _ => discriminate H
  | H : Some ?x = Some ?y |- _ => injection H as H; try subst x; try subst y
  | H : get _ _ = Some ?o |- _ => vm_compute in H; injection H as H; subst o
  | H : body _ = CSpace _ _ |- _ => vm_compute in H; injection H as <- <-
  | |- Some _ <> None => discriminate
  | |- Some _ = None \/ _ => right
  end.
Lemma allowed_cons {V} (zero : V) convert c l s own inst r s' own' inst' : permitted s own c -> exec zero convert c s = Some (r, s') ->
  own_after c r own = own' -> inst_after s c r inst = inst' -> allowed zero convert l (s', own', inst') -> allowed zero convert (c :: l) (s, own, inst).
Proof. intros P E <- <- A. simpl. rewrite E. auto. Qed.
Ltac one := match goal with |- allowed ?z ?k (?c :: ?l) (?s, ?own, ?i) =>
  let x := eval vm_compute in (exec z k c s) in
  match x with Some (?r, ?s') =>
    let o := eval vm_compute in (own_after c r own) in let j := eval vm_compute in (inst_after s c r i) in
    apply (allowed_cons z k c l s own i r s' o j); [|vm_compute; reflexivity|vm_compute; reflexivity|vm_compute; reflexivity|] end end.
Ltac allow := unfold start, building, leaving, final; cbn [app].
Ltac easy_step := one; [perm; simpl; auto 12; fail|].
Lemma demo_allowed : allowed 0%Z same (building ++ leaving ++ final) start.
Proof.
  allow. do 3 easy_step.
  one; [perm; simpl; auto 12; [exists [10; 20; 30]%Z; split; [reflexivity|simpl; lia]|perm; simpl; auto]|].
  do 2 easy_step.
  one; [split; [simpl; auto|]; eexists _, _; split; [reflexivity|]; split; [reflexivity|]; simpl; lia|].
  do 11 easy_step. exact Logic.I.
Qed.
Lemma allowed_app {V} (zero : V) convert l1 l2 : forall x, allowed zero convert (l1 ++ l2) x -> allowed zero convert l1 x.
Proof.
  induction l1 as [|c l1 IH]; [simpl; auto|]. intros [[s own] inst]. simpl. intros [P A]. split; [exact P|].
  destruct (exec zero convert c s) as [[r s']|]; [auto|exact A].
Qed.
Lemma demo_reach l l' : l ++ l' = building ++ leaving ++ final -> reach 0%Z same (demo_state l) (demo_own l) (demo_inst l).
Proof.
  intros E. pose proof demo_allowed as A. rewrite <- E in A. apply allowed_app in A.
  unfold demo_state, demo_own, demo_inst. destruct (zrun l start) as [[[s own] inst]|] eqn:X.
  - unfold start in *. eapply run_reach; [apply reach_init|exact A|exact X].
  - apply reach_init.
Qed.
Lemma reach_built : reach 0%Z same (demo_state building) (demo_own building) (demo_inst building).
Proof. apply (demo_reach building (leaving ++ final)). reflexivity. Qed.
Lemma reach_left : reach 0%Z same (demo_state (building ++ leaving)) (demo_own (building ++ leaving)) (demo_inst (building ++ leaving)).
Proof. apply (demo_reach (building ++ leaving) final). reflexivity. Qed.
Lemma reach_final : reach 0%Z same (demo_state (building ++ leaving ++ final)) (demo_own (building ++ leaving ++ final)) (demo_inst (building ++ leaving ++ final)).
Proof. apply (demo_reach (building ++ leaving ++ final) []). apply app_nil_r. Qed.

Section Props.
Context {V : Type} (zero : V) (convert : eltype -> eltype -> V -> V).
Notation st := (st V).
Notation exec := (exec zero convert).
Notation reach := (reach zero convert).
Notation later := (later zero convert).

(** ** C01 *)

(** No call of a well-behaved client has an undefined behaviour: no access to a released object, no release of what is
    already released (the model of such an access is [None]). *)
Theorem C01_safe : forall (s : st) own inst c, reach s own inst -> permitted s own c -> exists r s', exec c s = Some (r, s').
Proof.
  intros s own inst c R P. destruct (reach_inv _ _ _ _ _ R) as [I N]. destruct (step_ok zero convert s own inst c I N P) as (r & s' & E & _). eauto.
Qed.

(** What the client references is allocated, what an allocated object refers to (with a counted reference or not) is allocated. *)
Theorem C01_alive : forall (s : st) own inst, reach s own inst ->
  (forall a, In (Some a) own -> exists o, get s a = Some o) /\
  (forall b ob a, get s b = Some ob -> In (Some a) (all_members (body ob)) -> exists o, get s a = Some o).
Proof.
  intros s own inst R. destruct (reach_inv _ _ _ _ _ R) as [I N]. split.
  - intros a H. destruct (inv_live _ _ _ _ I H) as (o & Ho & _). eauto.
  - intros b ob a Hb H. apply (member_dropped s) in H; [|eapply i_wt; eauto]. exact (dropped_live _ _ _ _ _ _ I N Hb H).
Qed.

(** An object is allocated exactly as long as it is referenced, by the client or by an allocated object. *)
Theorem C01_last_reference : forall (s : st) own inst a, reach s own inst -> ((exists o, get s a = Some o) <-> 0 < references s own a).
Proof.
  intros s own inst a R. destruct (reach_inv _ _ _ _ _ R) as [I N]. rewrite (references_cnt _ _ _ _ I N). split.
  - intros [o Ho]. pose proof (inv_pos _ _ _ _ _ I N Ho) as P. rewrite (i_cnt _ _ _ I _ _ Ho) in P. lia.
  - intros P. destruct (Nat.eq_dec (cnt own a) 0) as [Z|Z]; [apply (i_edge _ _ _ I)|apply (i_ext _ _ _ I)]; lia.
Qed.

(** The finalizer of an object is called once and its memory released once, when it is no longer allocated, never before. *)
Theorem C01_once : forall (s : st) own inst a, reach s own inst ->
  let n := match get s a with Some _ => 0 | None => if a <? length (objs s) then 1 else 0 end in
  happened s (Finalized a) = n /\ happened s (Freed a) = n.
Proof.
  intros s own inst a R. destruct (reach_inv _ _ _ _ _ R) as [I N]. rewrite <- fin_occ, <- free_occ, (i_fin _ _ _ I), (i_free _ _ _ I).
  unfold dead, gone. destruct (get s a) as [o|] eqn:E.
  - pose proof (inv_pos _ _ _ _ _ I N E) as P. apply Z.ltb_lt in P. rewrite P. destruct (a <? length (objs s)); simpl; auto.
  - destruct (a <? length (objs s)); simpl; auto.
Qed.

(** A client without references: nothing remains allocated. *)
Theorem C01_no_leak : forall (s : st) own inst, reach s own inst -> (forall a, ~ In (Some a) own) -> forall a, get s a = None.
Proof. intros s own inst R. destruct (reach_inv _ _ _ _ _ R) as [I N]. exact (no_object s own inst I N). Qed.

(** ** C02 *)
Theorem C02_count : forall (s : st) own inst a r s', reach s own inst -> In (Some a) own -> exec (Refs (Some a)) s = Some (r, s') ->
  r = RZ (Z.of_nat (references s own a)) /\ s' = s.
Proof.
  intros s own inst a r s' R H E. destruct (reach_inv _ _ _ _ _ R) as [I N]. destruct (inv_live _ _ _ _ I H) as (o & Ho & _).
  cbn [ObjSpec.exec] in E. unfold fmap, get_object_references, bind, read, ret in E. rewrite Ho in E. injection E as <- <-.
  rewrite (references_cnt _ _ _ _ I N), (i_cnt _ _ _ I _ _ Ho). auto.
Qed.
(** The counter of every object, not only of those of the client *)
Theorem C02_counters : forall (s : st) own inst a o, reach s own inst -> get s a = Some o -> refs o = Z.of_nat (references s own a).
Proof.
  intros s own inst a o R H. destruct (reach_inv _ _ _ _ _ R) as [I N]. rewrite (references_cnt _ _ _ _ I N). exact (i_cnt _ _ _ I _ _ H).
Qed.
Theorem C02_null : forall (s : st), exec (Refs None) s = Some (RZ 0, s) /\ exec (Drop None) s = Some (RUnit, s).
Proof. intros s. split; reflexivity. Qed.
Theorem C02_hold : forall (s : st) own inst a, reach s own inst -> In (Some a) own ->
  exists o s', get s a = Some o /\ exec (Hold (Some a)) s = Some (RPtr (Some a), s') /\
    (forall b, get s' b = if Nat.eqb b a then Some (mkObj (refs o + 1) (body o)) else get s b) /\ events s' = events s.
Proof.
  intros s own inst a R H. destruct (reach_inv _ _ _ _ _ R) as [I N]. destruct (inv_live _ _ _ _ I H) as (o & Ho & P).
  exists o. eexists. split; [exact Ho|]. cbn [ObjSpec.exec]. unfold fmap, hold_object, bind, read, write, ret. rewrite Ho. simpl. rewrite Ho. split; [reflexivity|]. split; [|reflexivity].
  intros b. rewrite get_set, Nat.eqb_sym. pose proof (get_lt _ _ _ Ho) as L. destruct (Nat.eqb_spec b a) as [->|]; [|reflexivity]. apply Nat.ltb_lt in L. rewrite L. reflexivity.
Qed.
(** A reference which is not the last one: one less, nothing else changes; the last one: the object is released. *)
Theorem C02_drop : forall (s : st) own inst a, reach s own inst -> In (Some a) own ->
  exists o s', get s a = Some o /\ exec (Drop (Some a)) s = Some (RUnit, s') /\
    ((1 < refs o)%Z -> (forall b, get s' b = if Nat.eqb b a then Some (mkObj (refs o - 1) (body o)) else get s b) /\ events s' = events s) /\
    (refs o = 1%Z -> get s' a = None).
Proof.
  intros s own inst a R H. destruct (reach_inv _ _ _ _ _ R) as [I N]. destruct (inv_live _ _ _ _ I H) as (o & Ho & P). exists o.
  destruct (step_ok zero convert s own inst (Drop (Some a)) I N (or_intror H)) as (r & s' & E & A & B & K & _). exists s'. split; [exact Ho|].
  assert (r = RUnit). { cbn [ObjSpec.exec] in E. unfold fmap, bind in E. destruct (drop (Some a) s) as [[[] s1]|]; [injection E as <- _; reflexivity|discriminate]. } subst r.
  split; [exact E|]. split.
  - intros L. cbn [ObjSpec.exec] in E. unfold fmap, drop in E. change 8 with (S 7) in E. rewrite drop_eq in E. unfold bind, read, write, ret in E. rewrite Ho, Ho in E.
    destruct (Z.ltb_spec (refs o - 1) 1); [lia|]. injection E as <-. split; [|reflexivity].
    intros b. rewrite get_set, Nat.eqb_sym. pose proof (get_lt _ _ _ Ho) as L2. destruct (Nat.eqb_spec b a) as [->|]; [|reflexivity]. apply Nat.ltb_lt in L2. rewrite L2. reflexivity.
  - intros E1. pose proof (i_cnt _ _ _ I _ _ Ho) as C. rewrite E1 in C. apply cnt_in in H.
    destruct (get s' a) as [o'|] eqn:E'; [|reflexivity]. exfalso.
    pose proof (inv_pos _ _ _ _ _ A B E') as P'. rewrite (i_cnt _ _ _ A _ _ E') in P'. cbn [own_after] in P'.
    assert (Z0 : cnt (remove_one (Some a) own) a = 0). { pose proof (cnt_remove (Some a) own a) as X. rewrite pc_self in X. apply cnt_in in H. specialize (X H). lia. }
    rewrite Z0 in P'. destruct (referrer _ _ _ _ _ A B E') as [X|(b & ob & Hb & Hd & _)]; [apply cnt_in in X; cbn [own_after] in X; lia|].
    destruct (Nat.lt_ge_cases b (length (objs s))) as [Lb|Lb].
    + destruct (k_old _ _ _ K b ob Lb Hb) as (o1 & Ho1 & _ & Bo). rewrite Bo in Hd by auto.
      assert (1 <= indeg s a); [|lia]. pose proof (inv_pos _ _ _ _ _ I N Ho1) as Pb. apply get_nth in Ho1.
      pose proof (sumof_ge (fun oo => edges_of oo a) _ _ _ Ho1) as G. unfold indeg. unfold edges_of at 1 in G. apply Z.ltb_lt in Pb. rewrite Pb in G. apply cnt_in in Hd. lia.
    + apply get_lt in Hb. destruct (drop_ok 8 s (remove_one (Some a) own) inst (Some a)) as (s2 & E2 & _ & _ & L2).
      * eapply inv_perm; [|exact I]. intros x. apply (cnt_remove (Some a) own x). apply cnt_in. exact H.
      * lia.
      * intros x ox _ _. pose proof (rank_max (shape (body ox))). lia.
      * cbn [ObjSpec.exec] in E. unfold fmap, bind, drop in E. rewrite E2 in E. injection E as <-. lia.
Qed.
(** opk_hold_object does not accept NULL (algebra.c 61-66), although C02 says it should have no effect. *)
Theorem C02_hold_null_refuted : forall (s : st), exec (Hold None) s = None.
Proof. reflexivity. Qed.

(** ** C03 *)

(** For all histories: every callback installed was called once or is still installed on a vector, and not both. *)
Theorem C03_exactly_once : forall (s : st) own inst f c, reach s own inst ->
  happened s (Called f c) + holders s f c = count_occ pair_eq_dec inst (f, c).
Proof.
  intros s own inst f c R. destruct (reach_inv _ _ _ _ _ R) as [I N]. rewrite <- call_occ, <- npair_occ, <- (holders_installed _ _ _ _ _ I N). exact (i_call _ _ _ I f c).
Qed.
(** One vector, any sequence of re-wraps followed by its destruction: the calls, in order. *)
Theorem C03_sequence : forall (s : st) own inst a w d f c l, reach s own inst -> In (Some a) own -> get s a = Some (mkObj 1 (CVector w d f c)) ->
  exists installed s1 s2 evs, rewraps zero convert (Some a) l s = Some (installed, s1) /\ exec (Drop (Some a)) s1 = Some (RUnit, s2) /\
    get s2 a = None /\ events s2 = evs ++ events s /\ filter is_called (rev evs) = releases (f, c) installed.
Proof.
  intros s own inst a w d f c l R H Ho. destruct (reach_inv _ _ _ _ _ R) as [I N].
  destruct (rewraps_ok zero convert l s own inst a _ w d f c I N H Ho eq_refl) as (ps & s1 & inst1 & d1 & f1 & c1 & evs & E1 & I1 & N1 & G1 & V1 & F1).
  destruct (drop_last zero convert s1 own inst1 a w d1 f1 c1 I1 N1 H G1) as (s2 & evs2 & E2 & G2 & V2 & F2).
  exists ps, s1, s2, (evs2 ++ evs). split; [exact E1|]. split; [exact E2|]. split; [exact G2|]. split; [rewrite V2, V1; apply app_assoc|].
  rewrite rev_app_distr, filter_app, F2. exact F1.
Qed.
(** A re-wrap which fails changes nothing, whatever the state. *)
Theorem C03_failed : forall (s : st) t v d f c e s', exec (Rewrap t v d f c) s = Some (RStatus e, s') -> e <> SUCCESS -> s' = s.
Proof.
  intros s t v d f c e s'. cbn [ObjSpec.exec]. unfold fmap, bind, ret. destruct (rewrap_vector t v (option_map Outer d) f c s) as [[e1 s1]|] eqn:E; [|discriminate].
  intros [= -> ->] He. destruct v as [a|]; [|injection E as <- <-; reflexivity]. unfold rewrap_vector, read_vector, read_space, bind, read, ret in E.
  destruct (get s a) as [o|]; [|discriminate]. destruct (body o) as [|w dd ff cc| | | | | |]; try discriminate.
  destruct w as [w|]; [|discriminate]. destruct (get s w) as [ow|]; [|discriminate].
  destruct (body ow); try discriminate. destruct (negb _); [injection E as <- <-; reflexivity|].
  destruct (option_map Outer d); [|injection E as <- <-; reflexivity]. exfalso. apply He.
  unfold setc, bind, read, write, log, ret in E.
  repeat match type of E with context [match ?x with _ => _ end] => destruct x; try discriminate end; injection E; auto.
Qed.
(** A re-wrap succeeds when the vector has the right type and there is new data. *)
Theorem C03_success : forall (s : st) own inst t a d f c o w t' n ow, reach s own inst -> In (Some a) own -> get s a = Some o -> shape (body o) = KVector (Some w) ->
  get s w = Some ow -> body ow = CSpace t' n ->
  forall r s', exec (Rewrap t (Some a) d f c) s = Some (r, s') -> (r = RStatus SUCCESS <-> t = t' /\ d <> None).
Proof.
  intros s own inst t a d f c o w t' n ow R H Ho Sh Hw Bw r s' E. destruct (reach_inv _ _ _ _ _ R) as [I N].
  destruct (body o) as [|w0 d0 f0 c0| | | | | |] eqn:Bo; try discriminate. simpl in Sh. injection Sh as ->.
  cbn [ObjSpec.exec] in E. unfold fmap, bind, ret in E.
  destruct (rewrap_vector t (Some a) (option_map Outer d) f c s) as [[e1 s1]|] eqn:E1; [|discriminate]. injection E as <- <-.
  assert (X : e1 = SUCCESS <-> t = t' /\ d <> None); [|rewrite <- X; split; congruence].
  unfold rewrap_vector, read_vector, read_space, bind, read, ret in E1. rewrite Ho, Bo, Hw, Bw in E1.
  destruct (eltype_eqb t t') eqn:Et.
  - assert (t = t') by (destruct t, t'; try discriminate; reflexivity). subst t'. simpl in E1. destruct d as [d|]; simpl in E1.
    + assert (e1 = SUCCESS); [|split; [split; [reflexivity|discriminate]|auto]].
      unfold setc, bind, read, write, log, ret in E1.
      repeat match type of E1 with context [match ?x with _ => _ end] => destruct x; try discriminate end; injection E1; auto.
    + injection E1 as <- <-. split; [discriminate|]. intros [_ X]. congruence.
  - simpl in E1. injection E1 as <- <-. split; [discriminate|]. intros [-> _]. destruct t'; discriminate.
Qed.

(** ** C48 *)
Theorem C48_box : forall (s : st) own inst sp lt lv ut uv p s', reach s own inst -> permitted s own (NewBox sp lt lv ut uv) ->
  exec (NewBox sp lt lv ut uv) s = Some (RPtr p, s') ->
  match p with
  | None => forall a, get s' a = get s a
  | Some b => exists asp osp t n lo up, sp = Some asp /\ get s asp = Some osp /\ body osp = CSpace t n /\ get s b = None /\
      forall s2 own2 o, later s' (Some b :: own) s2 own2 -> get s2 b = Some o ->
        body o = CBox sp lo up /\ bound_given convert (arrays s) t n sp lt lv s2 lo /\ bound_given convert (arrays s) t n sp ut uv s2 up
  end.
Proof. intros s own inst sp lt lv ut uv p s' R. destruct (reach_inv _ _ _ _ _ R) as [I N]. apply box_ok with (inst := inst); auto. Qed.

(** ** C50 *)

(** A call which creates an object returns NULL and leaves every object (and its counter) as it was, or returns an object
    which did not exist, with a single reference. *)
Theorem C50_atomic : forall (s : st) own inst c p s', reach s own inst -> permitted s own c -> (forall q, c <> Hold q) -> exec c s = Some (RPtr p, s') ->
  match p with
  | None => forall a, get s' a = get s a
  | Some b => get s b = None /\ length (objs s) <= b /\ (exists o, get s' b = Some o) /\ references s' (Some b :: own) b = 1
  end.
Proof.
  intros s own inst c p s' R P Hc E. destruct (reach_inv _ _ _ _ _ R) as [I N].
  destruct (step_ok zero convert s own inst c I N P) as (r & s1 & E1 & A & B & K & Rf). rewrite E in E1. injection E1 as <- <-.
  assert (T : targets s c = [] /\ own_after c (RPtr p) own = p :: own /\ fresh s p).
  { destruct c; try (exfalso; eapply Hc; reflexivity); cbn [ObjSpec.exec] in E; unfold fmap, bind, ret in E; cbn [targets own_after result_fresh] in *; auto;
      exfalso; match type of E with match ?x with _ => _ end = _ => destruct x as [[? ?]|]; discriminate E end. }
  destruct T as (T & O & F). rewrite T in K. rewrite O in A. destruct p as [b|].
  - specialize (F b eq_refl). split; [destruct (get s b) as [ob|] eqn:X; [apply get_lt in X; lia|reflexivity]|]. split; [exact F|].
    destruct (inv_live _ _ _ b A) as (o & Ho & _); [left; reflexivity|]. split; [exists o; exact Ho|].
    rewrite (references_cnt _ _ _ _ A B). cbn [cnt]. rewrite pc_self.
    assert (C0 : cnt own b = 0). { destruct (cnt own b) eqn:C; [reflexivity|]. assert (X : In (Some b) own) by (apply cnt_in; lia). destruct (inv_live _ _ _ _ I X) as (ob & Hob & _). apply get_lt in Hob. lia. }
    assert (In0 : indeg s' b = 0); [|lia].
    assert (Dn : forall a oa, get s' a = Some oa -> a < length (objs s) \/ forall x, get s' a = Some x -> krank (shape (body x)) <= krank (shape (body o))).
    { apply (down s' (Some b :: own) (inst_after s c (RPtr (Some b)) inst) _ A B).
      - intros a [[= <-]|X]; [right; intros x Hx; assert (x = o) by congruence; subst; lia|left]. destruct (inv_live _ _ _ _ I X) as (oa & Hoa & _). eapply get_lt; eauto.
      - intros x ox a Hx Px Hd. destruct (Nat.lt_ge_cases x (length (objs s))) as [Lx|Lx].
        + left. destruct (k_old _ _ _ K x ox Lx Hx) as (o1 & Ho1 & _ & Bo). rewrite Bo in Hd by auto. destruct (dropped_live _ _ _ _ _ _ I N Ho1 Hd) as [oa Hoa]. eapply get_lt; eauto.
        + right. intros oa Hoa. destruct Px as [Px|Px]; [lia|]. specialize (Px ox Hx). pose proof (wt_rank s' (body ox) a oa (i_wt _ _ _ A _ _ Hx) Hd Hoa). lia. }
    destruct (indeg s' b) eqn:Ind; [reflexivity|]. exfalso.
    destruct (sumof_pos (fun oo => edges_of oo b) (objs s')) as (x & [ox|] & Ex & G); [unfold indeg in Ind; lia| |simpl in G; lia]. apply get_nth in Ex.
    unfold edges_of in G. destruct (0 <? refs ox)%Z; [|lia]. apply cnt_in in G. pose proof (wt_rank s' (body ox) b o (i_wt _ _ _ A _ _ Ex) G Ho) as Rk.
    destruct (Dn x ox Ex) as [Lx|Px]; [|specialize (Px ox Ex); lia].
    destruct (k_old _ _ _ K x ox Lx Ex) as (o1 & Ho1 & _ & Bo). rewrite Bo in G by auto. destruct (dropped_live _ _ _ _ _ _ I N Ho1 G) as [oa Hoa]. apply get_lt in Hoa. lia.
  - apply (same_heap s s' own inst (inst_after s c (RPtr None) inst)); auto. eapply inv_perm; [|exact A]. reflexivity.
Qed.
End Props.

Print Assumptions C01_safe.
Print Assumptions C01_alive.
Print Assumptions C01_last_reference.
Print Assumptions C01_once.
Print Assumptions C01_no_leak.
Print Assumptions C02_count.
Print Assumptions C02_counters.
Print Assumptions C02_null.
Print Assumptions C02_hold.
Print Assumptions C02_drop.
Print Assumptions C02_hold_null_refuted.
Print Assumptions C03_exactly_once.
Print Assumptions C03_sequence.
Print Assumptions C03_failed.
Print Assumptions C03_success.
Print Assumptions C48_box.
Print Assumptions C50_atomic.

(** ** C01, C02: the history [building], [leaving], [final] *)

(** In the state after [building], 13 objects; the client owns 6 of them.  The space has 12 references, the vector 1 has two. *)
Example C01_example_built : demo_own building = [Some 6; Some 5; Some 3; Some 2; Some 1; Some 0] /\ length (objs (demo_state building)) = 13 /\
  references (demo_state building) (demo_own building) 0 = 12 /\ references (demo_state building) (demo_own building) 1 = 2 /\
  option_map fst (exec 0%Z same (Refs (Some 0)) (demo_state building)) = Some (RZ 12).
Proof. vm_compute. auto 8. Qed.
(** After [leaving] the client has dropped its references to the space, the vector and the line search: they are still there. *)
Example C01_example_left : demo_own (building ++ leaving) = [Some 6; Some 3; Some 2] /\
  map (fun a => match get (demo_state (building ++ leaving)) a with Some o => refs o | None => 0%Z end) [0; 1; 3; 5] = [11; 1; 2; 1]%Z.
Proof. vm_compute. auto 8. Qed.
(** At the end everything was released once, in this order. *)
Example C01_example_final : demo_own (building ++ leaving ++ final) = [] /\ (forall a, a < 13 -> get (demo_state (building ++ leaving ++ final)) a = None) /\
  length (filter (fun e => match e with Freed _ => true | _ => false end) (events (demo_state (building ++ leaving ++ final)))) = 13 /\
  firstn 4 (events (demo_state (building ++ leaving ++ final))) = [Freed 3; Freed 0; Finalized 0; Freed 1].
Proof.
  split; [vm_compute; reflexivity|]. split; [|vm_compute; auto].
  intros a L. do 13 (destruct a; [vm_compute; reflexivity|]). lia.
Qed.
Example C02_example_hyps : In (Some 3) (demo_own building) /\ exists o, get (demo_state building) 3 = Some o /\ (1 < refs o)%Z.
Proof. split; [vm_compute; auto|]. eexists. split; [vm_compute; reflexivity|]. vm_compute. reflexivity. Qed.

(** ** C03: the callback 7 was replaced by the callback 8 then the vector was destroyed *)
Example C03_example : demo_inst (building ++ leaving ++ final) = [(8, 1); (7, 42)] /\
  filter is_called (rev (events (demo_state (building ++ leaving)))) = [Called 7 42] /\
  filter is_called (rev (events (demo_state (building ++ leaving ++ final)))) = [Called 7 42; Called 8 1] /\
  holders (demo_state (building ++ leaving)) 8 1 = 1.
Proof. vm_compute. auto. Qed.
Example C03_example_sequence :
  option_map fst (rewraps 0%Z same (Some 2) [(DOUBLE, Some 0, Some 7, 42); (FLOAT, Some 0, Some 9, 1); (DOUBLE, Some 0, None, 5); (DOUBLE, Some 0, Some 7, 42)] (demo_state building)) =
    Some [(Some 7, 42); (None, 5); (Some 7, 42)] /\
  releases (Some 7, 42) [(Some 7, 42); (None, 5); (Some 7, 42)] = [Called 7 42; Called 7 42] /\
  get (demo_state building) 2 = Some (mkObj 1 (CVector (Some 0) (Outer 0) (Some 7) 42)) /\ In (Some 2) (demo_own building).
Proof. vm_compute. auto 8. Qed.

(** ** C48: the copy is not affected by the changes of the array of the client *)
Example C48_example : nth_error (arrays (demo_state (building ++ leaving))) 0 = Some (DOUBLE, [5; 6; 7]%Z) /\
  option_map body (get (demo_state (building ++ leaving)) 3) = Some (CBox (Some 0) (BVector (Some 4)) (BVector (Some 1))) /\
  option_map body (get (demo_state (building ++ leaving)) 4) = Some (CVector (Some 0) (Inner [10; 20; 30]%Z) None 0).
Proof. vm_compute. auto. Qed.
(** failure: the type of the bound is not known *)
Example C48_example_null : option_map fst (exec 0%Z same (NewBox (Some 0) 6 (PArray 0) 9 PNull) (demo_state building)) = Some (RPtr None).
Proof. vm_compute. reflexivity. Qed.

(** ** C50: malloc fails at the 5th allocation; the objects allocated before are released *)
Definition tight : st Z := mkSt (objs (demo_state building)) (arrays (demo_state building)) [true; true; true; true; false] (events (demo_state building)).
Example C50_example : match exec 0%Z same (NewVmlmb true 3 true true (Some 0) (Some 5) (Some 3)) tight with
  | Some (RPtr None, s') => firstn 13 (objs s') = objs tight /\ length (objs s') = 17 /\ skipn 13 (objs s') = [None; None; None; None]
  | _ => False
  end.
Proof. vm_compute. auto. Qed.
Lemma reach_tight : exists own inst, reach 0%Z same (mkSt [Some (mkObj 1 (CSpace DOUBLE 3))] [] [false] []) own inst /\ own = [Some 0].
Proof.
  exists [Some 0], []. split; [|reflexivity].
  apply (reach_step 0%Z same (mkSt [] [] [true; false] []) [] [] (NewSpace DOUBLE 3) (RPtr (Some 0))); [apply reach_init|exact Logic.I|reflexivity].
Qed.
(** opk_new_optimizer uses the result of the allocation of the driver without checking it (driver.c 343-347): undefined
    behaviour instead of NULL when there is no memory. *)
Theorem C50_driver_refuted : exists s own inst opts, reach 0%Z same s own inst /\
  exec 0%Z same (NewOptimizer opts DOUBLE 3 0 PNull 0 PNull None) s = None.
Proof.
  exists (mkSt [] [] [false] []), [], [], (OVmlmb true 3 true false). split; [apply reach_init|vm_compute; reflexivity].
Qed.
Print Assumptions C50_driver_refuted.
