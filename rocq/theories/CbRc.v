(** * cobyla_optimize and the clients of cobyla_iterate make the same computations *)
From Coq Require Import ZArith List Bool Lia.
From Verif Require Import Num BqLang BqModel BqWp BqSafe BqPc NwModel NwInd CbModel CbMain CbSpec CbTop CbRcSpec.
Import ListNotations.
Local Open Scope Z_scope.

(** ** Programs in two memories

    The second memory does not have the cells of [D] (the array of the constraints of the client); the other cells are the same.
    A program that has no undefined behaviour in the second memory does the same in the first one. *)
Section Low.
Context {N : Num}.
Notation mst := (mst N).
Notation prog := (prog N).
Variables (D : Z -> bool) (X : Z -> Prop).
Definition eqv (s s' : mst) : Prop :=
  (forall a, mm s' a = if D a then None else mm s a) /\ evs s' = evs s /\ forall a, X a -> exists v, mm s a = Some v.
Section Rel.
Variable J : mst -> mst -> Prop.
Definition lowo {A B} (Q : A -> B -> Prop) (o : out N A) (o' : out N B) : Prop :=
  match o', o with
  | Undef _, _ => True
  | Ret b t', Ret a t => Q a b /\ J t t'
  | Cast _, Cast _ => True
  | More _, More _ => True
  | _, _ => False
  end.
End Rel.
Definition low {A B} (Q : A -> B -> Prop) (p : prog A) (q : prog B) : Prop := forall s s', eqv s s' -> lowo eqv Q (p s) (q s').
Definition lowp {A} (p : prog A) : Prop := low eq p p.

Lemma lowo_bind J J' {A A' B B'} (Q : A -> A' -> Prop) (R : B -> B' -> Prop) p p' (f : A -> prog B) (g : A' -> prog B') s s' :
  lowo J Q (p s) (p' s') -> (forall a b t t', Q a b -> J t t' -> lowo J' R (f a t) (g b t')) -> lowo J' R (bind p f s) (bind p' g s').
Proof.
  intros H K. unfold bind. destruct (p' s') as [b t'|t'|t'|t'], (p s) as [a t|t|t|t]; cbn in *; try contradiction; auto.
  destruct H. apply K; assumption.
Qed.
Lemma low_bind {A A' B B'} (Q : A -> A' -> Prop) (R : B -> B' -> Prop) p p' (f : A -> prog B) (g : A' -> prog B') :
  low Q p p' -> (forall a b, Q a b -> low R (f a) (g b)) -> low R (bind p f) (bind p' g).
Proof. intros H K s s' E. eapply lowo_bind; [apply H, E|]. intros a b t t' H1 H2. apply K; assumption. Qed.
Lemma low_bindp {A B B'} (R : B -> B' -> Prop) p (f : A -> prog B) (g : A -> prog B') :
  lowp p -> (forall a, low R (f a) (g a)) -> low R (bind p f) (bind p g).
Proof. intros H K. eapply low_bind; [exact H|]. intros a b ->. apply K. Qed.

Lemma lowp_ret {A} (a : A) : lowp (ret a).
Proof. intros s s' E. cbn. auto. Qed.
Lemma lowp_more {A} : lowp (more (A := A)).
Proof. intros s s' E. exact Logic.I. Qed.
Lemma lowp_cast {A} : lowp (cast (A := A)).
Proof. intros s s' E. exact Logic.I. Qed.
Lemma lowp_undef {A} : lowp (fun s => Undef s : out N A).
Proof. intros s s' E. exact Logic.I. Qed.
Lemma lowp_bind {A B} (p : prog A) (f : A -> prog B) : lowp p -> (forall a, lowp (f a)) -> lowp (bind p f).
Proof. intros H K. eapply low_bind; [exact H|]. intros a b ->. apply K. Qed.
Lemma lowp_ld a : lowp (ld a).
Proof. intros s s' E. unfold ld. rewrite (proj1 E a). destruct (D a); [exact Logic.I|]. destruct (mm s a); cbn; auto. Qed.
Lemma lowp_sto a (v : N) : lowp (sto a v).
Proof.
  intros s s' E. unfold sto. rewrite (proj1 E a). destruct (D a) eqn:Ea; [exact Logic.I|]. destruct (mm s a); cbn; [|exact Logic.I].
  split; [reflexivity|]. destruct E as (E1 & E2 & E3). split; [|split; [exact E2|]]; cbn [mm].
  - intros b. destruct (Z.eqb_spec b a) as [->|]; [rewrite Ea; reflexivity|apply E1].
  - intros b Hb. destruct (Z.eqb b a); [eauto|apply E3, Hb].
Qed.
Lemma lowp_lift1 {A B} (f : A -> B) p : lowp p -> lowp (lift1 f p).
Proof. intros H. apply lowp_bind; [exact H|]. intros a. apply lowp_ret. Qed.
Lemma lowp_lift2 {A B E} (f : A -> B -> E) p q : lowp p -> lowp q -> lowp (lift2 f p q).
Proof. intros H K. apply lowp_bind; [exact H|]. intros a. apply lowp_bind; [exact K|]. intros b. apply lowp_ret. Qed.
Lemma lowp_ifp {A} c (p q : prog A) : lowp c -> lowp p -> lowp q -> lowp (ifp c p q).
Proof. intros H K L. apply lowp_bind; [exact H|]. intros [|]; auto. Qed.
Lemma lowp_andp p q : lowp p -> lowp q -> lowp (andp p q).
Proof. intros H K. apply lowp_bind; [exact H|]. intros [|]; auto. apply lowp_ret. Qed.
Lemma lowp_orp p q : lowp p -> lowp q -> lowp (orp p q).
Proof. intros H K. apply lowp_bind; [exact H|]. intros [|]; auto. apply lowp_ret. Qed.
Lemma lowp_assign a e : lowp e -> lowp (assign a e).
Proof. intros H. apply lowp_bind; [exact H|]. intros v. apply lowp_sto. Qed.
Lemma lowp_assign_add a e : lowp e -> lowp (assign_add a e).
Proof. intros H. apply lowp_bind; [apply lowp_lift2; [apply lowp_ld|exact H]|]. intros v. apply lowp_sto. Qed.
Lemma lowp_assign_sub a e : lowp e -> lowp (assign_sub a e).
Proof. intros H. apply lowp_bind; [apply lowp_lift2; [apply lowp_ld|exact H]|]. intros v. apply lowp_sto. Qed.
Lemma lowp_loop {A} lo hi (body : Z -> A -> prog A) a : (forall i b, lowp (body i b)) -> lowp (loop lo hi body a).
Proof.
  intros H. unfold loop. generalize (Z.to_nat (hi - lo + 1)). intros k. revert lo a.
  induction k as [|k IH]; intros lo a; cbn [loopn]; [apply lowp_ret|]. apply lowp_bind; [apply H|]. intros b. apply IH.
Qed.
Lemma lowp_loopx {A B} lo hi (body : Z -> A -> prog (A + B)) a : (forall i b, lowp (body i b)) -> lowp (loopx lo hi body a).
Proof.
  intros H. unfold loopx. generalize (Z.to_nat (hi - lo + 1)). intros k. revert lo a.
  induction k as [|k IH]; intros lo a; cbn [loopxn]; [apply lowp_ret|]. apply lowp_bind; [apply H|]. intros [b|b]; [apply IH|apply lowp_ret].
Qed.
Lemma lowp_machine {L B} fuel (step : L -> prog (L + B)) l : (forall l, lowp (step l)) -> lowp (machine fuel step l).
Proof.
  intros H. revert l. induction fuel as [|k IH]; intros l; cbn [machine]; [apply lowp_more|].
  apply lowp_bind; [apply H|]. intros [b|b]; [apply IH|apply lowp_ret].
Qed.
Lemma lowp_readn k : forall a, lowp (readn k a).
Proof.
  induction k as [|k IH]; intros a; cbn [readn]; [apply lowp_ret|]. apply lowp_bind; [apply lowp_ld|]. intros v.
  apply lowp_bind; [apply IH|]. intros p. apply lowp_ret.
Qed.

(** A loop with an invariant of the two memories *)
Lemma lowo_loop {A} (J : Z -> mst -> mst -> Prop) lo hi (b1 b2 : Z -> A -> prog A) a s s' : lo <= hi + 1 -> J lo s s' ->
  (forall i a s s', lo <= i <= hi -> J i s s' -> lowo (J (i + 1)) eq (b1 i a s) (b2 i a s')) ->
  lowo (J (hi + 1)) eq (loop lo hi b1 a s) (loop lo hi b2 a s').
Proof.
  intros Hle HJ H. unfold loop. remember (Z.to_nat (hi - lo + 1)) as k eqn:Ek. revert lo a s s' Hle HJ H Ek.
  induction k as [|k IH]; intros lo a s s' Hle HJ H Ek; cbn [loopn].
  - cbn. split; [reflexivity|]. replace (hi + 1) with lo by lia. exact HJ.
  - eapply lowo_bind; [apply H; [lia|exact HJ]|]. intros u v t t' -> HJ'. apply IH; [lia|exact HJ'| |lia].
    intros i w t1 t2 Hi. apply H. lia.
Qed.
End Low.
Create HintDb low.
Ltac lt1 :=
  lazymatch goal with
  | |- lowp _ _ (ret _) => apply lowp_ret
  | |- lowp _ _ (ld _) => apply lowp_ld
  | |- lowp _ _ (sto _ _) => apply lowp_sto
  | |- lowp _ _ more => apply lowp_more
  | |- lowp _ _ cast => apply lowp_cast
  | |- lowp _ _ (fun s => Undef s) => apply lowp_undef
  | |- lowp _ _ (lift1 _ _) => apply lowp_lift1
  | |- lowp _ _ (lift2 _ _ _) => apply lowp_lift2
  | |- lowp _ _ (ifp _ _ _) => apply lowp_ifp
  | |- lowp _ _ (andp _ _) => apply lowp_andp
  | |- lowp _ _ (orp _ _) => apply lowp_orp
  | |- lowp _ _ (assign _ _) => apply lowp_assign
  | |- lowp _ _ (assign_add _ _) => apply lowp_assign_add
  | |- lowp _ _ (assign_sub _ _) => apply lowp_assign_sub
  | |- lowp _ _ (loop _ _ _ _) => apply lowp_loop; intros ? ?
  | |- lowp _ _ (loopx _ _ _ _) => apply lowp_loopx; intros ? ?
  | |- lowp _ _ (machine _ _ _) => apply lowp_machine; intros ?
  | |- lowp _ _ (bind _ _) => apply lowp_bind; [|intros ?]
  | |- lowp _ _ (match ?b with _ => _ end) => destruct b
  | |- lowp _ _ (let _ := _ in _) => cbv zeta
  | |- lowp _ _ ((fun _ => _) _) => cbv beta
  | |- lowp _ _ (LOOP _ _ _) => unfold LOOP
  | |- lowp _ _ (LOOP_ _ _) => unfold LOOP_
  | |- lowp _ _ (esqrt _) => unfold esqrt
  | |- lowp _ _ (eabs _) => unfold eabs
  | |- lowp _ _ _ => solve [auto with low nocore]
  end.
Ltac lw := repeat lt1.

Section CbLow.
Context {N : Num}.
Variables (D : Z -> bool) (X : Z -> Prop).
Notation lowp := (lowp (N := N) D X).
Lemma lowp_iget m ia k : lowp (iget m ia k).
Proof. unfold iget. lw. Qed.
Lemma lowp_iput m ia k v : lowp (iput m ia k v).
Proof. unfold iput. lw. Qed.
Hint Resolve lowp_iget lowp_iput : low.
Lemma lowp_trstlp n m a b rho dx z zdota vmultc sdirn dxnew vmultd fuel : lowp (trstlp n m a b rho dx z zdota vmultc sdirn dxnew vmultd fuel).
Proof.
  unfold trstlp, tr_init, tr_step, tr_70, tr_210, tr_260, tr_320, tr_340, tr_480, tr_add, tr_progress, tr_multipliers, tr_rotate, tr_last,
    tr_move, tr_stpful, tr_resmax, tr_vmultd, tr_residuals, tr_zdot, tgoto. lw.
Qed.
End CbLow.

(** ** The labels *)
Definition lab_ok {N : Num} (l : clabel * cvars (N := N)) : Prop :=
  match fst l with C600 | Cend => cstop (c_status (snd l)) | _ => c_status (snd l) = CB_ITERATE end.
Definition next {N : Num} {B1 B2} (r1 : clabel * cvars (N := N) + B1) (r2 : clabel * cvars (N := N) + B2) : Prop :=
  match r1, r2 with inl l1, inl l2 => l1 = l2 /\ lab_ok l1 | _, _ => False end.
Ltac cvr := cbn [c_parmu c_parsig c_prerec c_prerem c_rho c_f c_resmax c_ibrnch c_iflag c_ifull c_jdrop c_nfvals c_status p_parmu p_parsig p_prerec
  p_prerem p_rho p_f p_resmax p_ibrnch p_iflag p_ifull p_jdrop p_nfvals p_status fst snd].
Section Labels.
Context {N : Num} {B1 B2 : Type}.
Variables (D : Z -> bool) (X : Z -> Prop).
Notation low := (low (N := N) D X (next (B1 := B1) (B2 := B2))).
Lemma low_goto l v : l <> C600 -> l <> Cend -> c_status v = CB_ITERATE -> low (cgoto l v) (cgoto l v).
Proof. intros H1 H2 H s s' E. cbn. split; [|exact E]. split; [reflexivity|]. unfold lab_ok. cbn [fst snd]. destruct l; auto; contradiction. Qed.
Lemma low_stop l v : l = C600 \/ l = Cend -> cstop (c_status v) -> low (cgoto l v) (cgoto l v).
Proof. intros [->| ->] H s s' E; cbn; (split; [|exact E]); (split; [reflexivity|]); exact H. Qed.
Lemma low_fail st v : cstop st -> low (cfail st v) (cfail st v).
Proof. intros H. apply low_stop; [auto|]. exact H. Qed.
End Labels.
Ltac ls1 :=
  lazymatch goal with
  | |- low _ _ _ (cfail _ _) _ => apply low_fail; unfold cstop; auto
  | |- low _ _ _ (cgoto C600 _) _ => apply low_stop; [auto|cvr; unfold cstop; auto]
  | |- low _ _ _ (cgoto Cend _) _ => apply low_stop; [auto|cvr; unfold cstop; auto]
  | |- low _ _ _ (cgoto _ _) _ => apply low_goto; [discriminate|discriminate|cvr; assumption]
  | |- low _ _ _ (bind _ _) _ => apply low_bindp; [lw|intros ?]
  | |- low _ _ _ (if ?b then _ else _) _ => destruct b
  | |- low _ _ _ (let '(_, _) := ?b in _) _ => destruct b
  | |- low _ _ _ (let _ := _ in _) _ => cbv zeta
  end.
Ltac ls := repeat ls1.

Section Steps.
Context {N : Num} {B1 B2 : Type}.
Variables (D : Z -> bool) (X : Z -> Prop).
Variables (n m x : Z) (rhoend : N) (maxfun : Z).
Variables (con sim simi datmat a vsig veta sigbar dx w : Z).
Notation low := (low (N := N) D X (next (B1 := B1) (B2 := B2))).
Lemma low_initial v : c_status v = CB_ITERATE ->
  low (co_initial n m x con sim simi datmat v) (co_initial n m x con sim simi datmat v).
Proof. intros Hv. unfold co_initial. ls. Qed.
Lemma step_low c1 ev1 (fin1 : cvars -> prog N B1) c2 ev2 (fin2 : cvars -> prog N B2) fuel l v :
  l <> Ceval -> l <> Cend -> l <> Cnew -> lab_ok (l, v) ->
  low (co_step n m x rhoend maxfun con sim simi datmat a vsig veta sigbar dx w c1 ev1 fin1 fuel (l, v))
      (co_step n m x rhoend maxfun con sim simi datmat a vsig veta sigbar dx w c2 ev2 fin2 fuel (l, v)).
Proof.
  intros N1 N2 N3 Hv. unfold co_step. cbn [fst snd]. unfold lab_ok in Hv. cbn [fst snd] in Hv. destruct l; try congruence.
  - unfold co_call. ls.
  - unfold co_140, co_best, co_pole, co_error, co_linear, co_sigma, co_drop, co_vertex, co_replace. ls.
  - unfold co_370, co_altered. assert (T := lowp_trstlp (N := N) D X). ls.
  - unfold co_440, co_choose, co_replace. ls.
    all: apply low_goto; [discriminate|discriminate|]. all: cvr; destruct (_ && _)%bool; cvr; assumption.
  - unfold co_550, co_parmu. ls.
  - unfold co_600. ls.
Qed.
End Steps.

(** ** Machines *)
Lemma machine_det {N : Num} {L B} (step : L -> prog N (L + B)) k : forall l s m b t u, machine k step l s = Ret b t -> machine m step l s = Undef u -> False.
Proof.
  induction k as [|k IH]; intros l s m b t u E1 E2; [discriminate E1|]. destruct m as [|m]; [discriminate E2|].
  cbn [machine] in *. unfold bind in *. destruct (step l s) as [[l'|b'] s1|s1|s1|s1]; try discriminate; eauto.
Qed.
Lemma cmachine_mono {N : Num} {L B} (step : L -> prog N (L + B)) k l s b s' m :
  machine k step l s = Ret b s' -> (k <= m)%nat -> machine m step l s = Ret b s'.
Proof.
  revert l s m. induction k as [|k IH]; intros l s m E Hm; [discriminate E|]. destruct m as [|m]; [lia|].
  cbn [machine] in *. unfold bind in *. destruct (step l s) as [[l'|b'] s1|s1|s1|s1]; try discriminate E; [|exact E].
  apply IH; [exact E|lia].
Qed.

Section Client.
Context {N : Num}.
Notation prog := (prog N).
Notation mst := (mst N).
Notation cv := (cvars (N := N)).
Variables (n m : Z) (maximize : bool) (fn : list (list N * N) -> list N -> N) (cn : list (list N * N) -> list N -> Z -> N).
Variables (x : Z) (rhobeg rhoend : N) (maxfun work c : Z) (fi : nat).
Notation stepO := (co_step n m x rhoend maxfun work (o_sim n m work) (o_simi n m work) (o_datmat n m work) (o_a n m work) (o_vsig n m work)
    (o_veta n m work) (o_sigbar n m work) (o_dx n m work) (o_w n m work) None
    (cb_call n m maximize fn cn x work None) (cb_end n maximize x work None) fi).
Notation stepR := (co_step n m x rhoend maxfun work (o_sim n m work) (o_simi n m work) (o_datmat n m work) (o_a n m work) (o_vsig n m work)
    (o_veta n m work) (o_sigbar n m work) (o_dx n m work) (o_w n m work) (Some c) cb_request (fun v => ret v) fi).
Notation client := (cclient n m maximize fn cn x c fi).
Notation fin := (cb_end n maximize x work None).
Definition csgn (f : N) : N := if maximize then nopp f else f.
Definition mkq (v : cv) : ccontext := mkcc n m rhobeg rhoend maxfun work v.

Definition inC (a : Z) : bool := ((c <=? a) && (a <? c + m))%bool.
Definition needed (a : Z) : Prop := c <= a < c + m \/ x <= a < x + n \/ work <= a < work + m.
Notation eqv := (eqv (N := N) inC needed).
Hypothesis Hn : 1 <= n.
Hypothesis Hm : 0 <= m.
Hypothesis Cx : forall a, x <= a < x + n -> ~ (c <= a < c + m).
Hypothesis Cw : forall a, work <= a < work + m -> ~ (c <= a < c + m).

Lemma inC_spec a : inC a = true <-> c <= a < c + m.
Proof. unfold inC. rewrite andb_true_iff, Z.leb_le, Z.ltb_lt. tauto. Qed.
Lemma inC_false a : ~ (c <= a < c + m) -> inC a = false.
Proof. intros H. destruct (inC a) eqn:E; [apply inC_spec in E; contradiction|reflexivity]. Qed.

(** The constraints from [lo] to [hi] are still in the array of the client only *)
Definition eqvI (lo hi : Z) (s s' : mst) : Prop :=
  (forall a, mm s' a = if inC a then None else if ((work + lo <=? a) && (a <? work + hi))%bool then mm s (c + (a - work)) else mm s a) /\
  evs s' = evs s /\ forall a, needed a -> exists v, mm s a = Some v.
Lemma eqvI_end k s s' : eqvI k k s s' -> eqv s s'.
Proof.
  intros (E1 & E2 & E3). split; [|split; [exact E2|exact E3]]. intros a. rewrite E1. destruct (inC a); [reflexivity|].
  destruct (Z.leb_spec (work + k) a), (Z.ltb_spec a (work + k)); cbn [andb]; auto; lia.
Qed.

(** A call of the functions *)
Lemma readn_ok k : forall a (s : mst), (forall i, 0 <= i < Z.of_nat k -> exists v, mm s (a + i) = Some v) ->
  exists p, forall t : mst, (forall i, 0 <= i < Z.of_nat k -> mm t (a + i) = mm s (a + i)) -> readn k a t = Ret p t.
Proof.
  induction k as [|k IH]; intros a s H; cbn [readn].
  - exists []. reflexivity.
  - destruct (IH (a + 1) s) as [p Hp]; [intros i Hi; replace (a + 1 + i) with (a + (i + 1)) by lia; apply H; lia|].
    destruct (H 0 ltac:(lia)) as [v Hv]. exists (v :: p). intros t Ht. unfold bind, ld. assert (E := Ht 0 ltac:(lia)).
    rewrite Hv, Z.add_0_r in E. rewrite E. rewrite Hp; [reflexivity|]. intros i Hi. replace (a + 1 + i) with (a + (i + 1)) by lia. apply Ht. lia.
Qed.
Lemma fill_ok (val : Z -> N) b (s : mst) : (forall i, 0 <= i < m -> exists v, mm s (b + i) = Some v) ->
  exists t, loop 0 (m - 1) (fun k _ => assign (b + k)%Z (ret (val k))) tt s = Ret tt t /\ evs t = evs s /\
    forall a, mm t a = if ((b <=? a) && (a <? b + m))%bool then Some (val (a - b)) else mm s a.
Proof.
  intros H. unfold loop. replace (Z.to_nat (m - 1 - 0 + 1)) with (Z.to_nat m) by lia.
  assert (K : forall k lo (t : mst), 0 <= lo -> lo + Z.of_nat k = m -> evs t = evs s ->
    (forall a, mm t a = if ((b <=? a) && (a <? b + lo))%bool then Some (val (a - b)) else mm s a) ->
    exists t', loopn k lo (fun k _ => assign (b + k)%Z (ret (val k))) tt t = Ret tt t' /\ evs t' = evs s /\
    forall a, mm t' a = if ((b <=? a) && (a <? b + m))%bool then Some (val (a - b)) else mm s a).
  { induction k as [|k IH]; intros lo t H0 Hlo He Ht; cbn [loopn].
    - exists t. split; [reflexivity|]. split; [exact He|]. replace m with lo by lia. exact Ht.
    - unfold bind, assign, ret at 1, bind, sto. rewrite Ht. destruct (Z.ltb_spec (b + lo) (b + lo)); [lia|]. rewrite andb_false_r.
      destruct (H lo ltac:(lia)) as [v ->]. apply IH; [lia|lia|exact He|]. intros a. cbn [mm].
      destruct (Z.eqb_spec a (b + lo)) as [->|Ne].
      + destruct (Z.leb_spec b (b + lo)), (Z.ltb_spec (b + lo) (b + (lo + 1))); try lia. cbn [andb]. do 2 f_equal. lia.
      + rewrite Ht. destruct (Z.leb_spec b a), (Z.ltb_spec a (b + lo)), (Z.ltb_spec a (b + (lo + 1))); cbn [andb]; auto; lia. }
  apply (K (Z.to_nat m) 0 s); [lia|lia|reflexivity|]. intros a. destruct (Z.leb_spec b a), (Z.ltb_spec a (b + 0)); cbn [andb]; auto; lia.
Qed.
Lemma calc_ok b (s : mst) p : readn (Z.to_nat n) x s = Ret p s -> (forall i, 0 <= i < m -> exists v, mm s (b + i) = Some v) ->
  exists t, calcfc n m fn cn b x s = Ret (fn (evs s) p) t /\ evs t = (p, fn (evs s) p) :: evs s /\
    forall a, mm t a = if ((b <=? a) && (a <? b + m))%bool then Some (cn (evs s) p (a - b)) else mm s a.
Proof.
  intros Hp Hb. unfold calcfc. unfold bind at 1. rewrite Hp. unfold bind at 1. unfold bind at 1.
  destruct (fill_ok (cn (evs s) p) b s Hb) as (t & E1 & E2 & E3). rewrite E1. eexists. split; [reflexivity|]. cbn. rewrite E2. split; [reflexivity|exact E3].
Qed.

Lemma eval_ok s s' : eqv s s' -> exists f t t', calcfc n m fn cn c x s = Ret f t /\ calcfc n m fn cn work x s' = Ret f t' /\
  eqvI 0 m t t' /\ length (evs t) = S (length (evs s)).
Proof.
  intros (E1 & E2 & E3).
  destruct (readn_ok (Z.to_nat n) x s) as [p Hp]; [intros i Hi; apply E3; right; left; lia|].
  destruct (calc_ok c s p) as (t & A1 & A2 & A3); [apply Hp; reflexivity|intros i Hi; apply E3; left; lia|].
  destruct (calc_ok work s' p) as (t' & B1 & B2 & B3).
  { apply Hp. intros i Hi. rewrite E1, inC_false; [reflexivity|apply Cx; lia]. }
  { intros i Hi. rewrite E1, inC_false; [apply E3; right; right; lia|apply Cw; lia]. }
  rewrite E2 in B1, B2, B3. exists (fn (evs s) p), t, t'. split; [exact A1|]. split; [exact B1|]. split; [|rewrite A2; reflexivity].
  split; [|split; [congruence|]].
  - intros a. rewrite B3. replace (work + 0) with work by lia. destruct (Z.leb_spec work a), (Z.ltb_spec a (work + m)); cbn [andb].
    2-4: rewrite E1, A3; destruct (inC a) eqn:Ei; [reflexivity|]; unfold inC in Ei; rewrite Ei; reflexivity.
    rewrite inC_false by (apply Cw; lia). rewrite A3. destruct (Z.leb_spec c (c + (a - work))), (Z.ltb_spec (c + (a - work)) (c + m)); try lia.
    cbn [andb]. do 2 f_equal. lia.
  - intros a Ha. rewrite A3. destruct (_ && _)%bool; [eauto|apply E3, Ha].
Qed.

(** The copy of the constraints *)
Lemma resmax_low s s' : eqvI 0 m s s' -> lowo eqv eq (co_resmax m work (Some c) s) (co_resmax m work None s').
Proof.
  intros E.
  assert (K : lowo (eqvI (m - 1 + 1) m) eq (co_resmax m work (Some c) s) (co_resmax m work None s')).
  { unfold co_resmax. apply (lowo_loop (fun k => eqvI k m)); [lia|exact E|]. clear s s' E. intros k r s s' Hk (E1 & E2 & E3).
    unfold bind at 1 3. unfold lift1, bind, ld, assign, sto. rewrite E1, inC_false by (apply Cw; lia).
    destruct (Z.leb_spec (work + k) (work + k)), (Z.ltb_spec (work + k) (work + m)); try lia. cbn [andb].
    replace (c + (work + k - work)) with (c + k) by lia. destruct (E3 (c + k)) as [v Ev]; [left; lia|]. rewrite Ev. cbn [ret].
    unfold ret, bind, sto. destruct (E3 (work + k)) as [u Eu]; [right; right; lia|]. rewrite Eu. cbn [lowo]. split; [reflexivity|].
    split; [|split; [exact E2|]]; cbn [mm].
    - intros a. rewrite E1. destruct (inC a) eqn:Ei; [reflexivity|].
      destruct (Z.eqb_spec (c + (a - work)) (work + k)) as [Ea|_].
      + destruct (Z.leb_spec (work + (k + 1)) a), (Z.ltb_spec a (work + m)); cbn [andb];
          try (exfalso; apply (Cw (work + k)); lia).
        all: destruct (Z.leb_spec (work + k) a); cbn [andb]; destruct (Z.eqb_spec a (work + k)); try reflexivity; try lia; exfalso; apply (Cw (work + k)); lia.
      + destruct (Z.eqb_spec a (work + k)) as [->|Na].
        * destruct (Z.leb_spec (work + k) (work + k)), (Z.ltb_spec (work + k) (work + m)), (Z.leb_spec (work + (k + 1)) (work + k)); try lia.
          cbn [andb]. replace (c + (work + k - work)) with (c + k) by lia. exact Ev.
        * destruct (Z.leb_spec (work + k) a), (Z.ltb_spec a (work + m)), (Z.leb_spec (work + (k + 1)) a); cbn [andb]; auto; lia.
    - intros a Ha. destruct (Z.eqb a (work + k)); [eauto|apply E3, Ha]. }
  unfold lowo in *. destruct (co_resmax m work None s') as [r t'|t'|t'|t']; auto.
  destruct (co_resmax m work (Some c) s) as [r1 t|t|t|t]; auto. destruct K as [-> K]. split; [reflexivity|]. apply (eqvI_end m). replace (m - 1 + 1) with m in K by lia. exact K.
Qed.
Lemma new_low {B1 B2} s s' v : c_status v = CB_ITERATE -> eqvI 0 m s s' ->
  lowo eqv (next (B1 := B1) (B2 := B2))
    (co_new n m x work (o_sim n m work) (o_simi n m work) (o_datmat n m work) (Some c) v s)
    (co_new n m x work (o_sim n m work) (o_simi n m work) (o_datmat n m work) None v s').
Proof.
  intros Hv E. unfold co_new. cbv zeta. eapply lowo_bind; [apply resmax_low, E|]. intros r b t t' -> Et.
  revert t t' Et. match goal with |- forall t t', eqv t t' -> lowo _ _ (?p t) (?q t') => change (low inC needed (next (B1 := B1) (B2 := B2)) p q) end.
  ls. apply low_initial. cvr. exact Hv.
Qed.

(** ** A call of the reverse communication version *)
Definition rel (l : clabel) (s s' : mst) : Prop := match l with Cnew => eqvI 0 m s s' | _ => eqv s s' end.
Lemma next_step l v s s' : l <> Ceval -> l <> Cend -> lab_ok (l, v) -> rel l s s' -> lowo eqv next (stepR (l, v) s) (stepO (l, v) s').
Proof.
  intros N1 N2 Hl R. destruct (match l with Cnew => true | _ => false end) eqn:E.
  - destruct l; try discriminate E. apply new_low; [exact Hl|exact R].
  - assert (N3 : l <> Cnew) by (intros ->; discriminate E). apply (step_low inC needed); auto. destruct l; try exact R. discriminate E.
Qed.
(** No label goes to [Cnew] but [Ceval]; only [Cnew] counts an evaluation *)
Definition notnew (k : Z) (r : clabel * cv + cv) : Prop := match r with inl l => fst l <> Cnew /\ c_nfvals (snd l) = k /\ lab_ok l | inr v => c_nfvals v = k end.
Definition count (l : clabel) (v : cv) : Z := match l with Cnew => c_nfvals v + 1 | _ => c_nfvals v end.
Lemma wp_then {A B} (p : prog A) (q : A -> prog B) s Q : (forall a s', wp (q a) s' Q) -> wp (bind p q) s Q.
Proof. intros H. apply wp_bind. intros a s' _. apply H. Qed.
Lemma wp_notnew_goto k l (v : cv) s : l <> Cnew -> c_nfvals v = k -> lab_ok (l, v) -> wp (cgoto l v) s (fun r _ => notnew k r).
Proof. intros H K L. apply wp_ret. split; [exact H|]. split; [exact K|exact L]. Qed.
Ltac nn := repeat (cbv zeta; lazymatch goal with
  | |- wp (cgoto _ _) _ _ => apply wp_notnew_goto; [discriminate|cvr; try reflexivity; destruct (_ && _)%bool; reflexivity|
      unfold lab_ok; cvr; unfold cstop; auto; destruct (_ && _)%bool; assumption]
  | |- wp (cfail _ _) _ _ => apply wp_notnew_goto; [discriminate|cvr; try reflexivity; destruct (_ && _)%bool; reflexivity|
      unfold lab_ok; cvr; unfold cstop; auto; destruct (_ && _)%bool; assumption]
  | |- wp (bind _ _) _ _ => apply wp_then; intros ? ?
  | |- wp (if ?b then _ else _) _ _ => destruct b
  | |- wp (let '(_, _) := ?b in _) _ _ => destruct b
  end).
Lemma step_notnew l v s : l <> Ceval -> lab_ok (l, v) -> wp (stepR (l, v)) s (fun r _ => notnew (count l v) r).
Proof.
  intros H HL. unfold lab_ok in HL. unfold co_step, count. cbn [fst snd] in *. destruct l; try congruence.
  - unfold co_call. nn.
  - unfold co_new, co_initial. nn.
  - unfold co_140, co_vertex. nn.
  - unfold co_370. nn.
  - unfold co_440. nn.
  - unfold co_550. nn.
  - unfold co_600. nn.
  - apply wp_bind, wp_ret, wp_ret. reflexivity.
Qed.
Lemma run_count F : forall l v s, lab_ok (l, v) -> wp (machine F stepR (l, v)) s (fun u _ => c_nfvals u = count l v).
Proof.
  induction F as [|F IH]; intros l v s Hl u t E; [discriminate E|]. cbn [machine] in E. unfold bind at 1 in E.
  destruct (match l with Ceval => true | _ => false end) eqn:El.
  - destruct l; try discriminate El. cbn [co_step fst snd] in E. unfold cb_request in E. unfold lab_ok in Hl. cbn [fst snd] in Hl. rewrite Hl in E.
    injection E as <- <-. reflexivity.
  - assert (D1 : l <> Ceval) by (intros ->; discriminate El). assert (S1 := step_notnew l v s D1 Hl). unfold wp in S1.
    destruct (stepR (l, v) s) as [[[l1 v1]|r1] t1|t1|t1|t1] eqn:E1; try discriminate E.
    + destruct (S1 _ _ eq_refl) as (A1 & A2 & S3). cbn [fst snd] in A1, A2. rewrite (IH l1 v1 t1 S3 u t E). unfold count at 1. destruct l1; try exact A2. congruence.
    + injection E as <- <-. exact (S1 _ _ eq_refl).
Qed.

Lemma seg fuel : forall l v s s', lab_ok (l, v) -> rel l s s' ->
  match machine fuel stepR (l, v) s with
  | Ret u t => exists k, (k < fuel)%nat /\
      ((exists t', eqv t t' /\ ((c_status u = CB_ITERATE /\ forall j, machine (k + j) stepO (l, v) s' = machine j stepO (Ceval, u) t') \/
         (cstop (c_status u) /\ forall j, machine (k + S j) stepO (l, v) s' = fin u t'))) \/
       exists e, machine (S k) stepO (l, v) s' = Undef e)
  | _ => forall b t', machine fuel stepO (l, v) s' <> Ret b t'
  end.
Proof.
  induction fuel as [|fuel IH]; intros l v s s' Hl R; [cbn; discriminate|].
  assert (Dl : l = Ceval \/ l = Cend \/ (l <> Ceval /\ l <> Cend)) by (destruct l; auto; right; right; split; discriminate).
  destruct Dl as [->|[->|[D1 D2]]].
  - cbn [machine]. unfold bind at 1. cbn [co_step fst snd]. unfold cb_request. unfold lab_ok in Hl. cbn [fst snd] in Hl. rewrite Hl. cbn [ret].
    replace (p_status CB_ITERATE v) with v by (destruct v; cbn in Hl; subst; reflexivity).
    exists O. split; [lia|]. left. exists s'. split; [exact R|]. left. split; [exact Hl|]. reflexivity.
  - cbn [machine]. unfold bind at 1. cbn [co_step fst snd]. unfold bind at 1. cbn [ret].
    exists O. split; [lia|]. left. exists s'. split; [exact R|]. right. split; [exact Hl|]. intros j. cbn [Nat.add machine]. unfold bind at 1.
    cbn [co_step fst snd]. unfold bind. destruct (fin v s') as [r t|t|t|t]; reflexivity.
  - assert (S1 := next_step l v s s' D1 D2 Hl R). assert (S2 := step_notnew l v s D1 Hl). unfold wp in S2.
    cbn [machine]. unfold bind. unfold lowo in S1. unfold next in S1.
    destruct (stepO (l, v) s') as [r' t'|t'|t'|t'] eqn:E1.
    + destruct (stepR (l, v) s) as [r t|t|t|t] eqn:E2; try contradiction. destruct S1 as [S1 Et].
      destruct r as [[l1 v1]|r1], r' as [[l1' v1']|r1']; try contradiction. destruct S1 as [[= <- <-] Hl1].
      specialize (S2 _ _ eq_refl). cbn [notnew fst] in S2. destruct S2 as [S2 _].
      assert (R1 : rel l1 t t') by (destruct l1; try exact Et; congruence).
      specialize (IH l1 v1 t t' Hl1 R1). destruct (machine fuel stepR (l1, v1) t) as [u t2|t2|t2|t2]; auto.
      destruct IH as (k & Hk & IH). exists (S k). split; [lia|].
      assert (Es : forall j, machine (S k + j) stepO (l, v) s' = machine (k + j) stepO (l1, v1) t').
      { intros j. cbn [Nat.add machine]. unfold bind. rewrite E1. reflexivity. }
      destruct IH as [(t3 & Q & IH)|(e & IH)].
      * left. exists t3. split; [exact Q|]. destruct IH as [(A1 & A2)|(A1 & A2)]; [left|right]; (split; [exact A1|]); intros j; rewrite <- (A2 j); apply Es.
      * right. exists e. cbn [machine]. unfold bind at 1. exact IH.
    + assert (U : forall j, machine (S j) stepO (l, v) s' = Undef t') by (intros j; cbn [machine]; unfold bind; rewrite E1; reflexivity).
      destruct (stepR (l, v) s) as [[l1|r1] t|t|t|t]; [| |intros b t2; discriminate..].
      * destruct (machine fuel stepR l1 t) as [u t2|t2|t2|t2]; [|intros b t3; discriminate..]. exists O. split; [lia|]. right. exists t'. reflexivity.
      * exists O. split; [lia|]. right. exists t'. reflexivity.
    + destruct (stepR (l, v) s) as [r t|t|t|t]; try contradiction. intros; discriminate.
    + destruct (stepR (l, v) s) as [r t|t|t|t]; try contradiction. intros; discriminate.
Qed.

Lemma iterate_run v f F s : c_status v = CB_ITERATE -> 1 <= c_nfvals v ->
  cobyla_iterate (mkq v) f (Some x) (Some c) fi F s = bind (machine F stepR (Cnew, p_f f v)) (fun v => ret (mkq v)) s.
Proof.
  intros Hv Hne. unfold cobyla_iterate, q_status, q_nevals. cbn [q_v mkq q_n q_m q_rhoend q_maxfun q_w]. rewrite Hv.
  destruct (Z.ltb_spec (c_nfvals v) 0); [lia|]. destruct (Z.eqb_spec (c_nfvals v) 0); [lia|]. reflexivity.
Qed.
Lemma call_eq v s : stepO (Ceval, v) s = bind (calcfc n m fn cn work x) (fun f => ret (inl (Cnew, p_f (csgn f) v))) s.
Proof. reflexivity. Qed.
Lemma client_ask F k v s : c_status v = CB_ITERATE -> 1 <= c_nfvals v -> client F (S k) (mkq v) s =
  bind (calcfc n m fn cn c x) (fun f => bind (machine F stepR (Cnew, p_f (csgn f) v)) (fun v => client F k (mkq v))) s.
Proof.
  intros Hv Hne. cbn [cclient cobyla_get_status]. unfold q_status. cbn [mkq q_v]. rewrite Hv. unfold bind at 1 3.
  destruct (calcfc n m fn cn c x s) as [f t|t|t|t]; try reflexivity. unfold bind at 1. change (if maximize then nopp f else f) with (csgn f).
  change (mkcc n m rhobeg rhoend maxfun work v) with (mkq v). rewrite iterate_run by assumption.
  unfold bind. destruct (machine _ _ _ _); reflexivity.
Qed.
Lemma client_stop F k v s : cstop (c_status v) -> client F (S k) (mkq v) s = Ret (mkq v) s.
Proof. intros Hv. cbn [cclient cobyla_get_status]. unfold q_status. cbn [mkq q_v]. destruct Hv as [->|[->| ->]]; reflexivity. Qed.

Lemma fwd j : forall v s s' st s2 F1 F k, c_status v = CB_ITERATE -> 0 <= c_nfvals v -> eqvI 0 m s s' ->
  machine j stepO (Cnew, v) s' = Ret st s2 -> (j < F1)%nat -> (j < F)%nat -> (j < k)%nat ->
  exists v1 s1 v' s3 t3, machine F1 stepR (Cnew, v) s = Ret v1 s1 /\ client F k (mkq v1) s1 = Ret (mkq v') s3 /\
    eqv s3 t3 /\ fin v' t3 = Ret st s2.
Proof.
  induction j as [j IH] using (well_founded_induction lt_wf). intros v s s' st s2 F1 F k Hv H0 R E H1 H2 H3.
  assert (S1 := seg F1 Cnew v s s' Hv R). assert (S2 := run_count F1 Cnew v s Hv). unfold wp in S2.
  assert (M := fun i (Hi : (j <= i)%nat) => cmachine_mono _ _ _ _ _ _ i E Hi).
  destruct (machine F1 stepR (Cnew, v) s) as [v1 s1|s1|s1|s1]; try (exfalso; eapply S1; apply M; lia).
  specialize (S2 v1 s1 eq_refl). cbn [count] in S2. destruct S1 as (k0 & Hk0 & [(t1 & Q & S1)|(e & S1)]); [|exfalso; eapply machine_det; [exact E|exact S1]].
  destruct S1 as [[A1 A2]|[A1 A2]].
  - assert (Hj : (k0 < j)%nat).
    { destruct (Nat.lt_ge_cases k0 j) as [L|L]; [exact L|]. specialize (A2 O). rewrite M in A2 by lia. discriminate A2. }
    specialize (A2 (j - k0)%nat). replace (k0 + (j - k0))%nat with j in A2 by lia. rewrite E in A2.
    destruct (j - k0)%nat as [|i] eqn:Ei; [lia|]. cbn [machine] in A2. unfold bind at 1 in A2. rewrite call_eq in A2.
    destruct (eval_ok s1 t1 Q) as (f & u & u' & Eu & Eu' & Ru & _). unfold bind at 1 in A2. rewrite Eu' in A2. cbn [ret] in A2. symmetry in A2.
    destruct k as [|k]; [lia|]. exists v1, s1. rewrite client_ask by (auto; lia). unfold bind at 1. rewrite Eu.
    destruct (IH i ltac:(lia) (p_f (csgn f) v1) u u' st s2 F F k) as (v2 & s4 & v' & s3 & t3 & B1 & B2 & B3 & B4);
      [exact A1|cvr; lia|exact Ru|exact A2|lia|lia|lia|].
    exists v', s3, t3. split; [reflexivity|]. unfold bind at 1. rewrite B1. auto.
  - exists v1, s1, v1, s1, t1. destruct k as [|k]; [lia|]. rewrite client_stop by exact A1. specialize (A2 j). rewrite M in A2 by lia. auto.
Qed.

Lemma bwd F k : forall v s s' F1 v1 s1 q' s3, c_status v = CB_ITERATE -> 0 <= c_nfvals v -> eqvI 0 m s s' ->
  (forall j e, machine j stepO (Cnew, v) s' <> Undef e) ->
  machine F1 stepR (Cnew, v) s = Ret v1 s1 -> client F k (mkq v1) s1 = Ret q' s3 ->
  exists j t3, machine j stepO (Cnew, v) s' = fin (q_v q') t3 /\ eqv s3 t3.
Proof.
  induction k as [|k IH]; intros v s s' F1 v1 s1 q' s3 Hv H0 R HU E1 E2; [discriminate E2|].
  assert (S1 := seg F1 Cnew v s s' Hv R). assert (S2 := run_count F1 Cnew v s Hv). unfold wp in S2. rewrite E1 in *.
  specialize (S2 v1 s1 eq_refl). cbn [count] in S2. destruct S1 as (k0 & Hk0 & [(t1 & Q & S1)|(e & S1)]); [|exfalso; eapply HU, S1].
  destruct S1 as [[A1 A2]|[A1 A2]].
  - rewrite client_ask in E2 by (auto; lia). unfold bind at 1 in E2.
    destruct (eval_ok s1 t1 Q) as (f & u & u' & Eu & Eu' & Ru & _). rewrite Eu in E2. unfold bind at 1 in E2.
    assert (A3 : forall i, machine (k0 + S i) stepO (Cnew, v) s' = machine i stepO (Cnew, p_f (csgn f) v1) u').
    { intros i. rewrite A2. cbn [machine]. unfold bind at 1. rewrite call_eq. unfold bind at 1. rewrite Eu'. reflexivity. }
    destruct (machine F stepR (Cnew, p_f (csgn f) v1) u) as [v2 s2|s2|s2|s2] eqn:E3; try discriminate E2.
    destruct (IH (p_f (csgn f) v1) u u' F v2 s2 q' s3) as (j & t3 & Ej & Q3); [exact A1|cvr; lia|exact Ru| |exact E3|exact E2|].
    { intros j e He. apply (HU (k0 + S j)%nat e). rewrite A3. exact He. }
    exists (k0 + S j)%nat, t3. rewrite A3. auto.
  - rewrite client_stop in E2 by exact A1. injection E2 as <- <-. exists (k0 + 1)%nat, t1. split; [apply A2|exact Q].
Qed.
End Client.
