(** * Partial correctness: what is known of the result of a program, whatever the memory

    [yields p P]: if the program [p] returns, its result satisfies [P].  Nothing is said of the memory. *)
From Coq Require Import ZArith List Bool.
From Verif Require Import Num BqLang.

Section Yields.
Context {N : Num}.
Definition yields {A} (p : prog N A) (P : A -> Prop) : Prop := forall s a s', p s = Ret a s' -> P a.

Lemma y_T {A} (p : prog N A) : yields p (fun _ => True).
Proof. intros s a s' _. exact I. Qed.
Lemma y_ret {A} (a : A) (P : A -> Prop) : P a -> yields (ret a) P.
Proof. intros H s b s' E. injection E as <- _. exact H. Qed.
Lemma y_weak {A} (p : prog N A) (P Q : A -> Prop) : yields p P -> (forall a, P a -> Q a) -> yields p Q.
Proof. intros H HQ s a s' E. eapply HQ, H, E. Qed.
Lemma y_bind {A B} (p : prog N A) (q : A -> prog N B) (P : A -> Prop) (Q : B -> Prop) :
  yields p P -> (forall a, P a -> yields (q a) Q) -> yields (bind p q) Q.
Proof.
  intros Hp Hq s b s' E. unfold bind in E. destruct (p s) as [a s1|s1|s1|s1] eqn:Ep; try discriminate E.
  exact (Hq a (Hp s a s1 Ep) s1 b s' E).
Qed.
Lemma y_bindT {A B} (p : prog N A) (q : A -> prog N B) (Q : B -> Prop) : (forall a, yields (q a) Q) -> yields (bind p q) Q.
Proof. intros H. eapply y_bind; [apply y_T|]. auto. Qed.
Lemma y_ifp {A} c (p q : prog N A) (P : A -> Prop) : yields p P -> yields q P -> yields (ifp c p q) P.
Proof. intros Hp Hq. apply y_bindT. intros [|]; assumption. Qed.
Lemma y_loopn {A} (P : A -> Prop) body k : forall lo (a : A), (forall i a, P a -> yields (body i a) P) -> P a ->
  yields (loopn k lo body a) P.
Proof.
  induction k as [|k IH]; intros lo a H Ha; cbn [loopn]; [apply y_ret, Ha|].
  eapply y_bind; [apply H, Ha|]. intros b Hb. apply IH; assumption.
Qed.
Lemma y_loop {A} (P : A -> Prop) lo hi body (a : A) : (forall i a, P a -> yields (body i a) P) -> P a ->
  yields (loop lo hi body a) P.
Proof. apply y_loopn. Qed.
(** The same with the index *)
Lemma y_loopni {A} (P : A -> Prop) body k : forall lo (a : A),
  (forall i a, (lo <= i)%Z -> P a -> yields (body i a) P) -> P a -> yields (loopn k lo body a) P.
Proof.
  induction k as [|k IH]; intros lo a H Ha; cbn [loopn]; [apply y_ret, Ha|].
  eapply y_bind; [apply H; [apply Z.le_refl|exact Ha]|]. intros b Hb. apply IH; [|exact Hb].
  intros i c Hi Hc. apply H; [|exact Hc]. apply Z.le_trans with (lo + 1)%Z; [apply Z.le_succ_diag_r|exact Hi].
Qed.
Lemma y_machine {L B} (J : L -> Prop) (Q : B -> Prop) (step : L -> prog N (L + B)) fuel : forall l,
  (forall l, J l -> yields (step l) (fun r => match r with inl l => J l | inr b => Q b end)) -> J l ->
  yields (machine fuel step l) Q.
Proof.
  induction fuel as [|fuel IH]; intros l H Hl; cbn [machine]; [intros s a s' E; discriminate E|].
  eapply y_bind; [apply H, Hl|]. intros [l'|b] Hr; [apply IH; assumption|apply y_ret, Hr].
Qed.
End Yields.
