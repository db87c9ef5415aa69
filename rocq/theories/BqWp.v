(** * Reasoning about the programs of BqLang.v

    [safe p P]: from any state where the readable cells exist and the constant cells have their values, the program [p] does
    not access other cells, writes only in the writable cells, does not call the objective function, keeps the constant cells and yields a value such that [P] if it ends
    normally. *)
From Coq Require Import ZArith List Bool Lia.
From Verif Require Import Num BqLang BqModel.
Import ListNotations.
Local Open Scope Z_scope.

Section Wp.
Context {N : Num}.
Notation prog := (prog N).
Notation mst := (mst N).
(** Writable, readable and constant cells *)
Variables (W Rd : Z -> Prop) (C : Z -> option N).
Hypothesis WRd : forall a, W a -> Rd a.
Hypothesis CW : forall a v, C a = Some v -> ~ W a.

Definition good (s : mst) : Prop :=
  (forall a, Rd a -> exists v, mm s a = Some v) /\ (forall a v, C a = Some v -> mm s a = Some v).

Definition frame (s s' : mst) : Prop := (forall a, ~ W a -> mm s' a = mm s a) /\ evs s' = evs s.

Lemma frame_refl s : frame s s.
Proof. split; auto. Qed.
Lemma frame_trans s1 s2 s3 : frame s1 s2 -> frame s2 s3 -> frame s1 s3.
Proof. intros [A B] [C1 D]. split; [intros a Ha; rewrite C1, A; auto|congruence]. Qed.

Definition safe {A} (p : prog A) (P : A -> Prop) : Prop :=
  forall s, good s ->
  match p s with
  | Ret a s' => P a /\ good s' /\ frame s s'
  | Undef _ => False
  | Cast s' | More s' => frame s s'
  end.

(** The same for expressions: nothing is written *)
Definition pure {A} (p : prog A) (P : A -> Prop) : Prop :=
  forall s, good s -> exists a, p s = Ret a s /\ P a.

Notation T := (fun _ => True).

Lemma pure_safe {A} (p : prog A) P : pure p P -> safe p P.
Proof. intros H s G. destruct (H s G) as [a [E Pa]]. rewrite E. repeat split; auto; apply G. Qed.

Lemma safe_weak {A} (p : prog A) (P Q : A -> Prop) : safe p P -> (forall a, P a -> Q a) -> safe p Q.
Proof. intros H K s G. specialize (H s G). destruct (p s); auto. destruct H as (Pa & R); auto. Qed.

Lemma safe_ret {A} (a : A) (P : A -> Prop) : P a -> safe (ret a) P.
Proof. intros H s G. cbn. repeat split; auto; apply G. Qed.

Lemma safe_bind {A B} (p : prog A) (q : A -> prog B) (P : A -> Prop) (Q : B -> Prop) :
  safe p P -> (forall a, P a -> safe (q a) Q) -> safe (bind p q) Q.
Proof.
  intros Hp Hq s G. unfold bind. specialize (Hp s G). destruct (p s) as [a s1|s1|s1|s1]; auto.
  destruct Hp as (Pa & G1 & F1). specialize (Hq a Pa s1 G1).
  destruct (q a s1) as [b s2|s2|s2|s2]; auto; [|apply (frame_trans _ _ _ F1 Hq)|apply (frame_trans _ _ _ F1 Hq)].
  destruct Hq as (Qb & G2 & F2). split; [auto|split; [auto|apply (frame_trans _ _ _ F1 F2)]].
Qed.

Lemma safe_bindT {A B} (p : prog A) (q : A -> prog B) (Q : B -> Prop) :
  safe p T -> (forall a, safe (q a) Q) -> safe (bind p q) Q.
Proof. intros Hp Hq. apply (safe_bind p q T); auto. Qed.

Lemma pure_ld a : Rd a -> pure (ld a) T.
Proof. intros Ha s [G1 G2]. destruct (G1 a Ha) as [v E]. exists v. unfold ld. rewrite E. auto. Qed.
Lemma pure_ldC a v : C a = Some v -> pure (ld a) (fun u => u = v).
Proof. intros Ha s [G1 G2]. exists v. unfold ld. rewrite (G2 a v Ha). auto. Qed.

Lemma safe_ld a : Rd a -> safe (ld a) T.
Proof. intros Ha. apply pure_safe, pure_ld, Ha. Qed.

Lemma sto_good s a v : good s -> W a -> good (mkmst (fun b => if Z.eqb b a then Some v else mm s b) (evs s)).
Proof.
  intros [G1 G2] Ha. split; cbn.
  - intros b Hb. destruct (Z.eqb_spec b a); eauto.
  - intros b u Hb. destruct (Z.eqb_spec b a) as [->|]; eauto. destruct (CW a u Hb Ha).
Qed.

Lemma safe_sto a v : W a -> safe (sto a v) T.
Proof.
  intros Ha s G. unfold sto. destruct (proj1 G a (WRd a Ha)) as [u E]. rewrite E.
  split; auto. split; [apply sto_good; auto|]. split; [|reflexivity].
  intros b Hb. cbn. destruct (Z.eqb_spec b a) as [->|]; [contradiction|reflexivity].
Qed.

Lemma safe_assign a e : W a -> safe e T -> safe (assign a e) T.
Proof. intros Ha He. apply safe_bindT; auto. intros v. apply safe_sto, Ha. Qed.

Lemma safe_lift1 {A B} (f : A -> B) p : safe p T -> safe (lift1 f p) T.
Proof. intros H. apply safe_bindT; auto. intros a. apply safe_ret; auto. Qed.
Lemma safe_lift2 {A B D} (f : A -> B -> D) p q : safe p T -> safe q T -> safe (lift2 f p q) T.
Proof. intros H K. apply safe_bindT; auto. intros a. apply safe_bindT; auto. intros b. apply safe_ret; auto. Qed.
Lemma safe_assign_add a e : W a -> safe e T -> safe (assign_add a e) T.
Proof.
  intros Ha He. unfold assign_add. apply safe_bindT; [apply safe_lift2; auto; apply safe_ld; auto|].
  intros v. apply safe_sto, Ha.
Qed.
Lemma safe_assign_sub a e : W a -> safe e T -> safe (assign_sub a e) T.
Proof.
  intros Ha He. unfold assign_sub. apply safe_bindT; [apply safe_lift2; auto; apply safe_ld; auto|].
  intros v. apply safe_sto, Ha.
Qed.
Lemma safe_ifp {A} c (p q : prog A) P : safe c T -> safe p P -> safe q P -> safe (ifp c p q) P.
Proof. intros Hc Hp Hq. apply safe_bindT; auto. intros [|]; auto. Qed.
Lemma safe_andp p q : safe p T -> safe q T -> safe (andp p q) T.
Proof. intros Hp Hq. apply safe_bindT; auto. intros [|]; auto. apply safe_ret; auto. Qed.
Lemma safe_orp p q : safe p T -> safe q T -> safe (orp p q) T.
Proof. intros Hp Hq. apply safe_bindT; auto. intros [|]; auto. apply safe_ret; auto. Qed.

Lemma safe_loopn {A} (J : Z -> A -> Prop) k lo body (a : A) :
  (forall i a, lo <= i < lo + Z.of_nat k -> J i a -> safe (body i a) (J (i + 1))) -> J lo a ->
  safe (loopn k lo body a) (J (lo + Z.of_nat k)).
Proof.
  revert lo a. induction k as [|k IH]; intros lo a Hb Ha.
  - cbn [loopn]. apply safe_ret. rewrite Z.add_0_r. exact Ha.
  - cbn [loopn]. apply safe_bind with (J (lo + 1)).
    + apply Hb; [lia|exact Ha].
    + intros b Hj. replace (lo + Z.of_nat (S k)) with (lo + 1 + Z.of_nat k) by lia. apply IH; [|exact Hj].
      intros i c Hi. apply Hb. lia.
Qed.

Lemma safe_loopJ {A} (J : Z -> A -> Prop) lo hi body (a : A) :
  lo <= hi + 1 ->
  (forall i a, lo <= i <= hi -> J i a -> safe (body i a) (J (i + 1))) -> J lo a ->
  safe (loop lo hi body a) (J (hi + 1)).
Proof.
  intros H Hb Ha. unfold loop.
  assert (E : lo + Z.of_nat (Z.to_nat (hi - lo + 1)) = hi + 1) by lia. rewrite <- E.
  apply safe_loopn; auto. intros i c Hi. apply Hb. lia.
Qed.

Lemma safe_loopP {A} (P : A -> Prop) lo hi body (a : A) :
  (forall i a, lo <= i <= hi -> P a -> safe (body i a) P) -> P a -> safe (loop lo hi body a) P.
Proof.
  intros Hb Ha. unfold loop. apply (safe_loopn (fun _ => P)); auto. intros i c Hi. apply Hb. lia.
Qed.

Lemma safe_loop {A} lo hi body (a : A) :
  (forall i a, lo <= i <= hi -> safe (body i a) T) -> safe (loop lo hi body a) T.
Proof. intros Hb. apply safe_loopP; auto. Qed.

Lemma safe_loopxP {A B} (P : A -> Prop) (Q : B -> Prop) lo hi (body : Z -> A -> prog (A + B)) (a : A) :
  (forall i a, lo <= i <= hi -> P a -> safe (body i a) (fun r => match r with inl a => P a | inr b => Q b end)) -> P a ->
  safe (loopx lo hi body a) (fun r => match r with inl a => P a | inr b => Q b end).
Proof.
  intros Hb Ha. unfold loopx.
  assert (K : forall i a, lo <= i < lo + Z.of_nat (Z.to_nat (hi - lo + 1)) -> P a ->
              safe (body i a) (fun r => match r with inl a => P a | inr b => Q b end)) by (intros; apply Hb; auto; lia).
  clear Hb. revert K. generalize (Z.to_nat (hi - lo + 1)). intros k K. revert lo a Ha K.
  induction k as [|k IH]; intros lo a Ha K; cbn [loopxn].
  - apply safe_ret, Ha.
  - eapply safe_bind; [apply K; [lia|exact Ha]|]. intros [b|b] Hr; [apply IH; auto; intros; apply K; auto; lia|].
    apply safe_ret, Hr.
Qed.

Lemma safe_machine {L B} (P : L -> Prop) (Q : B -> Prop) (step : L -> prog (L + B)) fuel l :
  (forall l, P l -> safe (step l) (fun r => match r with inl l => P l | inr b => Q b end)) -> P l ->
  safe (machine fuel step l) Q.
Proof.
  intros Hs. revert l. induction fuel as [|fuel IH]; intros l Hl; cbn [machine].
  - intros s G. cbn. apply frame_refl.
  - eapply safe_bind; [apply Hs, Hl|]. intros [r|r] Hr; [apply IH, Hr|apply safe_ret, Hr].
Qed.

Lemma safe_cast {A} P : safe (cast : prog A) P.
Proof. intros s G. apply frame_refl. Qed.

Lemma safe_trunc lim v : 0 <= lim -> safe (trunc lim v) (fun i => 0 <= i <= lim).
Proof.
  intros H. unfold trunc. destruct (nlt v (nZ 0)).
  - destruct (nlt (nZ (-1)) v); [apply safe_ret; lia|apply safe_cast].
  - assert (K : forall k i, 0 <= i -> i + Z.of_nat k <= lim + 1 -> safe (truncn k i v) (fun i => 0 <= i <= lim)).
    { induction k as [|k IH]; intros i Hi Hk; cbn [truncn]; [apply safe_cast|].
      destruct (nlt v (nZ (i + 1))); [apply safe_ret; lia|apply IH; lia]. }
    apply K; lia.
Qed.

(** Pure expressions *)
Lemma pure_ret {A} (a : A) (P : A -> Prop) : P a -> pure (ret a) P.
Proof. intros H s G. exists a. auto. Qed.
Lemma pure_bind {A B} (p : prog A) (q : A -> prog B) P Q :
  pure p P -> (forall a, P a -> pure (q a) Q) -> pure (bind p q) Q.
Proof.
  intros Hp Hq s G. destruct (Hp s G) as [a [E Pa]]. destruct (Hq a Pa s G) as [b [E' Qb]].
  exists b. unfold bind. rewrite E. auto.
Qed.
Lemma pure_lift2 {A B D} (f : A -> B -> D) p q : pure p T -> pure q T -> pure (lift2 f p q) T.
Proof.
  intros H K. unfold lift2. eapply pure_bind; [exact H|]. intros a _. eapply pure_bind; [exact K|]. intros b _.
  apply pure_ret; auto.
Qed.
Lemma pure_ifp {A} c (p q : prog A) P : pure c T -> pure p P -> pure q P -> pure (ifp c p q) P.
Proof. intros Hc Hp Hq. unfold ifp. eapply pure_bind; [exact Hc|]. intros [|] _; auto. Qed.

(** Arrays *)
Definition arr (p lo hi : Z) : Prop := forall i, lo <= i <= hi -> W (at1 p i).
Definition mat (p ldim rlo rhi clo chi : Z) : Prop :=
  forall i j, rlo <= i <= rhi -> clo <= j <= chi -> W (at2 p ldim i j).
Definition rarr (p lo hi : Z) : Prop := forall i, lo <= i <= hi -> Rd (at1 p i).

Lemma arr_rarr p lo hi : arr p lo hi -> rarr p lo hi.
Proof. intros H i Hi. apply WRd, H, Hi. Qed.
End Wp.
