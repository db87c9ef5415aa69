(** * Partial correctness of the programs of BqLang.v

    [wp p s Q]: if the program [p] ends normally from the state [s], then its result and the state at the end are such that [Q].
    The absence of accesses out of the arrays is proved elsewhere (BqRun.v). *)
From Coq Require Import ZArith List Bool Lia.
From Verif Require Import Num BqLang BqModel BqWp BqStart.
Import ListNotations.
Local Open Scope Z_scope.

Section Pc.
Context {N : Num}.
Notation mst := (mst N).
Notation prog := (prog N).

Definition wp {A} (p : prog A) (s : mst) (Q : A -> mst -> Prop) : Prop := forall a s', p s = Ret a s' -> Q a s'.

Lemma wp_weak {A} (p : prog A) s (P Q : A -> mst -> Prop) : wp p s P -> (forall a s', P a s' -> Q a s') -> wp p s Q.
Proof. intros H K a s' E. apply K, H, E. Qed.
Lemma wp_ret {A} (a : A) s (Q : A -> mst -> Prop) : Q a s -> wp (ret a) s Q.
Proof. intros H b s' E. injection E as <- <-. exact H. Qed.
Lemma wp_bind {A B} (p : prog A) (q : A -> prog B) s Q : wp p s (fun a s' => wp (q a) s' Q) -> wp (bind p q) s Q.
Proof. intros H b s' E. unfold bind in E. destruct (p s) as [a s1|s1|s1|s1] eqn:Ep; try discriminate. exact (H a s1 Ep b s' E). Qed.
Lemma wp_ld a s (Q : N -> mst -> Prop) : (forall v, mm s a = Some v -> Q v s) -> wp (ld a) s Q.
Proof. intros H v s' E. unfold ld in E. destruct (mm s a) as [u|] eqn:Ea; [|discriminate]. injection E as <- <-. auto. Qed.
Lemma wp_sto a v s (Q : unit -> mst -> Prop) : Q tt (upd s a v) -> wp (sto a v) s Q.
Proof. intros H u s' E. unfold sto in E. destruct (mm s a); [|discriminate]. injection E as <- <-. exact H. Qed.
Lemma wp_assign a e s (Q : unit -> mst -> Prop) : wp e s (fun v s' => Q tt (upd s' a v)) -> wp (assign a e) s Q.
Proof. intros H. apply wp_bind. eapply wp_weak; [exact H|]. intros v s' K. apply wp_sto, K. Qed.
Lemma wp_lift1 {A B} (f : A -> B) p s (Q : B -> mst -> Prop) : wp p s (fun a s' => Q (f a) s') -> wp (lift1 f p) s Q.
Proof. intros H. apply wp_bind. eapply wp_weak; [exact H|]. intros a s' K. apply wp_ret, K. Qed.
Lemma wp_lift2 {A B D} (f : A -> B -> D) p q s (Q : D -> mst -> Prop) :
  wp p s (fun a s' => wp q s' (fun b s'' => Q (f a b) s'')) -> wp (lift2 f p q) s Q.
Proof.
  intros H. apply wp_bind. eapply wp_weak; [exact H|]. intros a s' K. apply wp_bind. eapply wp_weak; [exact K|].
  intros b s'' L. apply wp_ret, L.
Qed.
Lemma wp_ifp {A} c (p q : prog A) s Q : wp c s (fun b s' => wp (if b : bool then p else q) s' Q) -> wp (ifp c p q) s Q.
Proof. apply wp_bind. Qed.
Lemma wp_assign_sub a e s (Q : unit -> mst -> Prop) :
  wp (ld a) s (fun u s1 => wp e s1 (fun v s' => Q tt (upd s' a (nsub u v)))) -> wp (assign_sub a e) s Q.
Proof.
  intros H. apply wp_bind, wp_lift2. eapply wp_weak; [exact H|]. intros u s1 K. eapply wp_weak; [exact K|].
  intros v s' L. apply wp_sto, L.
Qed.
Lemma wp_assign_add a e s (Q : unit -> mst -> Prop) :
  wp (ld a) s (fun u s1 => wp e s1 (fun v s' => Q tt (upd s' a (nadd u v)))) -> wp (assign_add a e) s Q.
Proof.
  intros H. apply wp_bind, wp_lift2. eapply wp_weak; [exact H|]. intros u s1 K. eapply wp_weak; [exact K|].
  intros v s' L. apply wp_sto, L.
Qed.

Lemma wp_loopJ {A} (J : Z -> A -> mst -> Prop) lo hi body (a : A) s (Q : A -> mst -> Prop) :
  lo <= hi + 1 -> J lo a s ->
  (forall i b t, lo <= i <= hi -> J i b t -> wp (body i b) t (J (i + 1))) ->
  (forall b t, J (hi + 1) b t -> Q b t) -> wp (loop lo hi body a) s Q.
Proof.
  intros H Ha Hb HQ. unfold loop.
  assert (E : hi + 1 = lo + Z.of_nat (Z.to_nat (hi - lo + 1))) by lia. rewrite E in HQ.
  assert (K : forall i b t, lo <= i < lo + Z.of_nat (Z.to_nat (hi - lo + 1)) -> J i b t -> wp (body i b) t (J (i + 1)))
    by (intros; apply Hb; auto; lia).
  clear Hb E H. revert K HQ. generalize (Z.to_nat (hi - lo + 1)). intros k K HQ. revert lo a s Ha K HQ.
  induction k as [|k IH]; intros lo a s Ha K HQ; cbn [loopn].
  - apply wp_ret, HQ. rewrite Z.add_0_r. exact Ha.
  - apply wp_bind. eapply wp_weak; [apply K; [lia|exact Ha]|]. intros b t Hj. apply IH; auto.
    + intros i c u Hi. apply K. lia.
    + intros c u. replace (lo + 1 + Z.of_nat k) with (lo + Z.of_nat (S k)) by lia. apply HQ.
Qed.

Lemma wp_loopx {A B} (J : Z -> A -> mst -> Prop) lo hi (body : Z -> A -> prog (A + B)) (a : A) s (Q : A + B -> mst -> Prop) :
  lo <= hi + 1 -> J lo a s ->
  (forall i b t, lo <= i <= hi -> J i b t ->
     wp (body i b) t (fun r t => match r with inl b => J (i + 1) b t | inr c => Q (inr c) t end)) ->
  (forall b t, J (hi + 1) b t -> Q (inl b) t) -> wp (loopx lo hi body a) s Q.
Proof.
  intros H Ha Hb HQ. unfold loopx.
  assert (E : hi + 1 = lo + Z.of_nat (Z.to_nat (hi - lo + 1))) by lia. rewrite E in HQ.
  assert (K : forall i b t, lo <= i < lo + Z.of_nat (Z.to_nat (hi - lo + 1)) -> J i b t ->
     wp (body i b) t (fun r t => match r with inl b => J (i + 1) b t | inr c => Q (inr c) t end))
    by (intros; apply Hb; auto; lia).
  clear Hb E H. revert K HQ. generalize (Z.to_nat (hi - lo + 1)). intros k K HQ. revert lo a s Ha K HQ.
  induction k as [|k IH]; intros lo a s Ha K HQ; cbn [loopxn].
  - apply wp_ret, HQ. rewrite Z.add_0_r. exact Ha.
  - apply wp_bind. eapply wp_weak; [apply K; [lia|exact Ha]|]. intros [b|c] t Hj; [|apply wp_ret, Hj]. apply IH; auto.
    + intros i d u Hi. apply K. lia.
    + intros d u. replace (lo + 1 + Z.of_nat k) with (lo + Z.of_nat (S k)) by lia. apply HQ.
Qed.

Lemma wp_machine {L B} (J : L -> mst -> Prop) (Q : B -> mst -> Prop) (step : L -> prog (L + B)) fuel l s :
  J l s -> (forall l t, J l t -> wp (step l) t (fun r t => match r with inl l => J l t | inr b => Q b t end)) ->
  wp (machine fuel step l) s Q.
Proof.
  intros Hl Hs. revert l s Hl. induction fuel as [|fuel IH]; intros l s Hl; cbn [machine].
  - intros a s' E. discriminate.
  - apply wp_bind. eapply wp_weak; [apply Hs, Hl|]. intros [r|r] t Hr; [apply IH, Hr|apply wp_ret, Hr].
Qed.

(** Quiet code: the cells out of [W] do not change *)
Lemma wp_safe {A} (W Rd : Z -> Prop) (C : Z -> option N) (p : prog A) P s (Q : A -> mst -> Prop) :
  safe W Rd C p P -> good Rd C s -> (forall a s', P a -> good Rd C s' -> frame W s s' -> Q a s') -> wp p s Q.
Proof.
  intros H G K a s' E. specialize (H s G). rewrite E in H. destruct H as (Pa & G' & F). auto.
Qed.

Lemma good_upd (Rd : Z -> Prop) (C : Z -> option N) s a v : good Rd C s -> C a = None -> good Rd C (upd s a v).
Proof.
  intros [G1 G2] Ha. split.
  - intros b Hb. cbn. destruct (Z.eqb b a); eauto.
  - intros b u Hb. cbn. destruct (Z.eqb_spec b a) as [->|]; [congruence|auto].
Qed.
End Pc.
