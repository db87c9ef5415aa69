(** * Partial correctness of programs over the exact reals with an undefined value: what the memory holds when a program returns *)
From Coq Require Import ZArith Reals Bool Lia.
From Verif Require Import Num BqLang BqModel NumE.
Local Open Scope Z_scope.

Section Mem.
Context {H J : R}.
Local Notation N := (NumE H J).
Local Notation mst := (mst N).
Implicit Types (K : Z -> Prop).

(** The content of a cell *)
Definition val (s : mst) (a : Z) : N := match mm s a with Some v => v | None => None end.
Definition upd (s : mst) (a : Z) (v : N) : mst := mkmst (fun b => if Z.eqb b a then Some v else mm s b) (evs s).
Lemma val_eq s a v : val (upd s a v) a = v.
Proof. unfold val, upd. cbn. rewrite Z.eqb_refl. reflexivity. Qed.
Lemma val_ne s a v b : b <> a -> val (upd s a v) b = val s b.
Proof. intros K. unfold val, upd. cbn. destruct (Z.eqb_spec b a); [contradiction|reflexivity]. Qed.

(** ** Expressions: the value is [v] and the memory is left unchanged *)
Definition evals {A} (p : prog N A) (s : mst) (v : A) : Prop := forall a s', p s = Ret a s' -> a = v /\ s' = s.
Lemma ev_ret {A} (a : A) s : evals (ret a) s a.
Proof. intros b s' [= <- <-]. auto. Qed.
Lemma ev_ld a s : evals (ld a) s (val s a).
Proof. intros b s' E. unfold ld in E. unfold val. destruct (mm s a); [injection E as <- <-; auto|discriminate]. Qed.
Lemma ev_bind {A B} (p : prog N A) (q : A -> prog N B) s v w : evals p s v -> evals (q v) s w -> evals (bind p q) s w.
Proof.
  intros Hp Hq b s' E. unfold bind in E. destruct (p s) as [a s1|s1|s1|s1] eqn:Ep; try discriminate E.
  destruct (Hp _ _ Ep) as [-> ->]. exact (Hq _ _ E).
Qed.
Lemma ev_lift1 {A B} (f : A -> B) p s v : evals p s v -> evals (lift1 f p) s (f v).
Proof. intros Hp. eapply ev_bind; [exact Hp|]. apply ev_ret. Qed.
Lemma ev_lift2 {A B C} (f : A -> B -> C) p q s v w : evals p s v -> evals q s w -> evals (lift2 f p q) s (f v w).
Proof. intros Hp Hq. eapply ev_bind; [exact Hp|]. eapply ev_bind; [exact Hq|]. apply ev_ret. Qed.

(** ** Statements *)
Lemma b_inv {A B} (p : prog N A) (q : A -> prog N B) s b s' : bind p q s = Ret b s' ->
  exists a s1, p s = Ret a s1 /\ q a s1 = Ret b s'.
Proof. unfold bind. destruct (p s) as [a s1|s1|s1|s1]; intros E; try discriminate E. exists a, s1. auto. Qed.
Lemma b_ev {A B} (p : prog N A) (q : A -> prog N B) s v b s' : evals p s v -> bind p q s = Ret b s' -> q v s = Ret b s'.
Proof. intros Hp E. apply b_inv in E as (a & s1 & Ep & E). destruct (Hp _ _ Ep) as [-> ->]. exact E. Qed.
Lemma sto_inv a v s r s' : sto a v s = Ret r s' -> s' = upd s a v.
Proof. unfold sto. destruct (mm s a); [|discriminate]. intros [= <- <-]. reflexivity. Qed.
Lemma as_inv a e s v r s' : evals e s v -> assign a e s = Ret r s' -> s' = upd s a v.
Proof. intros He E. apply (b_ev _ _ _ _ _ _ He) in E. apply sto_inv in E. exact E. Qed.
Lemma aa_inv a e s v r s' : evals e s v -> assign_add a e s = Ret r s' -> s' = upd s a (nadd (val s a) v).
Proof. intros He E. eapply b_ev in E; [|apply ev_lift2; [apply ev_ld|exact He]]. apply sto_inv in E. exact E. Qed.
Lemma b_as {B} a e (q : unit -> prog N B) s v b s' : evals e s v -> bind (assign a e) q s = Ret b s' -> q tt (upd s a v) = Ret b s'.
Proof. intros He E. apply b_inv in E as ([] & s1 & E1 & E). apply (as_inv _ _ _ _ _ _ He) in E1. subst s1. exact E. Qed.
Lemma b_aa {B} a e (q : unit -> prog N B) s v b s' : evals e s v -> bind (assign_add a e) q s = Ret b s' ->
  q tt (upd s a (nadd (val s a) v)) = Ret b s'.
Proof. intros He E. apply b_inv in E as ([] & s1 & E1 & E). apply (aa_inv _ _ _ _ _ _ He) in E1. subst s1. exact E. Qed.
Lemma r_inv {A} (a b : A) s s' : ret (N := N) a s = Ret b s' -> b = a /\ s' = s.
Proof. intros [= <- <-]. auto. Qed.

(** ** Loops: an invariant indexed by the number of iterations done *)
Lemma loopn_inv {A} (P : nat -> A -> mst -> Prop) body k : forall k0 a s a' s',
  (forall j a s a' s', (k0 <= j < k0 + k)%nat -> P j a s -> body (Z.of_nat (S j)) a s = Ret a' s' -> P (S j) a' s') ->
  P k0 a s -> loopn k (Z.of_nat (S k0)) body a s = Ret a' s' -> P (k0 + k)%nat a' s'.
Proof.
  induction k as [|k IH]; intros k0 a s a' s' HB HP E; cbn [loopn] in E.
  - apply r_inv in E as [-> ->]. rewrite Nat.add_0_r. exact HP.
  - apply b_inv in E as (b & s1 & E1 & E). replace (k0 + S k)%nat with (S k0 + k)%nat by lia. eapply (IH (S k0) b s1).
    + intros j c s2 c' s2' Hj. apply HB. lia.
    + eapply HB; [lia|exact HP|exact E1].
    + replace (Z.of_nat (S (S k0))) with (Z.of_nat (S k0) + 1) by lia. exact E.
Qed.
Lemma LOOP_inv {A} (P : nat -> A -> mst -> Prop) n body (a : A) s a' s' :
  P O a s ->
  (forall j a s a' s', (j < Z.to_nat n)%nat -> P j a s -> body (Z.of_nat (S j)) a s = Ret a' s' -> P (S j) a' s') ->
  LOOP n body a s = Ret a' s' -> P (Z.to_nat n) a' s'.
Proof.
  intros H0 HB E. unfold LOOP, loop in E. replace (n - 1 + 1) with n in E by lia.
  apply (loopn_inv P body (Z.to_nat n) O a s a' s'); [|exact H0|exact E]. intros j c s1 c' s1' Hj. apply HB. lia.
Qed.
Lemma LOOP__inv (P : nat -> mst -> Prop) n body s a' s' :
  P O s ->
  (forall j s a' s', (j < Z.to_nat n)%nat -> P j s -> body (Z.of_nat (S j)) s = Ret a' s' -> P (S j) s') ->
  LOOP_ n body s = Ret a' s' -> P (Z.to_nat n) s'.
Proof.
  intros H0 HB E. apply (LOOP_inv (fun j _ s => P j s) n (fun i _ => body i) tt s a' s'); [exact H0| |exact E].
  intros j a s1 a1 s1' Hj HP E1. eapply HB; eassumption.
Qed.
(** A loop which only reads *)
Lemma ev_LOOP {A} n body (a : A) s (f : nat -> A) : f O = a ->
  (forall j, (j < Z.to_nat n)%nat -> evals (body (Z.of_nat (S j)) (f j)) s (f (S j))) -> evals (LOOP n body a) s (f (Z.to_nat n)).
Proof.
  intros H0 HB b s' E. apply (LOOP_inv (fun j a s1 => a = f j /\ s1 = s) n body a s b s'); [auto| |exact E].
  intros j c s1 c' s1' Hj [-> ->] E1. exact (HB j Hj _ _ E1).
Qed.
(** The machine *)
Lemma machine_inv {L B} (I : L -> mst -> Prop) (Q : B -> mst -> Prop) (step : L -> prog N (L + B)) fuel : forall l s b s',
  (forall l s r s', I l s -> step l s = Ret r s' -> match r with inl l => I l s' | inr b => Q b s' end) -> I l s ->
  machine fuel step l s = Ret b s' -> Q b s'.
Proof.
  induction fuel as [|fuel IH]; intros l s b s' HS HI E; cbn [machine] in E; [discriminate E|].
  apply b_inv in E as (r & s1 & E1 & E). pose proof (HS _ _ _ _ HI E1) as K. destruct r as [l'|b'].
  - exact (IH l' s1 b s' HS K E).
  - apply r_inv in E as [-> ->]. exact K.
Qed.
Lemma loopx_inv {A B} (I : A -> mst -> Prop) (Q : A + B -> mst -> Prop) (body : Z -> A -> prog N (A + B)) lo hi a s r s' :
  (forall i a s r s', I a s -> body i a s = Ret r s' -> match r with inl a => I a s' | inr b => Q (inr b) s' end) ->
  (forall a s, I a s -> Q (inl a) s) -> I a s -> loopx lo hi body a s = Ret r s' -> Q r s'.
Proof.
  intros HS HQ. unfold loopx. generalize (Z.to_nat (hi - lo + 1)). intros k. revert lo a s.
  induction k as [|k IH]; intros lo a s HI E; cbn [loopxn] in E.
  - apply r_inv in E as [-> ->]. apply HQ, HI.
  - apply b_inv in E as (r1 & s1 & E1 & E). pose proof (HS _ _ _ _ _ HI E1) as K. destruct r1 as [a1|b1].
    + exact (IH _ _ _ K E).
    + apply r_inv in E as [-> ->]. exact K.
Qed.

(** ** What is left unchanged: the cells of [K] *)
Definition keeps {A} (K : Z -> Prop) (p : prog N A) : Prop := forall s a s', p s = Ret a s' -> forall b, K b -> val s' b = val s b.
Lemma k_ev {A} K (p : prog N A) : (forall s, exists v, evals p s v) -> keeps K p.
Proof. intros E s a s' Ep b _. destruct (E s) as [v Hv]. destruct (Hv _ _ Ep) as [_ ->]. reflexivity. Qed.
Lemma k_ret {A} K (a : A) : keeps K (ret a).
Proof. intros s b s' [= _ <-]. reflexivity. Qed.
Lemma k_ld K a : keeps K (ld a).
Proof. apply k_ev. intros s. eexists. apply ev_ld. Qed.
Lemma k_bind {A B} K (p : prog N A) (q : A -> prog N B) : keeps K p -> (forall a, keeps K (q a)) -> keeps K (bind p q).
Proof. intros Hp Hq s b s' E c Hc. apply b_inv in E as (a & s1 & E1 & E). rewrite (Hq a _ _ _ E c Hc). exact (Hp _ _ _ E1 c Hc). Qed.
Lemma k_lift1 {A B} K (f : A -> B) p : keeps K p -> keeps K (lift1 f p).
Proof. intros Hp. apply k_bind; [exact Hp|]. intros a. apply k_ret. Qed.
Lemma k_lift2 {A B C} K (f : A -> B -> C) p q : keeps K p -> keeps K q -> keeps K (lift2 f p q).
Proof. intros Hp Hq. apply k_bind; [exact Hp|]. intros a. apply k_bind; [exact Hq|]. intros b. apply k_ret. Qed.
Lemma k_sto K a v : (forall b, K b -> b <> a) -> keeps K (sto a v).
Proof. intros Ha s r s' E b Hb. apply sto_inv in E. subst s'. apply val_ne, Ha, Hb. Qed.
Lemma k_assign K a e : (forall b, K b -> b <> a) -> keeps K e -> keeps K (assign a e).
Proof. intros Ha He. apply k_bind; [exact He|]. intros v. apply k_sto, Ha. Qed.
Lemma k_assign_add K a e : (forall b, K b -> b <> a) -> keeps K e -> keeps K (assign_add a e).
Proof. intros Ha He. apply k_bind; [apply k_lift2; [apply k_ld|exact He]|]. intros v. apply k_sto, Ha. Qed.
Lemma k_assign_sub K a e : (forall b, K b -> b <> a) -> keeps K e -> keeps K (assign_sub a e).
Proof. intros Ha He. apply k_bind; [apply k_lift2; [apply k_ld|exact He]|]. intros v. apply k_sto, Ha. Qed.
Lemma k_LOOP {A} K n body (a : A) : (forall i a, 1 <= i <= n -> keeps K (body i a)) -> keeps K (LOOP n body a).
Proof.
  intros HB s a' s' E b Hb. apply (LOOP_inv (fun _ _ s1 => val s1 b = val s b) n body a s a' s'); [reflexivity| |exact E].
  intros j c s1 c' s1' Hj <- E1. refine (HB _ _ _ _ _ _ E1 b Hb). lia.
Qed.
Lemma k_LOOP_ K n body : (forall i, 1 <= i <= n -> keeps K (body i)) -> keeps K (LOOP_ n body).
Proof. intros HB. apply (k_LOOP K n (fun i _ => body i) tt). intros i _. apply HB. Qed.
End Mem.
