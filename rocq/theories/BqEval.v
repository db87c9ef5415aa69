(** * Reasoning about the evaluations of the objective function in the programs of BqLang.v

    [ht P p Q]: from any state such that [P], the program [p] makes no access out of the arrays, ends normally in a state such
    that [Q], and whatever happens calls the objective function only at points such that [evalok], at most [Z.max 1 maxfun]
    times, and changes only the cells of [O]. *)
From Coq Require Import ZArith List Bool Lia.
From Verif Require Import Num BqLang BqModel BqWp BqSafe.
Import ListNotations.
Local Open Scope Z_scope.

Section Eval.
Context {N : Num}.
Notation mst := (mst N).
Notation prog := (prog N).
Variables (W Rd : Z -> Prop) (C : Z -> option N).
Hypothesis WRd : forall a, W a -> Rd a.
Hypothesis CW : forall a v, C a = Some v -> ~ W a.
Variables (n maxfun x : Z) (ctx : context (N := N)) (sc : Z -> N).
(** The possible values of each variable *)
Variable box : Z -> N -> Prop.
Hypothesis Hcn : c_n ctx = n.
(** The cells that may change, and the initial memory *)
Variables (O : Z -> Prop) (m0 : Z -> option N).
Hypothesis HO : forall a, W a -> O a.
(** The array of the variables, and the one of the scaled variables *)
Hypothesis Hx : forall i, 1 <= i <= n -> Rd (at1 x i) /\ ~ W (at1 x i) /\ C (at1 x i) = None /\ O (at1 x i).
Hypothesis Hscl : match c_scl ctx with
  | None => True
  | Some scl => forall i, 0 <= i < n ->
      C (scl + i) = Some (sc (i + 1)) /\
      Rd (c_ws ctx + i) /\ ~ W (c_ws ctx + i) /\ C (c_ws ctx + i) = None /\ O (c_ws ctx + i) /\
      (forall j, 1 <= j <= n -> at1 x j <> c_ws ctx + i)
  end.

(** A point where the objective function is called: the variables, multiplied by the scaling factors if any *)
Definition evalok (p : list N) : Prop :=
  length p = Z.to_nat n /\
  forall i, 1 <= i <= n -> exists v, box i v /\
    nth_error p (Z.to_nat (i - 1)) = Some (match c_scl ctx with None => v | Some _ => nmul (sc i) v end).

Definition evsok (s : mst) : Prop := Forall (fun e => evalok (fst e)) (evs s).
Definition keep (s : mst) : Prop := forall a, ~ O a -> mm s a = m0 a.
Definition E (s : mst) : Prop := evsok s /\ Z.of_nat (length (evs s)) <= Z.max 1 maxfun /\ keep s.

Definition st (nf : Z) (s : mst) : Prop :=
  good Rd C s /\ evsok s /\ Z.of_nat (length (evs s)) = nf /\ nf <= Z.max 1 maxfun /\ keep s.

(** The cells at address [a] and index [i] such that [K i] are in the box *)
Definition boxed (a : Z) (K : Z -> Prop) (s : mst) : Prop :=
  forall i, 1 <= i <= n -> K i -> exists v, mm s (at1 a i) = Some v /\ box i v.
Notation all := (fun _ => True).
Definition sx (nf : Z) (s : mst) : Prop := st nf s /\ boxed x all s.

Definition ht {A} (P : mst -> Prop) (p : prog A) (Q : A -> mst -> Prop) : Prop :=
  forall s, P s ->
  match p s with
  | Ret a s' => Q a s'
  | Undef _ => False
  | Cast s' | More s' => E s'
  end.

Lemma ht_weak {A} (P P' : mst -> Prop) (p : prog A) (Q Q' : A -> mst -> Prop) :
  ht P p Q -> (forall s, P' s -> P s) -> (forall a s, Q a s -> Q' a s) -> ht P' p Q'.
Proof. intros H K1 K2 s Hs. specialize (H s (K1 s Hs)). destruct (p s); auto. Qed.

Lemma ht_post {A} (P : mst -> Prop) (p : prog A) (Q Q' : A -> mst -> Prop) :
  ht P p Q -> (forall a s, Q a s -> Q' a s) -> ht P p Q'.
Proof. intros H K. eapply ht_weak; [exact H|auto|exact K]. Qed.

Lemma ht_ret {A} (a : A) (P : mst -> Prop) (Q : A -> mst -> Prop) : (forall s, P s -> Q a s) -> ht P (ret a) Q.
Proof. intros H s Hs. cbn. auto. Qed.

Lemma ht_bind {A B} (P : mst -> Prop) (p : prog A) (R : A -> mst -> Prop) (q : A -> prog B) Q :
  ht P p R -> (forall a, ht (R a) (q a) Q) -> ht P (bind p q) Q.
Proof.
  intros Hp Hq s Hs. unfold bind. specialize (Hp s Hs). destruct (p s) as [a s'| | |]; auto. exact (Hq a s' Hp).
Qed.

(** A precondition may be put in the context *)
Lemma ht_ctx {A} (F : Prop) (P : mst -> Prop) (p : prog A) Q : (F -> ht P p Q) -> ht (fun s => F /\ P s) p Q.
Proof. intros H s [Hf Hs]. exact (H Hf s Hs). Qed.

Lemma ht_ex {A B} (P : B -> mst -> Prop) (p : prog A) Q : (forall b, ht (P b) p Q) -> ht (fun s => exists b, P b s) p Q.
Proof. intros H s [b Hs]. exact (H b s Hs). Qed.

Lemma st_E nf s : st nf s -> E s.
Proof. intros (G & H1 & H2 & H3 & H4). split; [exact H1|]. split; [lia|exact H4]. Qed.
Lemma sx_E nf s : sx nf s -> E s.
Proof. intros [H _]. exact (st_E nf s H). Qed.

Lemma st_frame nf s s' : st nf s -> good Rd C s' -> frame W s s' -> st nf s'.
Proof.
  intros (G & H1 & H2 & H3 & H4) G' [F1 F2]. unfold st, evsok. rewrite F2. repeat split; auto; try apply G'.
  intros a Ha. rewrite F1; auto.
Qed.
Lemma E_frame nf s s' : st nf s -> frame W s s' -> E s'.
Proof.
  intros (G & H1 & H2 & H3 & H4) [F1 F2]. unfold E, evsok. rewrite F2. split; [exact H1|]. split; [lia|].
  intros a Ha. rewrite F1; auto.
Qed.
Lemma boxed_frame K s s' : boxed x K s -> frame W s s' -> boxed x K s'.
Proof.
  intros H [F1 _] i Hi Hk. destruct (H i Hi Hk) as [v [E1 B]]. exists v. split; [|exact B].
  rewrite F1; [exact E1|]. apply Hx, Hi.
Qed.

Lemma ht_safe {A} (p : prog A) P nf : safe W Rd C p P -> ht (st nf) p (fun a s => P a /\ st nf s).
Proof.
  intros H s Hs. specialize (H s (proj1 Hs)). destruct (p s) as [a s'|s'|s'|s']; auto.
  - destruct H as (Pa & G & F). split; [exact Pa|exact (st_frame nf s s' Hs G F)].
  - exact (E_frame nf s s' Hs H).
  - exact (E_frame nf s s' Hs H).
Qed.

Lemma ht_safex {A} (p : prog A) P nf : safe W Rd C p P -> ht (sx nf) p (fun a s => P a /\ sx nf s).
Proof.
  intros H s [Hs Hb]. specialize (H s (proj1 Hs)). destruct (p s) as [a s'|s'|s'|s']; auto.
  - destruct H as (Pa & G & F). split; [exact Pa|]. split; [exact (st_frame nf s s' Hs G F)|exact (boxed_frame _ s s' Hb F)].
  - exact (E_frame nf s s' Hs H).
  - exact (E_frame nf s s' Hs H).
Qed.

(** Sequences: a quiet part, then the rest *)
Lemma ht_quiet {A B} (p : prog A) (q : A -> prog B) P nf Q :
  safe W Rd C p P -> (forall a, P a -> ht (sx nf) (q a) Q) -> ht (sx nf) (bind p q) Q.
Proof.
  intros Hp Hq. eapply ht_bind; [apply ht_safex, Hp|]. intros a. apply ht_ctx. auto.
Qed.
Lemma ht_quietT {A B} (p : prog A) (q : A -> prog B) nf Q :
  safe W Rd C p (fun _ => True) -> (forall a, ht (sx nf) (q a) Q) -> ht (sx nf) (bind p q) Q.
Proof. intros Hp Hq. eapply ht_quiet; [exact Hp|auto]. Qed.
Lemma ht_quiet0 {A B} (p : prog A) (q : A -> prog B) P nf Q :
  safe W Rd C p P -> (forall a, P a -> ht (st nf) (q a) Q) -> ht (st nf) (bind p q) Q.
Proof.
  intros Hp Hq. eapply ht_bind; [apply ht_safe, Hp|]. intros a. apply ht_ctx. auto.
Qed.

Lemma ht_machine {L B} (P : L -> mst -> Prop) (Q : B -> mst -> Prop) (step : L -> prog (L + B)) fuel l :
  (forall l s, P l s -> E s) ->
  (forall l, ht (P l) (step l) (fun r s => match r with inl l => P l s | inr b => Q b s end)) ->
  ht (P l) (machine fuel step l) Q.
Proof.
  intros HE Hs. revert l. induction fuel as [|fuel IH]; intros l; cbn [machine].
  - intros s Hl. cbn. exact (HE l s Hl).
  - eapply ht_bind; [apply Hs|]. intros [r|r]; [apply IH|]. apply ht_ret. auto.
Qed.

Lemma ht_loopx {A B} (P : A -> mst -> Prop) (Q : B -> mst -> Prop) a0 b0 (body : Z -> A -> prog (A + B)) a :
  (forall i a, a0 <= i <= b0 -> ht (P a) (body i a) (fun r s => match r with inl a => P a s | inr b => Q b s end)) ->
  ht (P a) (loopx a0 b0 body a) (fun r s => match r with inl a => P a s | inr b => Q b s end).
Proof.
  intros Hb. unfold loopx.
  assert (K : forall i a, a0 <= i < a0 + Z.of_nat (Z.to_nat (b0 - a0 + 1)) ->
              ht (P a) (body i a) (fun r s => match r with inl a => P a s | inr b => Q b s end)) by (intros; apply Hb; lia).
  clear Hb. revert K. generalize (Z.to_nat (b0 - a0 + 1)). intros k K. revert a0 a K.
  induction k as [|k IH]; intros a0 a K; cbn [loopxn].
  - apply ht_ret. auto.
  - eapply ht_bind; [apply K; lia|]. intros [b|b]; [apply IH; intros; apply K; lia|]. apply ht_ret. auto.
Qed.

Lemma ht_loopJ {A} (P : Z -> A -> mst -> Prop) a0 b0 body (a : A) :
  a0 <= b0 + 1 ->
  (forall i a, a0 <= i <= b0 -> ht (P i a) (body i a) (P (i + 1))) ->
  ht (P a0 a) (loop a0 b0 body a) (P (b0 + 1)).
Proof.
  intros H Hb. unfold loop.
  assert (Ek : a0 + Z.of_nat (Z.to_nat (b0 - a0 + 1)) = b0 + 1) by lia. rewrite <- Ek.
  assert (K : forall i a, a0 <= i < a0 + Z.of_nat (Z.to_nat (b0 - a0 + 1)) -> ht (P i a) (body i a) (P (i + 1)))
    by (intros; apply Hb; lia).
  clear Hb Ek H. revert K. generalize (Z.to_nat (b0 - a0 + 1)). intros k K. revert a0 a K.
  induction k as [|k IH]; intros a0 a K; cbn [loopn].
  - apply ht_ret. intros s Hs. rewrite Z.add_0_r. exact Hs.
  - eapply ht_bind; [apply K; lia|]. intros b. replace (a0 + Z.of_nat (S k)) with (a0 + 1 + Z.of_nat k) by lia.
    apply IH. intros. apply K. lia.
Qed.

(** ** Writing the variables *)
Section Write.
Variables (a : Z) (X : mst -> Prop).
Hypothesis Ha : forall i, 1 <= i <= n -> Rd (at1 a i) /\ C (at1 a i) = None /\ O (at1 a i).
(** Another property of the state, that the writes keep *)
Hypothesis HX : forall s i v, 1 <= i <= n -> X s ->
  X (mkmst (fun b => if Z.eqb b (at1 a i) then Some v else mm s b) (evs s)).
Definition part (nf : Z) (K : Z -> Prop) (s : mst) : Prop := st nf s /\ boxed a K s /\ X s.

Lemma ht_wr nf (K : Z -> Prop) i e :
  1 <= i <= n -> pure Rd C e (box i) ->
  ht (part nf K) (assign (at1 a i) e) (fun _ => part nf (fun j => K j \/ j = i)).
Proof.
  intros Hi He s (Hs & Hb & HXs). destruct Hs as (G & H1 & H2 & H3 & H4).
  destruct (He s G) as [v [Ev Bv]]. unfold assign, bind. rewrite Ev. unfold sto.
  destruct (Ha i Hi) as (Ra & Ca & Oa). destruct (proj1 G _ Ra) as [u Eu]. rewrite Eu.
  split; [|split; [|apply HX; auto]].
  - destruct G as [G1 G2]. split; [split; cbn|].
    + intros b Hbb. destruct (Z.eqb_spec b (at1 a i)); eauto.
    + intros b w Hbb. destruct (Z.eqb_spec b (at1 a i)) as [->|]; [congruence|auto].
    + repeat split; auto. intros b Hbb. cbn. destruct (Z.eqb_spec b (at1 a i)) as [->|]; [contradiction|auto].
  - intros j Hj Hk. cbn. destruct (Z.eqb_spec (at1 a j) (at1 a i)) as [Ej|Ej].
    + assert (j = i) by (unfold at1 in Ej; lia). subst j. eauto.
    + destruct Hk as [Hk|Hk]; [apply Hb; auto|]. subst j. congruence.
Qed.

Lemma ht_wr_if nf (K : Z -> Prop) i c e :
  1 <= i <= n -> K i -> pure Rd C c (fun _ => True) -> pure Rd C e (box i) ->
  ht (part nf K) (ifp c (assign (at1 a i) e) (ret tt)) (fun _ => part nf K).
Proof.
  intros Hi Hk Hc He. eapply ht_bind with (R := fun _ => part nf K).
  - intros s Hs. destruct (Hc s (proj1 (proj1 Hs))) as [b [Eb _]]. rewrite Eb. exact Hs.
  - intros [|].
    + eapply ht_weak; [apply (ht_wr nf K i e Hi He)|auto|]. intros _ s (H1 & H2 & H3). split; auto. split; auto.
      intros j Hj Kj. apply H2; auto.
    + apply ht_ret. auto.
Qed.
End Write.

(** ** The calls of the objective function *)
Lemma readn_spec k a (s : mst) :
  (forall i, 0 <= i < Z.of_nat k -> exists v, mm s (a + i) = Some v) ->
  exists p, readn k a s = Ret p s /\ length p = k /\ forall i, (i < k)%nat -> nth_error p i = mm s (a + Z.of_nat i).
Proof.
  revert a. induction k as [|k IH]; intros a H; cbn [readn].
  - exists nil. repeat split. intros i Hi. lia.
  - destruct (H 0) as [v Ev]; [lia|]. rewrite Z.add_0_r in Ev.
    destruct (IH (a + 1)) as (p & E1 & E2 & E3).
    { intros i Hi. destruct (H (i + 1)) as [u Eu]; [lia|]. exists u. rewrite <- Eu. f_equal. lia. }
    exists (v :: p). unfold bind, ld. rewrite Ev, E1. cbn [ret]. split; [reflexivity|]. split; [cbn; lia|].
    intros [|i] Hi; cbn [nth_error].
    + rewrite Z.add_0_r. auto.
    + rewrite E3 by lia. f_equal. lia.
Qed.

(** The call from the address [a], after the scaling if any *)
Lemma ht_objfun nf a (X : mst -> Prop) :
  nf < Z.max 1 maxfun ->
  (forall s e, X s -> X (mkmst (mm s) e)) ->
  ht (fun s => st nf s /\ X s /\ forall i, 1 <= i <= n -> exists v, box i v /\
        mm s (at1 a i) = Some (match c_scl ctx with None => v | Some _ => nmul (sc i) v end))
     (objfun ctx a) (fun _ s => st (nf + 1) s /\ X s).
Proof.
  intros Hnf HX s (Hs & HXs & Hv). unfold objfun, bind.
  destruct (readn_spec (Z.to_nat (c_n ctx)) a s) as (p & E1 & E2 & E3).
  { intros i Hi. destruct (Hv (i + 1)) as [v [Bv Ev]]; [lia|]. eexists. rewrite <- Ev. f_equal. unfold at1. lia. }
  rewrite E1. destruct Hs as (G & H1 & H2 & H3 & H4). split; [|apply HX, HXs].
  split; [exact G|]. unfold evsok. cbn [evs length]. split; [|split; [lia|split; [lia|exact H4]]].
  constructor; [|exact H1]. cbn [fst]. split; [congruence|].
  intros i Hi. destruct (Hv i Hi) as [v [Bv Ev]]. exists v. split; [exact Bv|]. rewrite E3 by lia. rewrite <- Ev.
  f_equal. unfold at1. lia.
Qed.

Lemma ht_call nf a :
  nf < Z.max 1 maxfun ->
  (forall i, 1 <= i <= n -> Rd (at1 a i) /\ (W (at1 a i) \/ a = x)) ->
  ht (fun s => st nf s /\ boxed a all s /\ boxed x all s) (call_objfun ctx a) (fun _ => sx (nf + 1)).
Proof.
  intros Hnf Ha. unfold call_objfun.
  assert (K : forall b, ht (fun s => st nf s /\ boxed x all s /\ forall i, 1 <= i <= n -> exists v, box i v /\
      mm s (at1 b i) = Some (match c_scl ctx with None => v | Some _ => nmul (sc i) v end))
      (bind (objfun ctx b) (fun f => ret (nmul f (c_sgn ctx)))) (fun _ => sx (nf + 1))).
  { intros b. eapply ht_bind; [apply (ht_objfun nf b (boxed x all) Hnf)|].
    - intros s e Hs. exact Hs.
    - intros f. apply ht_ret. intros s [H1 H2]. split; auto. }
  destruct (c_scl ctx) as [scl|] eqn:Es.
  2:{ eapply ht_bind with (R := fun b s => b = a /\ st nf s /\ boxed a all s /\ boxed x all s).
      - apply ht_ret. auto.
      - intros b. apply ht_ctx. intros ->. eapply ht_weak; [apply K| |auto].
        intros s (H1 & H2 & H3). split; [auto|]. split; [auto|]. intros i Hi. destruct (H2 i Hi Logic.I) as [v [E1 B]].
        exists v. auto. }
  assert (Hws : forall i j, 1 <= i <= n -> 0 <= j < n -> at1 a i <> c_ws ctx + j).
  { intros i j Hi Hj Eq. destruct (Hscl j Hj) as (_ & _ & Nw & _ & _ & Nx). destruct (Ha i Hi) as [_ [Wa| ->]].
    - apply Nw. rewrite <- Eq. exact Wa.
    - exact (Nx i Hi Eq). }
  eapply ht_bind with (R := fun b s => b = c_ws ctx /\ st nf s /\ boxed x all s /\
    forall i, 1 <= i <= n -> exists v, box i v /\ mm s (at1 (c_ws ctx) i) = Some (nmul (sc i) v)).
  2:{ intros b. apply ht_ctx. intros ->. apply K. }
  eapply ht_bind with (R := fun _ s => st nf s /\ boxed x all s /\
    forall i, 1 <= i < c_n ctx - 1 + 1 + 1 -> exists v, box i v /\ mm s (at1 (c_ws ctx) i) = Some (nmul (sc i) v)).
  2:{ intros _. apply ht_ret. intros s (H1 & H2 & H3). rewrite Hcn in H3. repeat split; auto; try apply H1.
      intros i Hi. apply H3. lia. }
  unfold scale.
  destruct (Z_le_gt_dec 0 n) as [Hn|Hn].
  2:{ intros s (H1 & H2 & H3). unfold loop. rewrite Hcn. replace (Z.to_nat (n - 1 - 0 + 1)) with 0%nat by lia. cbn [loopn ret].
      repeat split; auto; try apply H1. lia. }
  eapply ht_weak.
  - apply (ht_loopJ (fun i (_ : unit) s => (st nf s /\ boxed a all s /\ boxed x all s) /\
      forall j, 1 <= j < i + 1 -> exists v, box j v /\ mm s (at1 (c_ws ctx) j) = Some (nmul (sc j) v)) 0 (c_n ctx - 1)); [lia|].
    intros i [] Hi s ((Hs & H1 & H2) & H3). rewrite Hcn in Hi.
    destruct (Hscl i) as (Ci & Ri & Nw & Cn & Oc & Nx); [lia|].
    destruct Hs as (G & G1 & G2 & G3 & G4).
    destruct (H1 (i + 1)) as [v [Ev Bv]]; [lia|exact Logic.I|].
    assert (Ev' : mm s (a + i) = Some v) by (rewrite <- Ev; f_equal; unfold at1; lia).
    unfold assign, lift2, bind, ld. rewrite (proj2 G _ _ Ci). rewrite Ev'. cbn [ret].
    unfold sto. destruct (proj1 G _ Ri) as [u Eu]. rewrite Eu.
    assert (Bx : forall b, (forall j, 1 <= j <= n -> at1 b j <> c_ws ctx + i) -> boxed b all s -> boxed b all
      (mkmst (fun b0 => if b0 =? c_ws ctx + i then Some (nmul (sc (i + 1)) v) else mm s b0) (evs s))).
    { intros b Hb Hbs j Hj _. cbn. destruct (Z.eqb_spec (at1 b j) (c_ws ctx + i)) as [e|]; [destruct (Hb j Hj e)|].
      exact (Hbs j Hj Logic.I). }
    split; [split; [|split]|].
    + destruct G as [Ga Gb]. split; [split; cbn|].
      * intros b Hb. destruct (Z.eqb_spec b (c_ws ctx + i)); eauto.
      * intros b w Hb. destruct (Z.eqb_spec b (c_ws ctx + i)) as [->|]; [congruence|auto].
      * repeat split; auto. intros b Hb. cbn. destruct (Z.eqb_spec b (c_ws ctx + i)) as [->|]; [contradiction|auto].
    + apply Bx; [|exact H1]. intros j Hj. apply Hws; lia.
    + apply Bx; [|exact H2]. intros j Hj. apply Nx; lia.
    + intros j Hj. cbn. destruct (Z.eqb_spec (at1 (c_ws ctx) j) (c_ws ctx + i)) as [e|e].
      * assert (j = i + 1) by (unfold at1 in e; lia). subst j. eauto.
      * apply H3. unfold at1 in e. lia.
  - intros s (H1 & H2 & H3). split; [auto|]. intros j Hj. lia.
  - intros _ s ((H1 & H2 & H3) & H4). auto.
Qed.
End Eval.
