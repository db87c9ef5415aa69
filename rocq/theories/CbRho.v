(** * The radius of the trust region in COBYLA: proofs *)
From Coq Require Import ZArith List Bool Lia.
From Verif Require Import Num BqLang BqModel Yields RhoSpec CbModel CbMain.
Local Open Scope Z_scope.

Section Step.
Context {N : Num}.
Variables (n m x : Z) (rhoend : N) (maxfun : Z).
Variables (con sim simi datmat a vsig veta sigbar dx w : Z) (cc : option Z).
Context {B : Type}.
Variable Q : B -> Prop.
(** The radius at the start *)
Variable r0 : N.
Definition rok (v : cvars (N := N)) : Prop := exists k, reduced rhoend (cb_next rhoend) k r0 (c_rho v).
Definition rlab (l : clabel * cvars (N := N)) : Prop :=
  rok (snd l) /\
  match fst l with
  | C600 | Cend => c_status (snd l) = CB_SUCCESS -> nlt rhoend (c_rho (snd l)) = false
  | _ => c_status (snd l) <> CB_SUCCESS
  end.
Definition rpost (r : clabel * cvars (N := N) + B) : Prop := match r with inl l => rlab l | inr b => Q b end.

Lemma rgoto l v : rlab (l, v) -> yields (cgoto (B := B) l v) rpost.
Proof. intros H. apply y_ret, H. Qed.
Ltac rg := unfold cfail; apply rgoto; unfold rlab, rok in *; cvs; intuition (congruence || auto).
Ltac yb := repeat (apply y_bindT; intros ?).

Lemma co_call_r v : rlab (Ccall, v) -> yields (co_call maxfun (B := B) v) rpost.
Proof. intros H. unfold co_call. destruct (_ && _)%bool; rg. Qed.

Lemma co_new_r v : rlab (Cnew, v) -> yields (co_new n m x con sim simi datmat cc (B := B) v) rpost.
Proof.
  intros H. unfold co_new. cbv zeta. yb. destruct (_ =? 1); [rg|]. yb. destruct (_ <? _); [rg|].
  unfold co_initial. cbv zeta. yb. destruct (_ <=? n); yb; rg.
Qed.

Lemma co_140_r v : rlab (C140, v) -> yields (co_140 n m x con sim simi datmat a vsig veta dx w (B := B) v) rpost.
Proof.
  intros H. unfold co_140. do 3 (apply y_bindT; intros ?). destruct (nlt _ _); [rg|]. do 2 (apply y_bindT; intros ?). cbv zeta.
  destruct (_ || _)%bool; [rg|]. apply y_bindT. intros jd. unfold co_vertex. do 2 (apply y_bindT; intros ?). apply y_bindT.
  intros [[cp cm] su]. cbv zeta. yb. rg.
Qed.

Lemma co_370_r fuel v : rlab (C370, v) -> yields (co_370 n m x con sim datmat a dx w (B := B) fuel v) rpost.
Proof.
  intros H. unfold co_370. cbv zeta. do 2 (apply y_bindT; intros ?). destruct a1; [rg|]. apply y_bindT. intros ?.
  apply y_bindT. intros [rn su]. do 2 (apply y_bindT; intros ?). destruct a3; [rg|]. yb. rg.
Qed.

Lemma co_440_r v : rlab (C440, v) -> yields (co_440 n m con sim simi datmat vsig veta sigbar dx (B := B) v) rpost.
Proof.
  intros H. unfold co_440. cbv zeta. do 3 (apply y_bindT; intros ?).
  assert (K : forall b : bool, rlab (C440, if b then p_prerem (c_prerec v) v else v)) by (intros [|]; exact H).
  match goal with |- context [if ?b then p_prerem _ _ else _] => specialize (K b); set (v1 := if b then _ else _) in * end.
  clearbody v1. clear H. destruct (_ =? 0); [rg|]. yb. destruct (_ && _)%bool; rg.
Qed.

Lemma co_550_r v : rlab (C550, v) -> yields (co_550 n m rhoend datmat (B := B) v) rpost.
Proof.
  intros H. unfold co_550. destruct (_ =? 0); [rg|]. destruct (nlt rhoend (c_rho v)) eqn:E.
  - cbv zeta. apply y_bindT. intros pm. apply rgoto. destruct H as [[k H] H2]. split; [|exact H2].
    exists (S k). cvs. exact (reduced_S rhoend (cb_next rhoend) k r0 (c_rho v) H E).
  - cbv zeta. destruct (_ =? 1); rg.
Qed.

Lemma co_600_r v : rlab (C600, v) -> yields (co_600 n m x sim datmat (B := B) v) rpost.
Proof. intros H. unfold co_600. yb. rg. Qed.

Lemma co_step_r (ev : cvars (N := N) -> prog N (clabel * cvars (N := N) + B)) fin fuel l :
  (forall v, rlab (Ceval, v) -> yields (ev v) rpost) -> (forall v, rlab (Cend, v) -> yields (fin v) Q) -> rlab l ->
  yields (co_step n m x rhoend maxfun con sim simi datmat a vsig veta sigbar dx w cc (B := B) ev fin fuel l) rpost.
Proof.
  intros He Hf H. destruct l as [l v]. unfold co_step. cbn [fst snd]. destruct l.
  - apply co_call_r, H.
  - apply He, H.
  - apply co_new_r, H.
  - apply co_140_r, H.
  - apply co_370_r, H.
  - apply co_440_r, H.
  - apply co_550_r, H.
  - apply co_600_r, H.
  - eapply y_bind; [apply Hf, H|]. intros r Hr. apply y_ret, Hr.
Qed.
End Step.

(** One call of cobyla_iterate *)
Section Iterate.
Context {N : Num}.
Definition rfin (rhoend r0 : N) (v : cvars (N := N)) : Prop :=
  rok rhoend r0 v /\ (c_status v = CB_SUCCESS -> nlt rhoend (c_rho v) = false).

Lemma crun_r n m x (rhoend : N) maxfun w c fi fuel r0 l : rlab rhoend r0 l ->
  yields (cb_run n m x rhoend maxfun w c cb_request (fun v => ret v) fi fuel l) (rfin rhoend r0).
Proof.
  intros H. unfold cb_run. apply y_machine with (J := rlab rhoend r0); [|exact H]. intros l' Hl.
  apply co_step_r with (Q := rfin rhoend r0); [| |exact Hl].
  - intros v [H1 H2]. cbn [fst snd] in *. unfold cb_request.
    destruct (c_status v) eqn:E; apply y_ret; cbn [rpost]; (split; [exact H1|]); cvs; congruence.
  - intros v [H1 H2]. apply y_ret. split; [exact H1|exact H2].
Qed.

Lemma citerate_r (q : ccontext (N := N)) f x c fi fuel :
  yields (cobyla_iterate q f x c fi fuel) (fun q' =>
    (q_n q' = q_n q /\ q_rhobeg q' = q_rhobeg q /\ q_rhoend q' = q_rhoend q) /\
    ((c_rho (q_v q') = c_rho (q_v q) /\ q_nevals q' = q_nevals q /\ q_status q' <> CB_SUCCESS /\ q_status q' <> CB_ITERATE) \/
     (q_status q = CB_ITERATE /\ rfin (q_rhoend q) (if q_nevals q =? 0 then q_rhobeg q else c_rho (q_v q)) (q_v q')))).
Proof.
  unfold cobyla_iterate. destruct x as [x|]; [|apply y_ret; split; [auto|left; cbn; repeat split; discriminate]].
  destruct (match c with Some c => Some c | None => if 0 <? q_m q then None else Some 0 end) as [c'|];
    [|apply y_ret; split; [auto|left; cbn; repeat split; discriminate]].
  destruct (q_status q) eqn:ES; cbn [orb]; try (apply y_ret; split; [auto|left; cbn; repeat split; discriminate]).
  destruct (q_nevals q <? 0); [apply y_ret; split; [auto|left; cbn; repeat split; discriminate]|]. cbv zeta.
  unfold q_status in ES. destruct (q_nevals q =? 0).
  - eapply y_bind with (P := fun v => c_rho v = q_rhobeg q /\ c_status v = CB_INITIAL_ITERATE).
    { unfold cb_begin, co_start. cbv zeta. apply y_bindT. intros _. apply y_ret. split; reflexivity. }
    intros v [E1 E2]. eapply y_bind; [apply crun_r with (r0 := q_rhobeg q)|].
    + split; [exists O; cbn [snd]; rewrite E1; constructor|]. cbn. rewrite E2. discriminate.
    + intros v' Hv. apply y_ret. split; [auto|]. right. split; [reflexivity|exact Hv].
  - eapply y_bind; [apply crun_r with (r0 := c_rho (q_v q))|].
    + split; [exists O; constructor|]. cbn. rewrite ES. discriminate.
    + intros v' Hv. apply y_ret. split; [auto|]. right. split; [reflexivity|exact Hv].
Qed.
End Iterate.
