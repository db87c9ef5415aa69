(** * NEWUOA: what the status of success means

    An invariant on the variables alone, for any arithmetic: the label [done] is reached with the status of success only when RHO
    is not more than RHOEND. *)
From Coq Require Import ZArith List Bool Lia.
From Verif Require Import Num BqLang BqModel BqWp BqPc NwModel NwSpec.
Import ListNotations.
Local Open Scope Z_scope.

Section End.
Context {N : Num} (ncos nsin : N -> N).
Notation mst := (mst N).
Notation prog := (prog N).
Notation nvars := (nvars (N := N)).

Lemma wp_true {A} (p : prog A) s (Q : A -> mst -> Prop) : (forall a s', Q a s') -> wp p s Q.
Proof. intros H a s' _. apply H. Qed.
Lemma wp_skip {A B} (p : prog A) (q : A -> prog B) s Q : (forall a s', wp (q a) s' Q) -> wp (bind p q) s Q.
Proof. intros H. apply wp_bind, wp_true, H. Qed.
Lemma wp_machine {L B} (J : L -> Prop) (step : L -> prog (L + B)) (Q : B -> mst -> Prop) :
  (forall l s, J l -> wp (step l) s (fun r s' => match r with inl l => J l | inr b => Q b s' end)) ->
  forall fuel l s, J l -> wp (machine fuel step l) s Q.
Proof.
  intros H. induction fuel as [|k IH]; intros l s Hl; cbn [machine]; [intros a s' E; discriminate E|].
  apply wp_bind. eapply wp_weak; [apply H, Hl|]. intros [l'|b] s' K; [apply IH, K|apply wp_ret, K].
Qed.

Variables (n npt x : Z) (rhobeg rhoend : N) (maxfun w : Z).

(** The end of the iterations *)
Definition nover (v : nvars) : Prop := nlt rhoend (v_rho v) = false.
Definition nlast (v : nvars) : Prop := npt < v_nf v -> v_knew v = -1 -> nover v.
Definition ninv2 (l : nlabel * nvars) : Prop :=
  let v := snd l in
  match fst l with
  | N290 => npt <= v_nf v -> v_knew v = -1 -> nover v
  | N310 | Neval | Nnew => nlast v
  | N50 => v_nf v < npt
  | N70 => v_nf v <= npt
  | N90 | N100 | N460 | N490 => npt <= v_nf v
  | N120 => npt <= v_nf v /\ v_knew v <> -1
  | Ndone => v_status v <> NW_ITERATE /\ (v_status v = NW_SUCCESS -> nover v)
  end.

Section Step.
Context {B : Type}.
Variables (xbase xopt xnew xpt fval gq hq pq bmat zmat d vlag wa : Z).
Variables (ev : nvars -> prog (nlabel * nvars + B)) (fin : nvars -> prog B) (Q : B -> mst -> Prop).
Notation post := (fun (r : nlabel * nvars + B) s' => match r with inl l => ninv2 l | inr b => Q b s' end).
Hypothesis Hev : forall v s, nlast v -> wp (ev v) s post.
Hypothesis Hfin : forall v s, v_status v <> NW_ITERATE /\ (v_status v = NW_SUCCESS -> nover v) -> wp (fin v) s Q.

Local Ltac goto := apply wp_ret; unfold ninv2, nlast, nover; cbn [fst snd]; cbn; auto; try discriminate; try lia; try (split; [discriminate|auto; try discriminate]).

Lemma nw_410_end fsave v s : npt <= v_nf v ->
  wp (nw_410 (B := B) n npt xnew xpt fval gq hq pq bmat zmat vlag wa fsave v) s post.
Proof.
  intros H. unfold nw_410. cbv zeta.
  do 7 (apply wp_skip; intros).
  match goal with |- wp (if ?b then _ else _) _ _ => destruct b end; goto; destruct (nlt (v_f v) fsave); exact H.
Qed.

Lemma nw_step_end fi l s : ninv2 l ->
  wp (nw_step (B := B) ncos nsin n npt x rhobeg rhoend maxfun xbase xopt xnew xpt fval gq hq pq bmat zmat d vlag wa ev fin fi l) s post.
Proof.
  destruct l as [l v]. intros H. unfold nw_step. cbn [fst snd]. destruct l; unfold ninv2 in H; cbn [fst snd] in H.
  - unfold nw_50. cbv zeta. apply wp_bind.
    apply wp_weak with (fun v' _ => v_nf v' = v_nf v + 1).
    { destruct (_ <=? _); [apply wp_skip; intros; apply wp_ret; reflexivity|].
      match goal with |- wp (let '(_, _) := ?e in _) _ _ => destruct e as [ipt jpt] end.
      do 4 (apply wp_skip; intros). apply wp_ret. reflexivity. }
    intros v' s' E. apply wp_skip; intros. goto.
  - unfold nw_70. cbv zeta. apply wp_skip; intros _ s1. apply wp_bind.
    match goal with |- wp (if _ then (bind _ (fun _ => ret ?w)) else _) _ _ => set (v1 := w) end.
    assert (E1 : v_nf v1 = v_nf v) by (unfold v1; destruct (_ =? _); [|destruct (nlt _ _)]; reflexivity). clearbody v1.
    apply wp_weak with (fun v' _ => v_nf v' = v_nf v).
    { destruct (_ <=? _); [apply wp_skip; intros; apply wp_ret; exact E1|].
      do 5 (apply wp_skip; intros). apply wp_ret. exact E1. }
    intros v' s' E. destruct (Z.ltb_spec (v_nf v) npt); [goto|]. apply wp_skip; intros. goto.
  - goto.
  - unfold nw_100. do 2 (apply wp_skip; intros). cbv zeta.
    repeat match goal with |- wp (if ?b then _ else _) _ _ => destruct b end; goto.
  - unfold nw_120. cbv zeta. do 4 (apply wp_skip; intros). goto.
  - unfold nw_290. apply wp_skip; intros. goto. intros. apply H; [lia|assumption].
  - unfold nw_310. destruct (_ <? _); goto.
  - apply Hev, H.
  - unfold nw_new. destruct (Z.leb_spec (v_nf v) npt); [goto|].
    destruct (Z.eqb_spec (v_knew v) (-1)) as [K|K]; [apply wp_ret; split; [discriminate|intros _; apply H; assumption]|]. cbv zeta.
    apply wp_skip; intros vquad s1. apply wp_skip; intros diff s2.
    match goal with |- wp (bind (if _ then _ else ret ?w) _) _ _ => set (v1 := w) end.
    assert (E1 : v_nf v1 = v_nf v) by (unfold v1; destruct (nlt _ _); reflexivity). clearbody v1.
    apply wp_bind. apply wp_weak with (fun v' _ => v_nf v' = v_nf v).
    { destruct (nlt _ _); [apply wp_skip; intros|]; apply wp_ret; exact E1. }
    intros v2 s3 E2.
    destruct (_ <? _); [apply nw_410_end; cbn; lia|]. destruct (nle _ _); [goto|].
    apply wp_skip; intros knew s4. destruct (_ =? _); [goto|apply nw_410_end; cbn; lia].
  - unfold nw_460. apply wp_skip; intros distsq s1. apply wp_skip; intros [ds knew] s2.
    destruct (Z.ltb_spec 0 knew); [goto|]. destruct (_ || _)%bool; goto.
  - unfold nw_490. destruct (nlt rhoend (v_rho v)) eqn:E; [goto|]. destruct (_ =? _); goto.
  - apply wp_bind. apply wp_weak with (fun v' _ => v_status v' = v_status v /\ v_rho v' = v_rho v).
    { unfold nw_done. destruct (nle _ _); [apply wp_skip; intros|]; apply wp_ret; split; reflexivity. }
    intros v' s' [E1 E2]. apply wp_bind. eapply wp_weak; [apply Hfin; unfold nover; rewrite E1, E2; exact H|].
    intros b s'' HQ. apply wp_ret, HQ.
Qed.
End Step.

Lemma nw_run_end {B} (ev : nvars -> prog (nlabel * nvars + B)) fin (Q : B -> mst -> Prop) fi fuel l s :
  (forall v s, nlast v -> wp (ev v) s (fun r s' => match r with inl l => ninv2 l | inr b => Q b s' end)) ->
  (forall v s, v_status v <> NW_ITERATE /\ (v_status v = NW_SUCCESS -> nover v) -> wp (fin v) s Q) ->
  ninv2 l -> wp (nw_run ncos nsin n npt x rhobeg rhoend maxfun w ev fin fi fuel l) s Q.
Proof. intros H1 H2 Hl. unfold nw_run. apply wp_machine with ninv2; [|exact Hl]. intros l' s' H. apply nw_step_end; auto. Qed.
End End.

(** The contexts of the reverse communication version *)
Section Context.
Context {N : Num} (ncos nsin : N -> N).
Notation mst := (mst N).
Definition nsucc (c : ncontext (N := N)) : Prop :=
  (v_status (k_v c) = NW_ITERATE -> 1 <= k_nevals c -> nlast (k_npt c) (k_rhoend c) (k_v c)) /\
  (v_status (k_v c) = NW_SUCCESS -> nover (k_rhoend c) (k_v c)) /\ 1 <= k_npt c.

Lemma iterate_succ c f x fi fuel s : nsucc c -> wp (newuoa_iterate ncos nsin c f x fi fuel) s (fun c' _ => nsucc c').
Proof.
  intros (H1 & H2 & H3). unfold newuoa_iterate. destruct x as [x|]; [|apply wp_ret; repeat split; try discriminate; assumption].
  destruct (k_status c) eqn:ES; try (apply wp_ret; repeat split; try discriminate; assumption).
  cbv zeta.
  assert (K : forall l s', ninv2 (k_npt c) (k_rhoend c) l ->
    wp (bind (nw_run ncos nsin (k_n c) (k_npt c) x (k_rhobeg c) (k_rhoend c) (k_maxfun c) (k_w c) nw_request (fun v => ret v) fi fuel l)
      (fun v => ret (k_set c v (k_nevals c + 1)))) s' (fun c' _ => nsucc c')).
  { intros l s' Hl. apply wp_bind.
    apply wp_weak with (fun v _ => nsucc (k_set c v (k_nevals c + 1))); [|intros v s2 Hv; apply wp_ret, Hv].
    apply nw_run_end; [| |exact Hl].
    - intros v s2 Hv. unfold nw_request. destruct (v_status v) eqn:Ev; apply wp_ret;
        try (repeat split; [intros _ _; exact Hv|discriminate|assumption]). exact Hv.
    - intros v s2 [Hv1 Hv2]. apply wp_ret. split; [|split; [exact Hv2|exact H3]]. intros E. contradiction. }
  destruct (Z.ltb_spec 1 (k_nevals c + 1)).
  - apply K. unfold ninv2. cbn [fst snd]. apply H1; [exact ES|lia].
  - destruct (Z.eqb_spec (k_nevals c + 1) 1); cbn [negb]; [|apply wp_ret; repeat split; try discriminate; assumption].
    apply wp_bind. apply wp_weak with (fun v _ => v_nf v = 0); [|intros v s' E; apply K; unfold ninv2; cbn [fst snd]; lia].
    unfold nw_begin, nw_start. do 3 (apply wp_skip; intros). apply wp_ret. reflexivity.
Qed.

Lemma create_succ n npt rhobeg rhoend maxfun a s c s' :
  newuoa_create n npt rhobeg rhoend maxfun a s = Ret (Some c) s' -> nsucc c.
Proof.
  unfold newuoa_create. destruct (Z.ltb_spec n 0); [discriminate|].
  destruct ((npt <? n + 2) || _)%bool eqn:E; [discriminate|]. apply orb_false_iff in E. destruct E as [E _]. apply Z.ltb_ge in E.
  destruct (_ || _)%bool; [discriminate|]. destruct (_ <? _); [discriminate|]. destruct a as [a|]; [|discriminate].
  unfold bind. destruct (loop _ _ _ _ _); intros K; try discriminate. injection K as <- _.
  split; [cbn; lia|]. split; [discriminate|cbn; lia].
Qed.

Lemma reach_succ c s : reach ncos nsin c s -> nsucc c.
Proof.
  induction 1 as [n npt rhobeg rhoend maxfun a s c s' C E|c f x fi fuel s c' s' R IH C A E|c f fi fuel s c' s' R IH E|c s R IH|c s s' R IH C].
  - eapply create_succ, E.
  - exact (iterate_succ c f (Some x) fi fuel s IH c' s' E).
  - exact (iterate_succ c f None fi fuel s IH c' s' E).
  - destruct IH as (_ & _ & IH). split; [cbn; lia|]. split; [discriminate|exact IH].
  - exact IH.
Qed.
End Context.
