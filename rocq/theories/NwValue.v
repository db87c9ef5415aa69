(** * The best value found by newuoa, in any arithmetic with ordered values *)
From Coq Require Import ZArith Reals List Bool Lia Lra.
From Flocq Require Import Core.
From Verif Require Import Num NumFacts BqLang BqModel BqWp BqSafe BqSpec BqTop BqStart BqPc NwModel NwMain NwSpec NwTop NwBest.
Import ListNotations.
Local Open Scope Z_scope.

Section Value.
Context {N : Num} (OL : OrdLaws N).
Notation mst := (mst N).
Notation nvars := (nvars (N := N)).
Variables (ncos nsin : N -> N).
Variables (n npt : Z) (maximize : bool) (fn : list (list N * N) -> list N -> N) (x : Z) (scl : option Z) (rhobeg rhoend : N).
Variables (maxfun work : Z) (s0 : mst).
Hypothesis HL : nlayout n npt x scl work s0.
Hypothesis He : evs s0 = [].

(** The values as seen by newuoa; [vmin g l]: [g] is one of the values of the calls [l], no other one is less *)
Definition nval (e : list N * N) : N := if maximize then nopp (snd e) else snd e.
Definition vmin (g : N) (l : list (list N * N)) : Prop :=
  (exists e, In e l /\ nval e = g) /\ forall e, In e l -> nlt (nval e) g = false.
Definition vok (l : list (list N * N)) : Prop := forall e, In e l -> neq (nval e) (nval e) = true.

Lemma neq_key g : neq g g = true -> exists r, key OL g = Some r.
Proof. rewrite (key_eq _ OL). destruct (key OL g); [eauto|discriminate]. Qed.
Lemma vmin_one e : vmin (nval e) [e].
Proof.
  split; [exists e; split; [left; reflexivity|reflexivity]|]. intros u [<-|[]]. rewrite (key_lt _ OL).
  destruct (key OL (nval e)); [|reflexivity]. apply Rlt_bool_false. lra.
Qed.
Lemma vmin_cons g l e : vmin g l -> nlt (nval e) g = false -> vmin g (e :: l).
Proof. intros [(u & A1 & A2) B] K. split; [exists u; split; [right; exact A1|exact A2]|]. intros u' [<-|Hu]; auto. Qed.
Lemma vmin_new g l e : vok (e :: l) -> vmin g l -> nlt (nval e) g = true -> vmin (nval e) (e :: l).
Proof.
  intros V [(u & A1 & A2) B] K. split; [exists e; split; [left; reflexivity|reflexivity]|]. intros u' [<-|Hu].
  - rewrite (key_lt _ OL). destruct (key OL (nval e)); [|reflexivity]. apply Rlt_bool_false. lra.
  - specialize (B u' Hu). rewrite (key_lt _ OL) in *. destruct (neq_key _ (V u' (or_intror Hu))) as [r Er]. rewrite Er in *.
    destruct (key OL (nval e)) as [a|]; [|reflexivity]. destruct (key OL g) as [b|]; [|discriminate].
    destruct (Rlt_bool_spec a b) as [Q|Q]; [|discriminate]. destruct (Rlt_bool_spec r b) as [P|P]; [discriminate|].
    apply Rlt_bool_false. lra.
Qed.
Lemma vmin_key g l : vok l -> vmin g l -> exists r, key OL g = Some r.
Proof. intros V [(u & A1 & A2) _]. destruct (neq_key _ (V u A1)) as [r Er]. rewrite A2 in Er. eauto. Qed.
Lemma nle_lt a b ra rb : key OL a = Some ra -> key OL b = Some rb -> nle a b = negb (nlt b a).
Proof.
  intros Ea Eb. rewrite (key_le _ OL), (key_lt _ OL), Ea, Eb. destruct (Rlt_bool_spec rb ra) as [Q|Q]; cbn [negb].
  - apply Rle_bool_false. lra.
  - apply Rle_bool_true. lra.
Qed.
Lemma nle_refl_key a r : key OL a = Some r -> nle a a = true.
Proof. intros Ea. rewrite (key_le _ OL), Ea. apply Rle_bool_true. lra. Qed.

Definition vnewest (v : nvars) (l : list (list N * N)) : Prop :=
  exists e l', l = e :: l' /\ v_f v = nval e /\ (2 <= v_nf v -> vmin (v_fopt v) l').
(** What is known at a label if no value is a NaN *)
Definition vlab (l : nlabel) (v : nvars) (evs : list (list N * N)) : Prop :=
  match l with
  | N50 => 1 <= v_nf v -> vmin (v_fopt v) evs /\ nle (v_fopt v) (v_f v) = true
  | N310 => 2 <= v_nf v -> vmin (v_fopt v) evs /\ nle (v_fopt v) (v_f v) = true
  | Neval => 2 <= v_nf v -> vmin (v_fopt v) evs
  | N70 | Nnew => vnewest v evs
  | Ndone => (vmin (v_fopt v) evs /\ nle (v_fopt v) (v_f v) = true) \/ (vmin (v_f v) evs /\ nle (v_fopt v) (v_f v) = false)
  | _ => vmin (v_fopt v) evs /\ nle (v_fopt v) (v_f v) = true
  end.
Definition vinv (l : nlabel * nvars) (s : mst) : Prop := vok (evs s) -> vlab (fst l) (snd l) (evs s).
Definition vres (s : mst) : Prop := vok (evs s) -> exists g, vmin g (evs s) /\ mm s work = Some (if maximize then nopp g else g).

Notation calm := (fun (v : nvars) (r : nlabel * nvars + nstatus) =>
  match r with
  | inl (l, v') => match l with N50 | N70 | N310 | Neval | Nnew => False | _ => v_fopt v' = v_fopt v /\ v_f v' = v_f v end
  | inr _ => False
  end).
Notation post := (fun evs0 (r : nlabel * nvars + nstatus) (_ : mst) => match r with inl l => vlab (fst l) (snd l) evs0 | inr _ => False end).
Lemma calm_post v r evs0 s : calm v r -> vmin (v_fopt v) evs0 -> nle (v_fopt v) (v_f v) = true -> post evs0 r s.
Proof.
  destruct r as [[l v']|]; [|contradiction]. intros K H1 H2. cbn [fst snd]. destruct l; try contradiction; destruct K as [E1 E2];
    unfold vlab; rewrite E1, E2; auto.
Qed.
Ltac wq := repeat first
  [ apply wp_ret | apply wp_bindT; intros ? ?
  | match goal with |- wp (if ?b then _ else _) _ _ => destruct b
    | |- wp (let '(_, _) := ?p in _) _ _ => destruct p
    | |- wp (ngoto _ _) _ _ => apply wp_ret
    | |- wp (nfail _ _) _ _ => apply wp_ret end ].
Ltac cq := cbv beta; unfold ngoto, nfail; nvr; auto.

Notation step scl' fi := (nw_step ncos nsin n npt x rhobeg rhoend maxfun work (o_xopt n npt work) (o_xnew n npt work) (o_xpt n npt work)
  (o_fval n npt work) (o_gq n npt work) (o_hq n npt work) (o_pq n npt work) (o_bmat n npt work) (o_zmat n npt work) (o_d n npt work)
  (o_vlag n npt work) (o_w n npt work) (nw_call n npt maximize fn x work scl') (nw_end n maximize x work scl') fi).

Section Run.
Hypothesis (Hn : 2 <= n) (Hnpt : n + 2 <= npt <= (n + 1) * (n + 2) / 2).
Variable scl' : option Z.
Hypothesis Hscl' : scl' = None \/ scl' = scl.

(** The labels where the objective function is not called *)
Lemma vstep fi l v s c : fst (l, v) <> Neval -> fst (l, v) <> Ndone -> ninv n npt maxfun c NW_ITERATE (l, v) ->
  c = Z.of_nat (length (evs s)) -> vok (evs s) -> vlab l v (evs s) -> wp (step scl' fi (l, v)) s (post (evs s)).
Proof.
  intros N1 N2 H Hc V HV. cbn [fst] in N1, N2. unfold nw_step. cbn [fst snd]. unfold vlab in HV.
  destruct l; try congruence.
  - (* N50 *) assert (K : wp (nw_50 (B := nstatus) n npt x rhobeg work (o_xpt n npt work) (o_fval n npt work) v) s
      (fun r _ => exists v', r = inl (N310, v') /\ v_nf v' = v_nf v + 1 /\ v_fopt v' = v_fopt v /\ v_f v' = v_f v)).
    { unfold nw_50. cbv zeta. apply wp_bind.
      eapply wp_weak with (P := fun v' _ => v_nf v' = v_nf v + 1 /\ v_fopt v' = v_fopt v /\ v_f v' = v_f v).
      - wq; nvr; auto.
      - intros v' t K. wq. exists v'. auto. }
    eapply wp_weak; [exact K|]. intros r t (v' & -> & E1 & E2 & E3). cbn [fst snd]. unfold vlab. rewrite E1, E2, E3. intros. apply HV. lia.
  - (* N70 *) destruct HV as (e & l' & E1 & E2 & E3). unfold ninv, nlab, ncnt, init_ok in H. cbn [fst snd] in H.
    set (v1 := if v_nf v =? 1 then s_fbeg (v_f v) (s_fopt (v_f v) (s_kopt 1 v))
      else if nlt (v_f v) (v_fopt v) then s_fopt (v_f v) (s_kopt (v_nf v) v) else v).
    assert (K1 : vmin (v_fopt v1) (evs s) /\ nle (v_fopt v1) (v_f v1) = true /\ v_nf v1 = v_nf v).
    { destruct (neq_key (v_f v)) as [r Er]; [rewrite E2; apply V; rewrite E1; left; reflexivity|].
      rewrite E1. unfold v1. destruct (Z.eqb_spec (v_nf v) 1) as [L|L]; [|destruct (nlt (v_f v) (v_fopt v)) eqn:Lt]; nvr.
      - assert (l' = []) as -> by (destruct l'; [reflexivity|]; rewrite E1 in Hc; cbn [length] in Hc; lia).
        rewrite E2. split; [apply vmin_one|]. split; [|reflexivity]. rewrite <- E2. eapply nle_refl_key; eauto.
      - split; [|split; [eapply nle_refl_key; eauto|reflexivity]]. rewrite E2. rewrite E1 in V. eapply vmin_new; [exact V|apply E3; lia|].
        rewrite <- E2. exact Lt.
      - specialize (E3 ltac:(lia)). split; [apply vmin_cons; [exact E3|rewrite <- E2; exact Lt]|]. split; [|reflexivity].
        destruct (vmin_key _ l' ltac:(intros u Hu; apply V; rewrite E1; right; exact Hu) E3) as [r' Er'].
        rewrite (nle_lt _ _ _ _ Er' Er), Lt. reflexivity. }
    unfold nw_70. cbv zeta. fold v1. clearbody v1. destruct K1 as (K1 & K2 & K3). apply wp_bindT. intros _ t0. apply wp_bind.
    eapply wp_weak with (P := fun v' _ => v_nf v' = v_nf v1 /\ v_f v' = v_f v1 /\ v_fopt v' = v_fopt v1).
    { wq; nvr; auto. }
    intros v' t (D1 & D2 & D3). wq; nvr; unfold vlab; nvr; rewrite D2, D3; auto.
  - (* N90 *) wq. exact HV.
  - eapply wp_weak with (P := fun r _ => calm v r); [unfold nw_100; wq; cq|]. intros r t K. apply (calm_post v r (evs s) t K); apply HV.
  - eapply wp_weak with (P := fun r _ => calm v r); [unfold nw_120; wq; cq|]. intros r t K. apply (calm_post v r (evs s) t K); apply HV.
  - (* N290 *) unfold nw_290. wq. nvr. unfold vlab. nvr. intros _. exact HV.
  - (* N310 *) unfold nw_310, nfail, ngoto.
    unfold ninv, nlab, init_ok, main_ok, base_ok in H. cbn [fst snd] in H.
    destruct (Z.ltb_spec (Z.max maxfun 1) (v_nf v)); apply wp_ret; nvr; unfold vlab; nvr.
    + left. apply HV. lia.
    + intros H2. apply HV, H2.
  - (* Nnew *) unfold nw_new. cbv zeta. destruct (Z.leb_spec (v_nf v) npt) as [L|L]; [wq; exact HV|].
    destruct HV as (e & l' & E1 & E2 & E3). specialize (E3 ltac:(lia)).
    destruct (neq_key (v_f v)) as [r Er]; [rewrite E2; apply V; rewrite E1; left; reflexivity|].
    destruct (vmin_key _ l' ltac:(intros u Hu; apply V; rewrite E1; right; exact Hu) E3) as [r' Er'].
    assert (M : if nlt (v_f v) (v_fopt v) then vmin (v_f v) (evs s) /\ nle (v_fopt v) (v_f v) = false
                else vmin (v_fopt v) (evs s) /\ nle (v_fopt v) (v_f v) = true).
    { rewrite (nle_lt _ _ _ _ Er' Er). rewrite E1 in V. rewrite E1. destruct (nlt (v_f v) (v_fopt v)) eqn:Lt; cbn [negb]; (split; [|reflexivity]).
      - rewrite E2. eapply vmin_new; [exact V|exact E3|rewrite <- E2; exact Lt].
      - apply vmin_cons; [exact E3|rewrite <- E2; exact Lt]. }
    destruct (Z.eqb_spec (v_knew v) (-1)) as [K|K].
    { wq. nvr. unfold vlab; nvr. destruct (nlt (v_f v) (v_fopt v)); [right|left]; exact M. }
    apply wp_bindT; intros vquad s1. apply wp_bindT; intros diff s2.
    match goal with |- context [if nlt (v_rho ?a) (v_dnorm ?b) then ?c else ?e] =>
      set (v1 := if nlt (v_rho a) (v_dnorm b) then c else e) end.
    assert (I1 : v_fopt v1 = v_fopt v /\ v_f v1 = v_f v) by (unfold v1; destruct (nlt (v_rho _) _); nvr; auto).
    clearbody v1. destruct I1 as (I1 & I2). rewrite I1.
    apply wp_bind. eapply wp_weak with (P := fun v2 _ => vmin (v_fopt v2) (evs s) /\ nle (v_fopt v2) (v_f v2) = true).
    { destruct (nlt (v_f v) (v_fopt v)); [|wq; rewrite I1, I2; exact M]. wq. nvr. rewrite I2. split; [apply M|].
      eapply nle_refl_key; eauto. }
    intros v2 s3 [M1 M2]. eapply wp_weak with (P := fun r _ => calm v2 r).
    + wq; cbv zeta; wq; repeat match goal with |- context [if nlt ?a ?b then _ else _] => destruct (nlt a b) end; wq; cq.
    + intros rr t KK. apply (calm_post v2 rr (evs s) t KK M1 M2).
  - eapply wp_weak with (P := fun r _ => calm v r); [unfold nw_460; wq; cq|]. intros r t K. apply (calm_post v r (evs s) t K); apply HV.
  - eapply wp_weak with (P := fun r _ => calm v r); [|intros r t K; apply (calm_post v r (evs s) t K); apply HV].
    unfold nw_490. cbv zeta. wq; cq.
Qed.

Lemma vok_tl e l : vok (e :: l) -> vok l.
Proof. intros V u Hu. apply V. right. exact Hu. Qed.
Lemma wp_evs {A} (p : prog N A) s P : safe (noutputs n npt x scl work) (nRd n npt x scl work) (fun _ => None) p P ->
  good (nRd n npt x scl work) (fun _ => None) s -> wp p s (fun _ t => evs t = evs s).
Proof. intros HS Gs. eapply wp_safe; [exact HS|exact Gs|]. intros a t _ _ F. apply F. Qed.

(** The call of the objective function adds one evaluation *)
Lemma vcall v s : vinv (Neval, v) s ->
  wp (nw_call n npt maximize fn x work scl' v) s (fun r t => match r with inl l => vinv l t | inr _ => vres t end).
Proof.
  intros HV. unfold nw_call. cbv zeta. apply wp_bind.
  eapply wp_weak with (P := fun _ t => evs t = evs s).
  - destruct scl' as [b|]; [|apply wp_ret; reflexivity]. apply wp_bind. unfold scale.
    apply (wp_loopJ (fun _ (_ : unit) t => evs t = evs s)); [lia|reflexivity| |].
    + intros i u t Hi Et. apply wp_assign, wp_lift2, wp_ld. intros. apply wp_ld. intros. exact Et.
    + intros u t Et. apply wp_ret. exact Et.
  - intros a t Et. apply wp_bind. unfold objfun. apply wp_bind.
    eapply wp_weak with (P := fun _ t => evs t = evs s).
    { cbn [c_n]. revert a t Et. induction (Z.to_nat n) as [|k IH]; intros a t Et; cbn [readn]; [apply wp_ret, Et|].
      apply wp_bind, wp_ld. intros u _. apply wp_bind. eapply wp_weak; [apply IH, Et|]. intros l t' Et'. apply wp_ret, Et'. }
    intros p t' Et' f t2 E2. cbn in E2. injection E2 as <- <-. apply wp_ret. intros V. cbn [evs fst snd] in *.
    rewrite Et' in *. exists (p, fn (evs s) p), (evs s). nvr. split; [reflexivity|]. split; [reflexivity|]. intros H2.
    apply HV; [eapply vok_tl; exact V|exact H2].
Qed.

Lemma vdone fi v s : good (nRd n npt x scl work) (fun _ => None) s -> vinv (Ndone, v) s ->
  wp (step scl' fi (Ndone, v)) s (fun r t => match r with inl l => vinv l t | inr _ => vres t end).
Proof.
  intros Gs HV. unfold nw_step. cbn [fst snd]. apply wp_bind.
  eapply wp_weak with (P := fun u t => evs t = evs s /\ v_f u = if nle (v_fopt v) (v_f v) then v_fopt v else v_f v).
  - unfold nw_done. destruct (nle (v_fopt v) (v_f v)); [|apply wp_ret; auto]. apply wp_bind. unfold LOOP_.
    apply (wp_loopJ (fun _ (_ : unit) t => evs t = evs s)); [lia|reflexivity| |].
    + intros i u t Hi Et. apply wp_assign, wp_lift2, wp_ld. intros. apply wp_ld. intros. exact Et.
    + intros u t Et. apply wp_ret. nvr. auto.
  - intros u t [Et Ef]. apply wp_bind. unfold nw_end. apply wp_bind.
    eapply wp_weak with (P := fun _ t => evs t = evs s).
    + destruct scl' as [b|]; [|apply wp_ret; exact Et].
      apply (wp_loopJ (fun _ (_ : unit) t => evs t = evs s)); [lia|exact Et| |].
      * intros i u' t' Hi Et'. apply wp_assign, wp_lift2, wp_ld. intros. apply wp_ld. intros. exact Et'.
      * intros u' t' Et'. exact Et'.
    + intros u' t' Et'. apply wp_bind, wp_assign, wp_ret, wp_ret, wp_ret. intros V. cbn [evs upd] in *. rewrite Et' in *.
      exists (v_f u). split; [|apply upd_same]. specialize (HV V). unfold vlab in HV. cbn [fst snd] in HV. rewrite Ef.
      destruct HV as [[H1 ->]|[H1 ->]]; exact H1.
Qed.

Lemma vrun s fi fuel st s' : good (nRd n npt x scl work) (fun _ => None) s -> nkeep n npt x scl maxfun work s0 s ->
  evs s = [] ->
  nw_optimize ncos nsin n npt maximize fn x rhobeg rhoend maxfun work scl' fi fuel s = Ret st s' -> vres s'.
Proof.
  intros Gs Ks Es. revert st s'.
  assert (Hn1 : 1 <= n) by lia. assert (P1 : n + 2 <= npt) by lia. assert (P2 := npt2' n npt Hnpt).
  change (wp (nw_optimize ncos nsin n npt maximize fn x rhobeg rhoend maxfun work scl' fi fuel) s (fun _ t => vres t)).
  unfold nw_optimize. apply wp_bind.
  eapply wp_safe; [apply (begin_safe (noutputs n npt x scl work) (nRd n npt x scl work) (fun _ => None) (O_Rd n npt x scl work)
    (C_O n npt x scl work)); auto; [apply O_x; auto|intros a Ha; apply (O_w n npt x scl work s0 HL Hn); auto]|exact Gs|].
  intros v s1 [V1 V2] GG1 FF1.
  assert (K1 : nkeep n npt x scl maxfun work s0 s1) by (eapply nkeep_frame; eauto).
  assert (E1 : evs s1 = []) by (rewrite (proj2 FF1); exact Es).
  unfold nw_run. apply wp_machine with (Q := fun (_ : nstatus) t => vres t) (J := fun l t => njoin n npt x scl maxfun work s0 l t /\ vinv l t).
  - split.
    + split; [exact GG1|]. split; [exact K1|]. unfold ninv, nlab, ncnt, nst, ncalls, kok. cbn [fst snd]. rewrite V1, V2, E1, He.
      split; [lia|]. split; reflexivity.
    + intros _. unfold vlab. cbn [fst snd]. lia.
  - intros l t [HJ HB].
    assert (A1 := nstep_ok ncos nsin n npt maximize fn x scl rhobeg rhoend maxfun work s0 HL Hn Hnpt scl' Hscl' fi l t HJ).
    assert (A1' : wp (step scl' fi l) t (fun r t' => match r with inl l' => njoin n npt x scl maxfun work s0 l' t' | inr _ => True end)).
    { intros r t' Er. unfold ok in A1. rewrite Er in A1. destruct r; [exact A1|exact Logic.I]. }
    assert (A2 : wp (step scl' fi l) t (fun r t' => match r with inl l => vinv l t' | inr _ => vres t' end)).
    { destruct HJ as (J1 & J2 & J3). destruct l as [l u].
      destruct (match l with Neval => true | _ => false end) eqn:EE; [|destruct (match l with Ndone => true | _ => false end) eqn:ED].
      - destruct l; try discriminate. apply vcall, HB.
      - destruct l; try discriminate. apply vdone; [exact J1|exact HB].
      - assert (N1 : fst (l, u) <> Neval) by (cbn; intros Q; rewrite Q in EE; discriminate).
        assert (N2 : fst (l, u) <> Ndone) by (cbn; intros Q; rewrite Q in ED; discriminate).
        assert (HS := step_safe ncos nsin (noutputs n npt x scl work) (nRd n npt x scl work) (fun _ => None) (O_Rd n npt x scl work)
          (C_O n npt x scl work) n npt x rhobeg rhoend maxfun work Hn1 P1 P2 (O_x n npt x scl work) (O_w n npt x scl work s0 HL Hn)
          (fun _ : nstatus => False) (nw_call n npt maximize fn x work scl') (nw_end n maximize x work scl') fi (ncalls s0 t) NW_ITERATE
          (l, u) N1 N2 J3).
        assert (W1 := wp_evs _ _ _ HS J1). intros r t' Er. assert (Et := W1 r t' Er).
        assert (NR : match r with inl _ => True | inr _ => False end).
        { assert (HS' := HS t J1). rewrite Er in HS'. destruct HS' as (HS' & _). destruct r; [exact Logic.I|exact HS']. }
        destruct r as [r|r]; [|contradiction]. intros V. rewrite Et in *.
        assert (A3 := vstep fi l u t (ncalls s0 t) N1 N2 J3). specialize (A3 ltac:(unfold ncalls; rewrite He; cbn [length]; lia) V (HB V)).
        exact (A3 _ _ Er). }
    intros r t' Er. specialize (A1' r t' Er). specialize (A2 r t' Er). destruct r; auto.
Qed.
End Run.
End Value.
