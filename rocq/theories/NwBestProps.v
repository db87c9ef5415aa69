(** * C59: NEWUOA returns the best of the points it has tried (exact arithmetic)

    The theorems are about [newuoa_optimize] (NwModel.v) with the arrays described by [nlayout] (NwSpec.v).  [evs s'] is the list
    of the calls of the objective function: the point and the value returned, the last call first.  [best] and [holds_point] are
    the ones of C56 (BqBestProps.v). *)
From Coq Require Import ZArith Reals List Bool Lia Lra.
From Flocq Require Import Core.
From Verif Require Import Num BqLang BqModel BqWp BqSafe BqSpec BqTop BqStart BqPc BqBestProps NwModel NwMain NwSpec NwTop NwBest NwValue NwProps NumFacts.
Import ListNotations.
Local Open Scope Z_scope.

Section Lift.
Variables H I : R.
Notation N := (NumR H I).
Notation mst := (mst N).
Variables (ncos nsin : N -> N).
Variables (n npt : Z) (maximize : bool) (fn : list (list N * N) -> list N -> N) (x : Z) (scl : option Z) (rhobeg rhoend : N).
Variables (maxfun work : Z) (s0 : mst).
Hypothesis HL : nlayout n npt x scl work s0.
Hypothesis He : evs s0 = [].
Hypothesis Hmax : npt <= maxfun.

Lemma wp_ok {A} (E : mst -> Prop) (p : prog N A) s Q : ok E p s Q -> wp p s Q.
Proof. unfold ok, wp. intros K a s' Ea. rewrite Ea in K. exact K. Qed.

Definition outcome (s : mst) : Prop :=
  exists p f, best maximize (p, f) (evs s) /\ holds_point n x s p /\ mm s work = Some f.

Section Run.
Hypothesis (Hn : 2 <= n) (Hnpt : n + 2 <= npt <= (n + 1) * (n + 2) / 2).
Variable scl' : option Z.
Hypothesis Hscl' : scl' = None \/ scl' = scl.

Lemma optimize_best s fi fuel st s' : good (nRd n npt x scl work) (fun _ => None) s -> nkeep n npt x scl maxfun work s0 s ->
  evs s = [] ->
  nw_optimize ncos nsin n npt maximize fn x rhobeg rhoend maxfun work scl' fi fuel s = Ret st s' -> outcome s'.
Proof.
  intros Gs Ks Es. revert st s'.
  set (scaled := match scl' with None => false | Some _ => true end).
  set (sc := fun i => match scl' with None => 0%R | Some b => get H I s0 (at1 b i) end).
  set (wend := work + nw_size n npt).
  assert (Hn1 : 1 <= n) by lia. assert (P1 : n + 2 <= npt) by lia. assert (P2 := npt2' n npt Hnpt).
  destruct (area_facts n npt work Hn1 P1 P2) as (F1 & F2 & F3 & F4 & F5).
  destruct (area_eqs n npt work) as (G1 & G2 & G3 & G4 & G5 & G6 & G7 & G8 & G9 & G10 & G11 & G12).
  assert (Hd : nw_size n npt <= ndoc_size n npt scl) by (unfold ndoc_size, nw_size; destruct scl; lia).
  assert (L6 : x + n <= work \/ wend <= x) by (pose proof (nl_x_w _ _ _ _ _ _ HL) as A; unfold apart, wend in *; lia).
  assert (L9 : forall b, scl' = Some b -> (b + n <= wend \/ wend + n <= b) /\ (b + n <= x \/ x + n <= b)).
  { intros b Eb. pose proof (nl_scl_w _ _ _ _ _ _ HL) as A. destruct Hscl' as [A'|A']; [congruence|]. rewrite <- A', Eb in A.
    assert (ndoc_size n npt (Some b) = nw_size n npt + n) by (unfold ndoc_size, nw_size; lia). unfold apart, wend in *. lia. }
  assert (L8 : scl' <> None -> wend + n <= x \/ x + n <= wend).
  { intros A'. pose proof (nl_x_w _ _ _ _ _ _ HL) as A. assert (Eb : exists b, scl = Some b).
    { destruct Hscl' as [E1|E1]; [congruence|]. destruct scl as [b|]; [eauto|congruence]. }
    destruct Eb as [b Eb]. rewrite Eb in A.
    assert (ndoc_size n npt (Some b) = nw_size n npt + n) by (unfold ndoc_size, nw_size; lia). unfold apart, wend in *. lia. }
  assert (KS : forall t, nkeep n npt x scl maxfun work s0 t -> sclv H I n sc scl' t).
  { intros t [Kt _] b Eb i Hi. unfold sc. rewrite Eb. unfold get. rewrite Kt; [reflexivity|].
    destruct Hscl' as [A'|A']; [congruence|]. pose proof (nl_scl_w _ _ _ _ _ _ HL) as A. rewrite <- A', Eb in A.
    unfold noutputs. rewrite <- A', Eb. unfold apart, at1 in *. lia. }
  set (W := fun a => work <= a < wend).
  assert (HW : forall a, work <= a < work + nw_size n npt -> W a) by (intros a Ha; exact Ha).
  set (G := fun a => o_fval n npt work <= a < wend).
  assert (lowa : forall p lo hi, 1 <= lo -> o_fval n npt work <= p -> arr W p lo hi -> arr G p lo hi).
  { intros p lo hi H1 H2 H3 i Hi. specialize (H3 i Hi). unfold W, G, at1 in *. lia. }
  assert (lowm : forall p l a b, 0 <= l -> o_fval n npt work <= p -> mat W p l 1 a 1 b -> mat G p l 1 a 1 b).
  { intros p l a b H1 H2 H3 i j Hi Hj. specialize (H3 i j Hi Hj). unfold W, G, at2 in *.
    assert (0 <= (j - 1) * l) by nia. lia. }
  change (wp (nw_optimize ncos nsin n npt maximize fn x rhobeg rhoend maxfun work scl' fi fuel) s (fun _ t => outcome t)).
  unfold nw_optimize. apply wp_bind.
  eapply wp_safe; [apply (begin_safe (noutputs n npt x scl work) (nRd n npt x scl work) (fun _ => None) (O_Rd n npt x scl work)
    (C_O n npt x scl work)); auto; [apply O_x; auto|intros a Ha; apply (O_w n npt x scl work s0 HL Hn); auto]|exact Gs|].
  intros v s1 [V1 V2] GG1 FF1.
  assert (K1 : nkeep n npt x scl maxfun work s0 s1) by (eapply nkeep_frame; eauto).
  assert (E1 : evs s1 = []) by (rewrite (proj2 FF1); exact Es).
  eapply wp_weak.
  - unfold nw_run. apply wp_machine with (Q := fun (_ : nstatus) t => good (nRd n npt x scl work) (fun _ => None) t /\
        bres H I n x maximize work t)
      (J := fun l t => njoin n npt x scl maxfun work s0 l t /\
        binv H I n npt x work (o_xopt n npt work) (o_xnew n npt work) (o_xpt n npt work) maximize scaled sc l t).
    + split.
      * split; [exact GG1|]. split; [exact K1|]. unfold ninv, nlab, ncnt, nst, ncalls, kok. cbn [fst snd]. rewrite V1, V2, E1, He.
        split; [lia|]. split; reflexivity.
      * unfold binv. cbn [fst snd]. lia.
    + intros l t [HJ HB].
      assert (A1 := nstep_ok ncos nsin n npt maximize fn x scl rhobeg rhoend maxfun work s0 HL Hn Hnpt scl' Hscl' fi l t HJ).
      apply wp_ok in A1. destruct HJ as (J1 & J2 & J3).
      assert (A2 : wp (nw_step ncos nsin n npt x rhobeg rhoend maxfun work (o_xopt n npt work) (o_xnew n npt work) (o_xpt n npt work)
        (o_fval n npt work) (o_gq n npt work) (o_hq n npt work) (o_pq n npt work) (o_bmat n npt work) (o_zmat n npt work)
        (o_d n npt work) (o_vlag n npt work) (o_w n npt work)
        (nw_call n npt maximize fn x work scl') (nw_end n maximize x work scl') fi l) t
        (fun r t => match r with
           inl l' => binv H I n npt x work (o_xopt n npt work) (o_xnew n npt work) (o_xpt n npt work) maximize scaled sc l' t
           | inr _ => bres H I n x maximize work t end)).
      { eapply b_step with (Rd := nRd n npt x scl work) (wend := wend) (c := ncalls s0 t) (st := NW_ITERATE); auto; try lia.
        - apply lowa; [lia|lia|apply (A_fval W n npt work); auto].
        - apply lowa; [lia|lia|apply (A_gq W n npt work); auto].
        - apply lowa; [lia|lia|apply (A_hq W n npt work); auto].
        - apply lowa; [lia|lia|apply (A_pq W n npt work); auto].
        - apply lowm; [lia|lia|apply (A_bmat W n npt work); auto].
        - apply lowm; [lia|lia|apply (A_zmat W n npt work); auto].
        - apply lowa; [lia|lia|apply (A_d W n npt work); auto].
        - apply lowa; [lia|lia|apply (A_vlag W n npt work); auto].
        - apply lowa; [lia|lia|apply (A_w W n npt work); auto].
        - intros a Ha. apply O_Rd, (O_w n npt x scl work s0 HL Hn). exact Ha.
        - intros a Ha. apply O_Rd, O_x. exact Ha.
        - unfold ncalls. rewrite He. cbn [length]. lia. }
      eapply wp_weak; [apply (wp_and _ _ _ _ A1 A2)|]. cbv beta. intros [r|r] t' [B1 B2]; [split; assumption|].
      destruct B1 as (_ & B1 & _). split; assumption.
  - cbv beta. intros st t [Gt (e & D1 & D2 & D3)]. destruct e as [p f]. exists p, f. cbn [fst snd] in *. split; [|split].
    + destruct D1 as [D1 D1']. split; [exact D1|]. intros e' He'. specialize (D1' e' He'). unfold val in D1'. cbn [snd] in *.
      unfold better. destruct maximize; cbn [num NumR] in *; lra.
    + intros i Hi. exists (get H I t (at1 x i)). split; [apply D2, Hi|]. destruct (proj1 Gt (at1 x i)) as [u Eu].
      * left. left. unfold at1. lia.
      * unfold get. rewrite Eu. reflexivity.
    + exact D3.
Qed.
End Run.
End Lift.

(** The cases of [newuoa_optimize]: what holds after [nw_optimize] holds after it if it is not refused *)
Lemma optimize_cases {N : Num} (ncos nsin : N -> N) n npt maximize fn x scl (rhobeg rhoend : N) maxfun work s0 (P : mst N -> Prop) fi fuel st s' :
  nlayout n npt x scl work s0 -> evs s0 = [] ->
  (forall scl' s, 2 <= n -> n + 2 <= npt <= (n + 1) * (n + 2) / 2 -> scl' = None \/ scl' = scl ->
     good (nRd n npt x scl work) (fun _ => None) s -> nkeep n npt x scl maxfun work s0 s -> evs s = [] ->
     forall st s', nw_optimize ncos nsin n npt maximize fn x rhobeg rhoend maxfun work scl' fi fuel s = Ret st s' -> P s') ->
  newuoa_optimize ncos nsin n npt maximize fn x scl rhobeg rhoend maxfun work fi fuel s0 = Ret st s' ->
  nstop st -> P s'.
Proof.
  intros HL He HP E Hst. unfold newuoa_optimize in E.
  assert (RF : forall q, ~ nstop q -> Ret (N := N) q s0 = Ret st s' -> P s') by (intros q Hq [= -> ->]; contradiction).
  destruct (Z.ltb_spec n 2) as [L|L]; [eapply RF; [|exact E]; unfold nstop; intuition discriminate|].
  destruct ((npt <? n + 2) || ((n + 2) * (n + 1) / 2 <? npt))%bool eqn:E1; [eapply RF; [|exact E]; unfold nstop; intuition discriminate|].
  destruct (nle rhoend zero || nlt rhobeg rhoend)%bool eqn:E2; [eapply RF; [|exact E]; unfold nstop; intuition discriminate|].
  apply orb_false_iff in E1. destruct E1 as [E1 E3]. apply Z.ltb_ge in E1, E3. rewrite (Z.mul_comm (n + 2)) in E3.
  assert (G0 := good0 n npt x scl work s0 HL). assert (K0 := nkeep0 n npt x scl maxfun work s0).
  destruct scl as [b|]; [|eapply HP; [| | | | | |exact E]; auto].
  assert (HS : forall a i, Some b = Some a -> 1 <= i <= n -> mm s0 (at1 a i) = Some (match mm s0 (at1 b i) with Some v => v | None => rhobeg end)).
  { intros a i [= <-] Hi. pose proof (nl_scl _ _ _ _ _ _ HL) as K. cbn in K. destruct (K (i - 1)) as [v Ev]; [lia|].
    replace (at1 b i) with (b + (i - 1)) by (unfold at1; lia). rewrite Ev. reflexivity. }
  destruct (check_scl_spec n (Some b) s0 _ HS ltac:(lia) b eq_refl) as (r & Er & _).
  unfold bind at 1 in E. rewrite Er in E. destruct r as [[|]|].
  - assert (S1 : safe (noutputs n npt x (Some b) work) (nRd n npt x (Some b) work) (fun _ => @None N)
      (loop 0 (n - 1) (fun i _ => assign (x + i) (lift2 ndiv (ld (x + i)) (ld (b + i)))) tt) (fun _ => True)).
    { apply safe_loop. intros i u Hi.
      apply (safe_assign _ _ _ (O_Rd n npt x (Some b) work) (C_O n npt x (Some b) work)); [left; lia|].
      apply safe_lift2; apply safe_ld; [left; left; lia|right; exists b; split; [auto|lia]]. }
    specialize (S1 s0 G0). unfold bind at 1 in E. cbv beta in E.
    destruct (loop 0 (n - 1) _ tt s0) as [u s1|s1|s1|s1]; try discriminate E. destruct S1 as (_ & G1 & F1).
    eapply HP; [| | | | | |exact E]; auto; [eapply nkeep_frame; eauto|rewrite (proj2 F1); exact He].
  - eapply HP; [| | | | | |exact E]; auto.
  - eapply RF; [|exact E]. unfold nstop. intuition discriminate.
Qed.

(** newuoa.h 79-80: the variables "will be changed to the values that give the least calculated F", and 163-165: "On exit,
    work[0] is set with f(x) the value of the objective function at the solution".  In exact arithmetic, when the call is not
    refused because of its arguments and when npt evaluations at least are allowed, the variables in x at the end are one of the
    points given to the objective function, no other one has a better value, and work[0] is its value: with or without scaling,
    for a minimization or a maximization, for each of the three ways to end, for any functions instead of cos and sin. *)
Theorem C59_best_point_exact H I ncos nsin n npt maximize fn x scl (rhobeg rhoend : NumR H I) maxfun w fi fuel s st s' :
  nlayout n npt x scl w s -> evs s = [] -> npt <= maxfun ->
  newuoa_optimize ncos nsin n npt maximize fn x scl rhobeg rhoend maxfun w fi fuel s = Ret st s' ->
  st = NW_SUCCESS \/ st = NW_TOO_MANY_EVALUATIONS \/ st = NW_STEP_FAILED ->
  exists p f, best maximize (p, f) (evs s') /\ holds_point n x s' p /\ mm s' w = Some f.
Proof.
  intros HL He Hm E Hst. eapply (optimize_cases _ _ _ _ _ _ _ _ _ _ _ _ _ (outcome H I n maximize x w)); [exact HL|exact He| |exact E|exact Hst].
  intros scl' s1 Hn Hnpt Hscl' Gs Ks Es st' s2 E2. eapply optimize_best; eauto.
Qed.
Print Assumptions C59_best_point_exact.

(** For any arithmetic with the order of IEEE 754 ([OrdLaws]: C float, C double, exact reals) and for any number of evaluations:
    if none of the values is a NaN then work[0] is one of the values and no other one is less (minimization). *)
Theorem C59_best_value (N : Num) (OL : OrdLaws N) ncos nsin n npt fn x scl (rhobeg rhoend : N) maxfun w fi fuel s st s' :
  nlayout n npt x scl w s -> evs s = [] ->
  newuoa_optimize ncos nsin n npt false fn x scl rhobeg rhoend maxfun w fi fuel s = Ret st s' ->
  st = NW_SUCCESS \/ st = NW_TOO_MANY_EVALUATIONS \/ st = NW_STEP_FAILED ->
  (forall p f, In (p, f) (evs s') -> neq f f = true) ->
  exists p f, In (p, f) (evs s') /\ (forall p' f', In (p', f') (evs s') -> nlt f' f = false) /\ mm s' w = Some f.
Proof.
  intros HL He E Hst Hv.
  assert (K : vres false w s').
  { eapply (optimize_cases _ _ _ _ _ _ _ _ _ _ _ _ _ (vres false w)); [exact HL|exact He| |exact E|exact Hst].
    intros scl' s1 Hn Hnpt Hscl' Gs Ks Es st' s2 E2. eapply (vrun OL); eauto. }
  destruct K as (g & ((e & D1 & D2) & D3) & D4).
  { intros [p f] He'. apply (Hv p f He'). }
  destruct e as [p f]. unfold nval in *. cbn [snd] in *. subst g. exists p, f. split; [exact D1|]. split; [|exact D4].
  intros p' f' He'. apply (D3 (p', f') He').
Qed.
Print Assumptions C59_best_value.

(** The same for a maximization; the laws of the opposite used here hold in IEEE 754 (C59_opp). *)
Theorem C59_best_value_max (N : Num) (OL : OrdLaws N) ncos nsin n npt fn x scl (rhobeg rhoend : N) maxfun w fi fuel s st s' :
  (forall a : N, nopp (nopp a) = a) -> (forall a b : N, nlt (nopp a) (nopp b) = nlt b a) -> (forall a : N, neq (nopp a) (nopp a) = neq a a) ->
  nlayout n npt x scl w s -> evs s = [] ->
  newuoa_optimize ncos nsin n npt true fn x scl rhobeg rhoend maxfun w fi fuel s = Ret st s' ->
  st = NW_SUCCESS \/ st = NW_TOO_MANY_EVALUATIONS \/ st = NW_STEP_FAILED ->
  (forall p f, In (p, f) (evs s') -> neq f f = true) ->
  exists p f, In (p, f) (evs s') /\ (forall p' f', In (p', f') (evs s') -> nlt f f' = false) /\ mm s' w = Some f.
Proof.
  intros O1 O2 O3 HL He E Hst Hv.
  assert (K : vres true w s').
  { eapply (optimize_cases _ _ _ _ _ _ _ _ _ _ _ _ _ (vres true w)); [exact HL|exact He| |exact E|exact Hst].
    intros scl' s1 Hn Hnpt Hscl' Gs Ks Es st' s2 E2. eapply (vrun OL); eauto. }
  destruct K as (g & ((e & D1 & D2) & D3) & D4).
  { intros [p f] He'. unfold nval. cbn [snd]. rewrite O3. apply (Hv p f He'). }
  destruct e as [p f]. unfold nval in *. cbn [snd] in *. subst g. exists p, f. split; [exact D1|]. rewrite O1 in D4. split; [|exact D4].
  intros p' f' He'. rewrite <- O2. apply (D3 (p', f') He').
Qed.
Print Assumptions C59_best_value_max.

(** The laws of the opposite for C float and C double *)
Lemma Bopp_laws prec emax (Hp : Prec_gt_0 prec) (Hm : BinarySingleNaN.Prec_lt_emax prec emax) (a b : BinarySingleNaN.binary_float prec emax) :
  BinarySingleNaN.Bopp (BinarySingleNaN.Bopp a) = a /\ fkey prec emax (BinarySingleNaN.Bopp a) = option_map Ropp (fkey prec emax a).
Proof.
  split; [apply BinarySingleNaN.Bopp_involutive|].
  assert (E := BinarySingleNaN.B2R_Bopp prec emax a).
  destruct a as [s|[|]| |s m e Hb].
  - exact (f_equal Some E).
  - cbn. f_equal. ring.
  - reflexivity.
  - reflexivity.
  - exact (f_equal Some E).
Qed.
Lemma Bopp_num prec emax (Hp : Prec_gt_0 prec) (Hm : BinarySingleNaN.Prec_lt_emax prec emax) (N := NumF prec emax Hp Hm) :
  (forall a : N, nopp (nopp a) = a) /\ (forall a b : N, nlt (nopp a) (nopp b) = nlt b a) /\ (forall a : N, neq (nopp a) (nopp a) = neq a a).
Proof.
  assert (K : forall a : N, key (OrdF prec emax Hp Hm) (nopp a) = option_map Ropp (key (OrdF prec emax Hp Hm) a)).
  { intros a. apply Bopp_laws; [exact Hp|exact Hm|exact a]. }
  split; [intros a; apply (Bopp_laws prec emax Hp Hm a a)|]. split; intros; rewrite ?(key_lt _ (OrdF prec emax Hp Hm)), ?(key_eq _ (OrdF prec emax Hp Hm)), !K.
  - destruct (key (OrdF prec emax Hp Hm) a) as [r|], (key (OrdF prec emax Hp Hm) b) as [r'|]; try reflexivity. cbn.
    destruct (Rlt_bool_spec r' r); [apply Rlt_bool_true|apply Rlt_bool_false]; lra.
  - destruct (key (OrdF prec emax Hp Hm) a) as [r|]; [|reflexivity]. cbn. rewrite !Req_bool_true; reflexivity.
Qed.
Lemma C59_opp : forall N : Num, N = NumD \/ N = NumS ->
  (forall a : N, nopp (nopp a) = a) /\ (forall a b : N, nlt (nopp a) (nopp b) = nlt b a) /\ (forall a : N, neq (nopp a) (nopp a) = neq a a).
Proof. intros N [->| ->]; apply Bopp_num. Qed.

(** ** Examples

    The execution in double precision: NEWUOA_SUCCESS, the variables in x are the ones of one of the calls, none of the calls has a
    lower value, and the value is in work[0].  The same for a maximization, with scaling.  The hypothesis on the arrays holds. *)
Definition nex_match (s : mst NumD) (e : list NumD * NumD) : bool :=
  match fst e, mm s 0, mm s 1 with [a; b], Some x0, Some x1 => (neq a x0 && neq b x1)%bool | _, _, _ => false end.
Definition nex_best (maximize : bool) (o : out NumD nstatus) : bool :=
  match o with
  | Ret NW_SUCCESS s =>
    existsb (fun e => nex_match s e && match mm s 100 with Some f => neq f (snd e) | None => false end &&
      forallb (fun e' => if maximize then nle (snd e') (snd e) else nle (snd e) (snd e')) (evs s))%bool (evs s)
  | _ => false
  end.
Example C59_ex :
  (forall H I, nlayout 2 5 0 (Some 10) 100 (@nex_mem (NumR H I) 0 0 2 3)%R) /\
  nex_best false (newuoa_optimize ex_cos ex_sin 2 5 false nex_fn 0 None (nQ 1 2) (nQ 1 4 : NumD) 20 100 50 200
    (nex_mem (nZ 0) (nZ 0) (nZ 2) (nZ 3))) = true /\
  nex_best true (newuoa_optimize ex_cos ex_sin 2 5 true (fun h p => nopp (nex_fn h p)) 0 (Some 10) (nQ 1 2) (nQ 1 4 : NumD) 20 100 50 200
    (nex_mem (nZ 0) (nZ 0) (nZ 2) (nZ 3))) = true.
Proof. split; [intros H I; apply nex_layout; auto|]. split; vm_compute; reflexivity. Qed.

(** ** What is not true

    With less than npt evaluations, the variables at the end are XBASE + XOPT where XOPT was never set: they depend on the contents of
    the workspace given by the caller (here 7 everywhere), and none of the calls had these variables; work[0] is the least value. *)
Definition nex_other (o : out NumD nstatus) : bool :=
  match o with
  | Ret NW_TOO_MANY_EVALUATIONS s => (Nat.eqb (length (evs s)) 4 && forallb (fun e => negb (nex_match s e)) (evs s))%bool
  | _ => false
  end.
Theorem C59_few_evaluations_refuted : exists s : mst NumD, nlayout 2 5 0 None 100 s /\ evs s = [] /\ exists s',
  newuoa_optimize ex_cos ex_sin 2 5 false nex_fn 0 None (nQ 1 2) (nQ 1 4 : NumD) 4 100 50 200 s = Ret NW_TOO_MANY_EVALUATIONS s' /\
  ~ exists p f, In (p, f) (evs s') /\ holds_point 2 0 s' p.
Proof.
  exists (nex_mem (nZ 0) (nZ 0) (nZ 2) (nZ 3)). split; [apply nex_layout; auto|]. split; [reflexivity|].
  assert (K : nex_other (newuoa_optimize ex_cos ex_sin 2 5 false nex_fn 0 None (nQ 1 2) (nQ 1 4 : NumD) 4 100 50 200
    (nex_mem (nZ 0) (nZ 0) (nZ 2) (nZ 3))) = true) by (vm_cast_no_check (eq_refl true)).
  assert (K2 : match newuoa_optimize ex_cos ex_sin 2 5 false nex_fn 0 None (nQ 1 2) (nQ 1 4 : NumD) 4 100 50 200
    (nex_mem (nZ 0) (nZ 0) (nZ 2) (nZ 3)) with Ret _ s => forallb (fun e => match fst e with [a; b] => neq a a && neq b b | _ => false end)%bool (evs s)
    | _ => false end = true) by (vm_cast_no_check (eq_refl true)).
  destruct (newuoa_optimize _ _ _ _ _ _ _ _ _ _ _ _ _ _ _) as [[] s'|s'|s'|s']; try discriminate K.
  exists s'. split; [reflexivity|]. intros (p & f & Hin & Hp).
  cbn [nex_other] in K. apply andb_true_iff in K. destruct K as [_ K]. rewrite forallb_forall in K, K2. specialize (K _ Hin). specialize (K2 _ Hin).
  unfold nex_match in K. cbn [fst] in K, K2. destruct p as [|a [|b [|]]]; try discriminate K2.
  destruct (Hp 1 ltac:(lia)) as (u & E1 & E2). destruct (Hp 2 ltac:(lia)) as (u' & E3 & E4). cbn in E1, E3. injection E1 as <-. injection E3 as <-.
  unfold at1 in E2, E4. cbn in E2, E4. rewrite E2, E4, K2 in K. discriminate K.
Qed.
Print Assumptions C59_few_evaluations_refuted.

(** If one value is a NaN (here the sixth of eight, in double precision) then the objective function is called with variables that are
    NaN, and at the end x[0] and work[0] are NaN, although the five first values are numbers: the best of them is lost. *)
Definition nex_nan (h : list (list NumD * NumD)) (p : list NumD) : NumD :=
  if Nat.eqb (length h) 5 then ndiv (nZ 0) (nZ 0) else nex_fn h p.
Definition nex_lost (o : out NumD nstatus) : bool :=
  match o with
  | Ret NW_TOO_MANY_EVALUATIONS s =>
    (Nat.eqb (length (filter (fun e => neq (snd e) (snd e) && forallb (fun a => neq a a) (fst e)) (evs s))) 5 &&
     match mm s 0, mm s 100 with Some x, Some f => negb (neq x x) && negb (neq f f) | _, _ => false end)%bool
  | _ => false
  end.
Theorem C59_nan_refuted : exists (fn : list (list NumD * NumD) -> list NumD -> NumD) (s : mst NumD), nlayout 2 5 0 None 100 s /\ evs s = [] /\
  exists s' x f, newuoa_optimize ex_cos ex_sin 2 5 false fn 0 None (nQ 1 2) (nQ 1 4 : NumD) 8 100 50 200 s = Ret NW_TOO_MANY_EVALUATIONS s' /\
  (exists p v, In (p, v) (evs s') /\ neq v v = true) /\ mm s' 0 = Some x /\ neq x x = false /\ mm s' 100 = Some f /\ neq f f = false.
Proof.
  exists nex_nan, (nex_mem (nZ 0) (nZ 0) (nZ 2) (nZ 3)). split; [apply nex_layout; auto|]. split; [reflexivity|].
  assert (K : nex_lost (newuoa_optimize ex_cos ex_sin 2 5 false nex_nan 0 None (nQ 1 2) (nQ 1 4 : NumD) 8 100 50 200
    (nex_mem (nZ 0) (nZ 0) (nZ 2) (nZ 3))) = true) by (vm_cast_no_check (eq_refl true)).
  destruct (newuoa_optimize _ _ _ _ _ _ _ _ _ _ _ _ _ _ _) as [[] s'|s'|s'|s']; try discriminate K.
  cbn [nex_lost] in K. apply andb_true_iff in K. destruct K as [K1 K2].
  destruct (mm s' 0) as [x|] eqn:Ex; [|discriminate K2]. destruct (mm s' 100) as [f|] eqn:Ef; [|discriminate K2].
  apply andb_true_iff in K2. destruct K2 as [K2 K3]. apply negb_true_iff in K2, K3.
  exists s', x, f. split; [reflexivity|]. split; [|repeat split; assumption].
  destruct (filter _ (evs s')) as [|[p v] r] eqn:Er; [discriminate K1|].
  assert (Hin : In (p, v) ((p, v) :: r)) by (left; reflexivity). rewrite <- Er in Hin. apply filter_In in Hin. destruct Hin as [H1 H2].
  apply andb_true_iff in H2. exists p, v. split; [exact H1|apply H2].
Qed.
Print Assumptions C59_nan_refuted.
