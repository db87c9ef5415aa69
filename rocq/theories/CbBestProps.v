(** * C65: COBYLA returns one of the points it has tried, with the values of the functions at this point (exact arithmetic)

    The theorems are about [cobyla_optimize] (CbModel.v) with the arrays described by [clayout] (CbSpec.v).  [evs s'] is the list of
    the calls of calcfc: the variables and the value of the objective function, the last call first.  The values of the constraints
    in the call for the variables [p] after the previous calls [h] are [cn h p 0], ..., [cn h p (m-1)]; they should be nonnegative. *)
From Coq Require Import ZArith Reals List Bool Lia Lra.
From Flocq Require Import Core.
From Verif Require Import Num BqLang BqModel BqWp BqSafe BqSpec BqTop BqStart BqPc BqBestProps NwTop CbModel CbNum CbSpec CbSafe CbMain CbTop CbBest CbProps.
Import ListNotations.
Local Open Scope Z_scope.

(** The worst violation of the constraints: max(0, -c0, ..., -c(m-1)) *)
Definition violation {H I} (m : Z) (c : Z -> NumR H I) (r : R) : Prop :=
  (0 <= r)%R /\ (forall k, 0 <= k < m -> (- c k <= r)%R) /\ (r = 0%R \/ exists k, 0 <= k < m /\ r = (- c k)%R).

Lemma wp_both {N : Num} {A} (p : prog N A) s (P Q : A -> mst N -> Prop) : wp p s P -> wp p s Q -> wp p s (fun a s' => P a s' /\ Q a s').
Proof. intros H1 H2 a s' E. split; [apply H1|apply H2]; exact E. Qed.



Lemma at1_in a b q p i : a <= p + i - 1 -> b <= at1 p i < q -> a <= at1 p i < q.
Proof. unfold at1. lia. Qed.
Lemma mul_lo n j : 1 <= n -> 1 <= j -> 0 <= (j - 1) * n.
Proof. nia. Qed.
Lemma mul_lo0 n j : 1 <= n -> 0 <= j -> - n <= (j - 1) * n.
Proof. nia. Qed.

Section Lift.
Variables H I : R.
Notation N := (NumR H I).
Notation mst := (mst N).
Variables (n m : Z) (maximize : bool) (fn : list (list N * N) -> list N -> N) (cn : list (list N * N) -> list N -> Z -> N).
Variables (x : Z) (scl : option Z) (rhobeg rhoend : N) (maxfun work : Z) (s0 : mst).
Hypothesis HL : clayout n m x scl work s0.

Lemma wp_ok {A} (E : mst -> Prop) (p : prog N A) s Q : ok E p s Q -> wp p s Q.
Proof. unfold ok, wp. intros K a s' Ea. rewrite Ea in K. exact K. Qed.

Definition coutcome (s : mst) : Prop :=
  exists p f h l r, evs s = l ++ (p, f) :: h /\ length p = Z.to_nat n /\ holds_point n x s p /\ violation m (cn h p) r /\
    mm s work = Some f /\ mm s (work + 1) = Some (r : N).

Section Run.
Hypothesis (Hn : 1 <= n) (Hm : 0 <= m).
Variable scl' : option Z.
Hypothesis Hscl' : scl' = None \/ scl' = scl.
Notation Rd := (oRd n m x scl work).
Notation Cc := (fun _ : Z => @None N).

Notation wend := (work + cb_size n m).
Definition scaled' : bool := match scl' with None => false | Some _ => true end.
Definition sc' (i : Z) : R := match scl' with None => 0%R | Some b => get H I s0 (at1 b i) end.
Notation Binv := (binv H I n m x work (o_sim n m work) (o_datmat n m work) (o_dx n m work) maximize scaled' sc' cn).

Lemma lay_x : x + n <= work \/ wend <= x.
Proof. pose proof (cl_x_w _ _ _ _ _ _ HL) as A. rewrite cdoc_cb in A. unfold apart in A. lia. Qed.
Lemma lay_scl b : scl' = Some b -> (b + n <= work \/ wend <= b) /\ (b + n <= x \/ x + n <= b).
Proof.
  intros Eb. pose proof (cl_scl_w _ _ _ _ _ _ HL) as A. destruct Hscl' as [A'|A']; [congruence|]. rewrite <- A', Eb in A.
  rewrite cdoc_cb in A. unfold apart in *. lia.
Qed.
Lemma lay_keep t : ckeep n m x maxfun work s0 t -> sclv H I n sc' scl' t.
Proof.
  intros [Kt _] b Eb i Hi. unfold sc'. rewrite Eb. unfold get. rewrite Kt; [reflexivity|].
  destruct (lay_scl b Eb). unfold coutputs. rewrite cdoc_cb. unfold at1. lia.
Qed.
Lemma lay : work + (m + 2) <= o_sim n m work /\ o_sim n m work + n * (n + 1) <= o_simi n m work /\ o_simi n m work + n * n <= o_datmat n m work /\
  o_datmat n m work + (m + 2) * (n + 1) <= o_a n m work /\ o_a n m work <= wend /\ o_sigbar n m work + n <= o_dx n m work /\
  o_dx n m work + n <= o_w n m work.
Proof. destruct (carea n m work Hn Hm) as (G1 & G2 & G3 & G4 & G5 & G6 & G7 & G8 & G9 & G10 & F1 & F2 & F3 & F4). lia. Qed.

Lemma begin_tried s : wp (cb_begin n m x rhobeg work cv0) s (fun v t => evs t = evs s /\ Binv (Ccall, v) t).
Proof.
  destruct lay as (A1 & A2 & A3 & A4 & A5 & A6 & A7). pose proof lay_x as A8. unfold cb_begin.
  apply (b_start H I n m x) with (a := o_a n m work) (wend := wend); [exact Hn|exact Hm|exact A1|exact A2|exact A3|exact A4|exact A5|exact A8|reflexivity|reflexivity].
Qed.

Notation Wk := (fun q => work <= q < wend).
Notation Ga := (fun q => o_a n m work <= q < wend).
Lemma la_W q : work <= q < wend -> Wk q. Proof. auto. Qed.
Lemma la_low p lo hi : 1 <= lo -> o_a n m work <= p -> arr Wk p lo hi -> arr Ga p lo hi.
Proof. intros H1 H2 H3 i Hi. specialize (H3 i Hi). cbv beta in *. unfold at1 in *. lia. Qed.
Lemma la_off : o_a n m work <= o_vsig n m work /\ o_a n m work <= o_veta n m work /\ o_a n m work <= o_sigbar n m work /\
  o_a n m work <= o_dx n m work /\ o_a n m work + n <= o_w n m work /\ 0 <= n * n.
Proof. destruct (carea n m work Hn Hm) as (G1 & G2 & G3 & G4 & G5 & G6 & G7 & G8 & G9 & G10 & F1 & F2 & F3 & F4). lia. Qed.
Ltac off := destruct la_off as (O1 & O2 & O3 & O4 & O5 & O6).
Lemma la_a : mat Ga (o_a n m work) n 1 n 1 (m + 1).
Proof.
  intros i j Hi Hj. assert (A := c_Aa Wk n m work Hn Hm la_W i j Hi Hj). cbv beta in *. unfold at2 in *. pose proof (mul_lo n j Hn ltac:(lia)). lia.
Qed.
Lemma la_z : mat Ga (o_w n m work) n 1 n 0 n.
Proof.
  off. intros i j Hi Hj. assert (A := c_Az Wk n m work Hn Hm la_W i j Hi Hj). cbv beta in *. unfold at2 in *. pose proof (mul_lo0 n j Hn ltac:(lia)). lia.
Qed.
Lemma la_vsig : arr Ga (o_vsig n m work) 1 n. Proof. off. apply la_low; [lia|exact O1|apply (c_Avsig Wk n m work Hn Hm la_W)]. Qed.
Lemma la_veta : arr Ga (o_veta n m work) 1 n. Proof. off. apply la_low; [lia|exact O2|apply (c_Aveta Wk n m work Hn Hm la_W)]. Qed.
Lemma la_sig : arr Ga (o_sigbar n m work) 1 n. Proof. off. apply la_low; [lia|exact O3|apply (c_Asig Wk n m work Hn Hm la_W)]. Qed.
Lemma la_dx : arr Ga (o_dx n m work) 1 n. Proof. off. apply la_low; [lia|exact O4|apply (c_Adx Wk n m work Hn Hm la_W)]. Qed.
Lemma la_w : arr Ga (o_w n m work) 1 n. Proof. off. apply la_low; [lia|lia|apply (c_Aw Wk n m work Hn Hm la_W)]. Qed.
Lemma la_zd : arr Ga (o_w n m work + n * n) 0 n.
Proof. off. intros i Hi. apply at1_in with work; [lia|apply (c_Azd Wk n m work Hn Hm la_W i Hi)]. Qed.
Lemma la_vc : arr Ga (o_w n m work + n * n + n) 0 (m + 1).
Proof. off. intros i Hi. apply at1_in with work; [lia|apply (c_Avc Wk n m work Hn Hm la_W i Hi)]. Qed.
Lemma la_sd : arr Ga (o_w n m work + n * n + n + (m + 1)) 1 n.
Proof. off. intros i Hi. apply at1_in with work; [lia|apply (c_Asd Wk n m work Hn Hm la_W i Hi)]. Qed.
Lemma la_dn : arr Ga (o_w n m work + n * n + n + (m + 1) + n) 1 n.
Proof. off. intros i Hi. apply at1_in with work; [lia|apply (c_Adn Wk n m work Hn Hm la_W i Hi)]. Qed.
Lemma la_vd : arr Ga (o_w n m work + n * n + n + (m + 1) + n + n) 0 (m + 1).
Proof. off. intros i Hi. apply at1_in with work; [lia|apply (c_Avd Wk n m work Hn Hm la_W i Hi)]. Qed.
Lemma la_rd q : work <= q < wend -> Rd q. Proof. intros Hq. apply cO_Rd, cO_w. exact Hq. Qed.
Lemma la_rx q : x <= q < x + n -> Rd q. Proof. intros Hq. apply cO_Rd, cO_x. exact Hq. Qed.

Lemma step_tried fi l t : good Rd Cc t -> ckeep n m x maxfun work s0 t -> Binv l t ->
  wp (co_step n m x rhoend maxfun work (o_sim n m work) (o_simi n m work) (o_datmat n m work) (o_a n m work) (o_vsig n m work)
        (o_veta n m work) (o_sigbar n m work) (o_dx n m work) (o_w n m work) None (cb_call n m maximize fn cn x work scl')
        (cb_end n maximize x work scl') fi l) t
     (fun r t => match r with inl l' => clab n maxfun l' -> Binv l' t | inr _ => bres H I n m x work cn t end).
Proof.
  intros Gt Kt HB. destruct lay as (A1 & A2 & A3 & A4 & A5 & A6 & A7). pose proof lay_x as A8.
  eapply (b_step H I n m x rhoend maxfun work (o_sim n m work) (o_simi n m work) (o_datmat n m work) (o_a n m work) (o_vsig n m work)
    (o_veta n m work) (o_sigbar n m work) (o_dx n m work) (o_w n m work) wend) with (Rd := Rd) (C := Cc);
    [exact Hn|exact Hm|exact A1|exact A2|exact A3|exact A4|exact A5|exact A8|exact la_a|exact la_vsig|exact la_veta|exact la_sig|exact la_dx|
     exact la_w|exact la_z|exact la_zd|exact la_vc|exact la_sd|exact la_dn|exact la_vd|exact A6|exact la_rd| |reflexivity|reflexivity|exact A7|
     exact la_rx|exact lay_scl|exact Gt|apply lay_keep, Kt|exact HB].
  discriminate.
Qed.

Lemma optimize_tried s fi fuel st s' : good Rd Cc s -> ckeep n m x maxfun work s0 s -> ccalls s0 s = 0 ->
  cb_optimize n m maximize fn cn x rhobeg rhoend maxfun work scl' fi fuel s = Ret st s' -> coutcome s'.
Proof.
  intros Gs Ks Es. revert st s'.
  change (wp (cb_optimize n m maximize fn cn x rhobeg rhoend maxfun work scl' fi fuel) s (fun _ t => coutcome t)).
  unfold cb_optimize. apply wp_bind.
  eapply wp_weak with (P := fun v t => (v = p_iflag 0 (p_rho rhobeg (p_parmu zero (p_jdrop (n + 1) (p_ibrnch 0 cv0)))) /\ good Rd Cc t /\
      frame (coutputs n m x work) s t) /\ evs t = evs s /\ Binv (Ccall, v) t).
  { apply wp_both.
    - eapply wp_safe; [apply (cbegin_safe (coutputs n m x work) Rd Cc (cO_Rd n m x scl work) (cC_O n m x work) n m x);
        [exact Hn|exact Hm|apply cO_x|apply cO_w]|exact Gs|]. auto.
    - apply begin_tried. }
  intros v s1 ((Hv & GG1 & FF1) & E1 & B1).
  assert (K1 : ckeep n m x maxfun work s0 s1) by (eapply ckeep_frame; eauto).
  assert (C1 : ccalls s0 s1 = 0) by (rewrite (ccalls_frame n m x work s0 s s1 FF1); exact Es).
  eapply wp_weak.
  - unfold cb_run. apply wp_machine with (Q := fun (_ : cstatus * Z) t => good Rd Cc t /\ bres H I n m x work cn t)
      (J := fun l t => cjoin n m x scl rhoend maxfun work s0 l t /\ Binv l t).
    + split; [|exact B1]. split; [exact GG1|]. split; [exact K1|]. rewrite C1. unfold cinv, clab, cvok, ccnt, cst, limit. rewrite Hv. unfold cv0. cvs.
      split; [lia|]. split; reflexivity.
    + intros l t [HJ HB].
      assert (A1 := cbstep_ok (CbLawsR H I) n m maximize fn cn x scl rhoend maxfun work s0 Hn Hm scl' Hscl' fi l t HJ).
      apply wp_ok in A1. destruct HJ as (J1 & J2 & J3).
      eapply wp_weak; [apply (wp_both _ _ _ _ A1 (step_tried fi l t J1 J2 HB))|]. cbv beta. intros [r|r] t' [B2 B3].
      * split; [exact B2|]. apply B3. apply B2.
      * destruct B2 as (_ & B2 & _). split; assumption.
  - cbv beta. intros st t [Gt (p & f & h & l & r & D1 & D2 & D3 & D4 & D5 & D6)]. exists p, f, h, l, r.
    split; [exact D1|]. split; [exact D2|]. split; [|split; [exact D4|split; [exact D5|exact D6]]].
    intros i Hi. exists (get H I t (at1 x i)). split; [apply D3, Hi|]. destruct (proj1 Gt (at1 x i)) as [u Eu].
    + left. left. unfold at1. lia.
    + unfold get. rewrite Eu. reflexivity.
Qed.
End Run.
End Lift.

(** The cases of [cobyla_optimize]: what holds after [cb_optimize] holds after it if it is not refused *)
Lemma coptimize_cases {N : Num} n m maximize fn cn x scl (rhobeg rhoend : N) maxfun work s0 (P : mst N -> Prop) fi fuel st k s' :
  clayout n m x scl work s0 ->
  (forall scl' s, 1 <= n -> 0 <= m -> scl' = None \/ scl' = scl ->
     good (oRd n m x scl work) (fun _ => None) s -> ckeep n m x maxfun work s0 s -> ccalls s0 s = 0 ->
     forall r s', cb_optimize n m maximize fn cn x rhobeg rhoend maxfun work scl' fi fuel s = Ret r s' -> P s') ->
  cobyla_optimize n m maximize fn cn x scl rhobeg rhoend maxfun work fi fuel s0 = Ret (st, k) s' ->
  cstop st -> P s'.
Proof.
  intros HL HP E Hst. unfold cobyla_optimize in E. cbv zeta in E.
  assert (RF : forall q, ~ cstop (fst q) -> Ret (N := N) q s0 = Ret (st, k) s' -> P s') by (intros q Hq [= -> ->]; contradiction).
  destruct (Z.ltb_spec n 1) as [L|L]; [eapply RF; [|exact E]; unfold cstop; cbn; intuition discriminate|].
  destruct (Z.ltb_spec m 0) as [L1|L1]; [eapply RF; [|exact E]; unfold cstop; cbn; intuition discriminate|].
  destruct (nle rhoend zero || nlt rhobeg rhoend)%bool eqn:E2; [eapply RF; [|exact E]; unfold cstop; cbn; intuition discriminate|].
  assert (RUN : forall scl' s, scl' = None \/ scl' = scl -> good (oRd n m x scl work) (fun _ => None) s -> ckeep n m x maxfun work s0 s ->
     ccalls s0 s = 0 -> bind (cb_optimize n m maximize fn cn x rhobeg rhoend maxfun work scl' fi fuel) (fun r => ret (fst r, Some (snd r))) s = Ret (st, k) s' -> P s').
  { intros scl' s H1 G1 K1 C1 E'. unfold bind in E'.
    destruct (cb_optimize n m maximize fn cn x rhobeg rhoend maxfun work scl' fi fuel s) as [r t|t|t|t] eqn:Er; try discriminate E'.
    injection E' as _ _ <-. eapply HP; [| | | | | |exact Er]; auto. }
  assert (G0 := cgood0 n m x scl work s0 HL). assert (K0 := ckeep0 n m x maxfun work s0).
  assert (C0 : ccalls s0 s0 = 0) by (unfold ccalls; lia).
  destruct scl as [b|]; [|eapply RUN; [| | | |exact E]; auto].
  destruct (check_scl_reads n b s0) as [r Er].
  { intros i Hi. pose proof (cl_scl _ _ _ _ _ _ HL) as K. apply K, Hi. }
  unfold bind at 1 in E. rewrite Er in E. destruct r as [[|]|].
  - assert (S1 : safe (coutputs n m x work) (oRd n m x (Some b) work) (fun _ => @None N)
      (loop 0 (n - 1) (fun i _ => assign (x + i) (lift2 ndiv (ld (x + i)) (ld (b + i)))) tt) (fun _ => True)).
    { apply safe_loop. intros i u Hi.
      apply (safe_assign _ _ _ (cO_Rd n m x (Some b) work) (cC_O n m x work)); [left; lia|].
      apply safe_lift2; apply safe_ld; [left; left; lia|right; exists b; split; [auto|lia]]. }
    specialize (S1 s0 G0). unfold bind at 1 in E. cbv beta in E.
    destruct (loop 0 (n - 1) _ tt s0) as [u s1|s1|s1|s1]; try discriminate E. destruct S1 as (_ & G1 & F1).
    eapply RUN; [| | | |exact E]; auto; [eapply ckeep_frame; eauto|]. rewrite (ccalls_frame n m x work s0 s0 s1 F1). exact C0.
  - eapply RUN; [| | | |exact E]; auto.
  - eapply RF; [|exact E]. unfold cstop. cbn. intuition discriminate.
Qed.

(** cobyla.h 133-134 and 149-151: "on exit, the final variables", "the value of the objective function and of the worst constraint at
    the final x are stored in work[0] and work[1]".  In exact arithmetic, when the call is not refused because of its arguments, the
    variables in x at the end are exactly the ones of one of the calls of calcfc, work[0] is the value of the objective function in
    this call, and work[1] is the worst violation of the constraints in this call: for any functions (even if their values change
    from a call to the next one), with or without scaling, for a minimization or a maximization, for each of the three ways to end
    (also the two that are not a success), for any number of evaluations. *)
Theorem C65_tried_point_exact H I n m maximize fn cn x scl (rhobeg rhoend : NumR H I) maxfun w fi fuel s st k s' :
  clayout n m x scl w s -> evs s = [] ->
  cobyla_optimize n m maximize fn cn x scl rhobeg rhoend maxfun w fi fuel s = Ret (st, k) s' ->
  st = CB_SUCCESS \/ st = CB_ROUNDING_ERRORS \/ st = CB_TOO_MANY_EVALUATIONS ->
  exists p f h l r, evs s' = l ++ (p, f) :: h /\ length p = Z.to_nat n /\ holds_point n x s' p /\ violation m (cn h p) r /\
    mm s' w = Some f /\ mm s' (w + 1) = Some (r : NumR H I).
Proof.
  intros HL _ E Hst. eapply (coptimize_cases n m maximize fn cn x scl rhobeg rhoend maxfun w s (coutcome H I n m cn x w)); [exact HL| |exact E|exact Hst].
  intros scl' s1 Hn Hm Hscl' Gs Ks Es r s2 E2. eapply optimize_tried; eauto.
Qed.
Print Assumptions C65_tried_point_exact.

(** ** Examples

    Executions in double precision: after COBYLA_TOO_MANY_EVALUATIONS, with scaling, and after COBYLA_SUCCESS for a maximization, the
    variables in x are the ones of one of the calls, work[0] is the value of the objective function and work[1] the violation of the
    constraint in this call.  The hypothesis on the arrays holds. *)
Definition cex_match (s : mst NumD) (e : list NumD * NumD) : bool :=
  match fst e, mm s 0, mm s 1 with [a; b], Some x0, Some x1 => (neq a x0 && neq b x1)%bool | _, _, _ => false end.
Definition cex_values (s : mst NumD) (e : list NumD * NumD) : bool :=
  match mm s 100, mm s 101 with
  | Some f, Some r => (neq f (snd e) && neq r (let c := nopp (cex_cn [] (fst e) 0) in if nlt (nZ 0) c then c else nZ 0))%bool
  | _, _ => false
  end.
Definition cex_tried (st : cstatus -> bool) (o : out NumD (cstatus * option Z)) : bool :=
  match o with Ret (r, _) s => (st r && existsb (fun e => cex_match s e && cex_values s e) (evs s))%bool | _ => false end.
Example C65_ex :
  (forall H I, clayout 2 1 0 (Some 10) 100 (@cex_mem (NumR H I) 1 1 2 3)%R) /\
  cex_tried (fun st => match st with CB_TOO_MANY_EVALUATIONS => true | _ => false end)
    (cobyla_optimize 2 1 false cex_fn cex_cn 0 (Some 10) (nQ 1 2) (nQ 1 4 : NumD) 6 100 50 200 (cex_mem (nZ 1) (nZ 1) (nZ 2) (nZ 3))) = true /\
  cex_tried (fun st => match st with CB_SUCCESS => true | _ => false end)
    (cobyla_optimize 2 1 true cex_fn cex_cn 0 None (nQ 1 2) (nQ 1 2 : NumD) 100 100 50 200 (cex_mem (nZ 1) (nZ 1) (nZ 2) (nZ 3))) = true.
Proof. split; [intros H I; apply cex_layout; auto|]. split; vm_compute; reflexivity. Qed.

(** ** What is not true

    cobyla.c 970: "Return the best calculated values of the variables".  The final variables are not the best ones that were tried,
    even for a smooth convex function without constraints and when COBYLA_SUCCESS is returned: here (x0-0.8)^2 + 3(x1-0.3)^2 from (0,0).
    If ifull = 1 (cobyla.c 975-982) the code returns the last point it has tried and not the best vertex of the simplex. *)
Definition cex_quad {N : Num} (_ : list (list N * N)) (p : list N) : N :=
  match p with
  | [a; b] => let u := nsub a (nQ 8 10) in let v := nsub b (nQ 3 10) in nadd (nmul u u) (nmul (nZ 3) (nmul v v))
  | _ => nZ 0
  end.
Definition cex_worse (o : out NumD (cstatus * option Z)) : bool :=
  match o with
  | Ret (CB_SUCCESS, _) s => match mm s 100 with Some f => existsb (fun e => nlt (snd e) f) (evs s) | None => false end
  | _ => false
  end.
Theorem C65_best_point_refuted : exists s : mst NumD, clayout 2 0 0 None 100 s /\ evs s = [] /\ exists k s' f,
  cobyla_optimize 2 0 false cex_quad cex_cn 0 None (nQ 1 2) (nQ 1 4 : NumD) 100 100 50 200 s = Ret (CB_SUCCESS, k) s' /\
  mm s' 100 = Some f /\ exists p g, In (p, g) (evs s') /\ nlt g f = true.
Proof.
  exists (cex_mem (nZ 0) (nZ 0) (nZ 2) (nZ 1)). split; [|split; [reflexivity|]].
  { constructor; try exact I; try (apply cex_cells; cbn; lia). unfold apart. cbn. lia. }
  assert (K : cex_worse (cobyla_optimize 2 0 false cex_quad cex_cn 0 None (nQ 1 2) (nQ 1 4 : NumD) 100 100 50 200
    (cex_mem (nZ 0) (nZ 0) (nZ 2) (nZ 1))) = true) by (vm_cast_no_check (eq_refl true)).
  destruct (cobyla_optimize _ _ _ _ _ _ _ _ _ _ _ _ _ _) as [[[] k] s'|s'|s'|s']; try discriminate K.
  cbn [cex_worse] in K. destruct (mm s' 100) as [f|] eqn:Ef; [|discriminate K]. apply existsb_exists in K. destruct K as ((p & g) & K1 & K2).
  exists k, s', f. split; [reflexivity|]. split; [exact Ef|]. exists p, g. split; [exact K1|exact K2].
Qed.
Print Assumptions C65_best_point_refuted.

(** With the rounding errors of the double precision, the variables at the end may be different from the ones of all the calls: a vertex
    is X(0) + SIM(.,j), and this sum is not the point that was tried after X(0) has changed.  Here 3 x1 - x0 in the unit disk, from
    (0.8,1.1), 12 evaluations. *)
Definition cex_lin {N : Num} (_ : list (list N * N)) (p : list N) : N :=
  match p with [a; b] => nadd (nmul (nZ (-1)) a) (nmul (nZ 3) b) | _ => nZ 0 end.
Definition cex_other (o : out NumD (cstatus * option Z)) : bool :=
  match o with
  | Ret (CB_TOO_MANY_EVALUATIONS, _) s =>
      forallb (fun e => negb (cex_match s e) && match fst e with [a; b] => neq a a && neq b b | _ => false end)%bool (evs s)
  | _ => false
  end.
Theorem C65_rounding_refuted : exists s : mst NumD, clayout 2 1 0 None 100 s /\ evs s = [] /\ exists k s',
  cobyla_optimize 2 1 false cex_lin cex_cn 0 None (nQ 3 10) (nQ 1 50 : NumD) 12 100 50 200 s = Ret (CB_TOO_MANY_EVALUATIONS, k) s' /\
  ~ exists p f, In (p, f) (evs s') /\ holds_point 2 0 s' p.
Proof.
  exists (cex_mem (nQ 8 10) (nQ 11 10) (nZ 2) (nZ 1)). split; [apply cex_layout; auto|]. split; [reflexivity|].
  assert (K : cex_other (cobyla_optimize 2 1 false cex_lin cex_cn 0 None (nQ 3 10) (nQ 1 50 : NumD) 12 100 50 200
    (cex_mem (nQ 8 10) (nQ 11 10) (nZ 2) (nZ 1))) = true) by (vm_cast_no_check (eq_refl true)).
  destruct (cobyla_optimize _ _ _ _ _ _ _ _ _ _ _ _ _ _) as [[[] k] s'|s'|s'|s']; try discriminate K.
  exists k, s'. split; [reflexivity|]. intros (p & f & Hin & Hp).
  cbn [cex_other] in K. rewrite forallb_forall in K. specialize (K _ Hin). apply andb_true_iff in K. destruct K as [K K2].
  unfold cex_match in K. cbn [fst] in K, K2. destruct p as [|a [|b [|]]]; try discriminate K2.
  destruct (Hp 1 ltac:(lia)) as (u & E1 & E2). destruct (Hp 2 ltac:(lia)) as (u' & E3 & E4). cbn in E1, E3. injection E1 as <-. injection E3 as <-.
  unfold at1 in E2, E4. cbn in E2, E4. rewrite E2, E4, K2 in K. discriminate K.
Qed.
Print Assumptions C65_rounding_refuted.
