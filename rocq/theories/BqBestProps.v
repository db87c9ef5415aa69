(** * C56: BOBYQA returns the best of the points it has tried (exact arithmetic)

    The theorems are about [bobyqa_optimize] (BqModel.v) with the arrays described by [layout] (BqSpec.v).  [evs s'] is the list
    of the calls of the objective function: the point and the value returned, the last call first. *)
From Coq Require Import ZArith Reals List Bool Lia Lra.
From Flocq Require Import Core.
From Verif Require Import Num BqLang BqModel BqWp BqSafe BqSpec BqTop BqStart BqPc BqBest BqBestTop BqProps.
Import ListNotations.
Local Open Scope Z_scope.

(** [f] is at least as good as [g] *)
Definition better (maximize : bool) (f g : R) : Prop := if maximize then (g <= f)%R else (f <= g)%R.

(** The evaluation [(p, f)] is one of [l] and none of [l] is better *)
Definition best {H I : R} (maximize : bool) (e : list (NumR H I) * NumR H I) (l : list (list (NumR H I) * NumR H I)) : Prop :=
  In e l /\ forall e', In e' l -> better maximize (snd e) (snd e').

(** The n variables of the array x *)
Definition holds_point {N : Num} (n x : Z) (s : mst N) (p : list N) : Prop :=
  forall i, 1 <= i <= n -> exists v, nth_error p (Z.to_nat (i - 1)) = Some v /\ mm s (at1 x i) = Some v.

Section Lift.
Variables H I : R.
Notation N := (NumR H I).
Definition sgn_of (maximize : bool) : N := if maximize then nZ (-1) else one.
Lemma least_best maximize fn scl tx n (e : list N * N) l :
  least H I (mkctx fn scl tx (sgn_of maximize) n) e l -> best maximize e l.
Proof.
  intros [A B]. split; [exact A|]. intros e' He. specialize (B e' He). unfold val in B. cbn [c_sgn] in B. unfold better, sgn_of in *.
  destruct maximize; unfold one in B; cbn [nZ NumR] in B; cbn [num NumR] in *; lra.
Qed.

Lemma sgn_sq maximize : (sgn_of maximize * sgn_of maximize = 1)%R.
Proof. unfold sgn_of. destruct maximize; unfold one; cbn [nZ NumR]; lra. Qed.

Definition outcome n x w (r : bstatus) (maximize : bool) (s' : mst N) : Prop := exists L p f,
    (evs s' = L \/ r = BQ_STEP_FAILED /\ exists e0, evs s' = e0 :: L) /\
    best maximize (p, f) L /\ holds_point n x s' p /\ (r = BQ_SUCCESS -> mm s' w = Some f).

Lemma out_outcome n x w maximize fn scl tx r s' :
  r <> BQ_TOO_CLOSE -> out_best H I n (mkctx fn scl tx (sgn_of maximize) n) x w r s' -> outcome n x w r maximize s'.
Proof.
  intros Hr [A|(L & [p f] & A1 & A2 & A3 & A4)]; [contradiction|]. exists L, p, f. split; [exact A1|].
  split; [eapply least_best; eauto|]. split; [exact A3|exact A4].
Qed.

Lemma optimize_best n npt maximize fn x xl xu scl (rhobeg rhoend : N) maxfun w fuel s lo hi sc r s' :
  layout n npt x xl xu scl w s -> evs s = [] -> holds n xl xu scl s lo hi sc ->
  bobyqa_optimize n npt maximize fn x xl xu scl rhobeg rhoend maxfun w fuel s = Ret r s' ->
  ~ refused r -> outcome n x w r maximize s'.
Proof.
  intros HL He Hh E Hr. unfold bobyqa_optimize in E.
  assert (RF : forall q, refused q -> Ret (N := N) q s = Ret r s' -> outcome n x w r maximize s').
  { intros q Hq [= -> ->]. contradiction. }
  destruct (Z.ltb_spec n 2) as [Hn|Hn]; [apply (RF BQ_BAD_NVARS ltac:(unfold refused; auto) E)|].
  destruct (Z.ltb_spec npt (n + 2)) as [Hp|Hp]; [apply (RF BQ_BAD_NPT ltac:(unfold refused; auto) E)|].
  destruct (Z.ltb_spec ((n + 2) * (n + 1) / 2) npt) as [Hq|Hq]; cbn [orb] in E; [apply (RF BQ_BAD_NPT ltac:(unfold refused; auto) E)|].
  destruct (nle rhoend zero) eqn:Hr1; cbn [orb] in E; [apply (RF BQ_BAD_RHO_RANGE ltac:(unfold refused; auto) E)|].
  destruct (nlt rhobeg rhoend) eqn:Hr2; [apply (RF BQ_BAD_RHO_RANGE ltac:(unfold refused; auto) E)|].
  assert (Hnpt : n + 2 <= npt <= (n + 1) * (n + 2) / 2) by (rewrite (Z.mul_comm (n + 1)); lia).
  assert (Hrho := R_rho _ _ _ _ Hr1 Hr2).
  assert (NT : r <> BQ_TOO_CLOSE) by (intros ->; apply Hr; unfold refused; tauto).
  pose proof (ws_doc n npt scl) as Ew.
  assert (Hsc : forall a i, scl = Some a -> 1 <= i <= n -> mm s (at1 a i) = Some (sc i)).
  { intros a i -> Hi. apply (Hh i Hi). }
  destruct HL as [L1 L2 L3 L4 L5 L6 L7 L8 L9 L10 L11] eqn:EL. clear EL.
  assert (Hd : 0 <= doc_size n npt scl - work_size n npt) by (destruct scl; lia).
  assert (Hw : 0 <= work_size n npt) by (unfold work_size; pose proof (w_half n); nia).
  assert (AN : forall b i, apart b n x n -> apart b n w (doc_size n npt scl) -> 1 <= i <= n -> outb n npt x w (at1 b i) = false).
  { intros b i A1 A2 Hi. destruct (outb n npt x w (at1 b i)) eqn:Q; [|reflexivity]. apply outbP in Q. unfold apart, at1 in *. lia. }
  (* without scaling *)
  assert (PL : opt_run n npt x rhobeg rhoend maxfun w fuel (mkctx fn None 0 (sgn_of maximize) n) xl xu s = Ret r s' ->
    outcome n x w r maximize s').
  { intros E1. eapply out_outcome; [exact NT|].
    apply (wp_run H I n npt (mkctx fn None 0 (sgn_of maximize) n) x xl xu rhobeg rhoend maxfun w lo hi sc
      (fun a => exists v, mm s a = Some v) (fun a => if outb n npt x w a then None else mm s a) Hn Hnpt Hrho) with (fuel := fuel) (s := s); auto.
    - intros a Ha. assert (Eo : outb n npt x w a = true) by (apply outbP; exact Ha). rewrite Eo. split; [|reflexivity].
      destruct Ha as [Ha|Ha]; unfold inw, inx in Ha.
      + destruct (L5 (a - w)) as [v Q]; [lia|]. exists v. rewrite <- Q. f_equal. lia.
      + destruct (L1 (a - x)) as [v Q]; [lia|]. exists v. rewrite <- Q. f_equal. lia.
    - intros a Ha Hb. unfold inx, inw, apart in *. lia.
    - apply sgn_sq.
    - intros i Hi. rewrite AN by assumption. apply (Hh i Hi).
    - intros i Hi. rewrite AN by assumption. apply (Hh i Hi).
    - unfold apart in *. lia.
    - unfold apart in *. lia.
    - unfold apart in *. lia.
    - unfold apart in *. lia.
    - cbn [c_scl]. exact Logic.I.
    - split; [auto|]. intros a v. destruct (outb n npt x w a); [discriminate|auto]. }
  destruct scl as [a|]; [|apply PL, E].
  destruct (check_scl_spec n (Some a) s sc Hsc Hn a eq_refl) as (q & Eq & Hq').
  unfold bind at 1 in E. rewrite Eq in E. destruct q as [[|]|]; [|apply PL, E|apply (RF BQ_BAD_SCALING ltac:(unfold refused; tauto) E)].
  specialize (Hq' eq_refl). cbv zeta in E. set (tx := w + work_size n npt) in *.
  destruct (scale_spec n npt x xl xu (Some a) rhobeg rhoend w s HL He lo hi sc (fun i Hi => proj1 (Hh i Hi))
    (fun i Hi => proj1 (proj2 (Hh i Hi))) Hsc (fun _ _ => True) ltac:(intros; intros ? ?; auto) Hn Hnpt a
    (tx + n) (tx + n + n) eq_refl) as (s1 & E1 & V1 & F1 & D1 & T1); [reflexivity|reflexivity|].
  unfold bind at 1 in E. rewrite E1 in E.
  set (kb := fun b : Z => (outb n npt x w b || ((tx <=? b) && (b <? tx + n)))%bool).
  assert (kbP : forall b, kb b = true <-> outb n npt x w b = true \/ tx <= b < tx + n).
  { intros b. unfold kb. rewrite orb_true_iff, andb_true_iff, Z.leb_le, Z.ltb_lt. tauto. }
  assert (Kt : forall b, tx + n <= b < tx + n + 2 * n -> kb b = false).
  { intros b Hb. destruct (kb b) eqn:Q; [|reflexivity]. apply kbP in Q. rewrite outbP in Q. unfold apart in *. lia. }
  eapply out_outcome; [exact NT|].
  apply (wp_run H I n npt (mkctx fn (Some a) tx (sgn_of maximize) n) x (tx + n) (tx + n + n) rhobeg rhoend maxfun w
    (slo lo sc) (shi hi sc) sc
    (fun b => exists v, mm s1 b = Some v) (fun b => if kb b then None else mm s1 b) Hn Hnpt Hrho) with (fuel := fuel) (s := s1); auto.
  - intros b Hb. assert (Eo : outb n npt x w b = true) by (apply outbP; exact Hb).
    assert (kb b = true) as -> by (apply kbP; auto). split; [|reflexivity].
    apply D1. destruct Hb as [Hb|Hb]; unfold inw, inx in Hb.
    + destruct (L5 (b - w)) as [v Q]; [lia|]. exists v. rewrite <- Q. f_equal. lia.
    + destruct (L1 (b - x)) as [v Q]; [lia|]. exists v. rewrite <- Q. f_equal. lia.
  - intros b Ha Hb. unfold inx, inw, apart in *. lia.
  - apply sgn_sq.
  - intros i Hi. rewrite Kt by (unfold at1; lia). apply T1, Hi.
  - intros i Hi. rewrite Kt by (unfold at1; lia). apply T1, Hi.
  - unfold apart in *. lia.
  - unfold apart in *. lia.
  - unfold apart in *. lia.
  - unfold apart in *. lia.
  - cbn [c_scl c_ws]. intros i Hi. split; [|split; [|split]].
    + assert (kb (a + i) = false) as ->.
      { destruct (kb (a + i)) eqn:Q; [|reflexivity]. apply kbP in Q. rewrite outbP in Q. unfold apart in *. lia. }
      rewrite F1; [|unfold outputs, apart in *; lia].
      rewrite <- (Hsc a (i + 1) eq_refl) by lia. f_equal. unfold at1. lia.
    + assert (kb (tx + i) = true) as -> by (apply kbP; right; lia). reflexivity.
    + unfold inw. lia.
    + intros j Hj. unfold at1, apart in *. lia.
  - split; [auto|]. intros b v. destruct (kb b); [discriminate|auto].
Qed.
End Lift.

(** In exact arithmetic, when the call is not refused because of its arguments and does not end with the status
    BOBYQA_STEP_FAILED, the variables in x at the end are one of the points given to the objective function and no other one has
    a better value, with or without scaling, for a minimization or a maximization.  With the status BOBYQA_SUCCESS the value is in
    w[0], as documented in bobyqa.h 97-98. *)
Theorem C56_best_point_exact H I n npt maximize fn x xl xu scl (rhobeg rhoend : NumR H I) maxfun w fuel s lo hi sc r s' :
  layout n npt x xl xu scl w s -> evs s = [] -> holds n xl xu scl s lo hi sc ->
  bobyqa_optimize n npt maximize fn x xl xu scl rhobeg rhoend maxfun w fuel s = Ret r s' ->
  ~ (r = BQ_BAD_NVARS \/ r = BQ_BAD_NPT \/ r = BQ_BAD_RHO_RANGE \/ r = BQ_BAD_SCALING \/ r = BQ_TOO_CLOSE) ->
  r <> BQ_STEP_FAILED ->
  exists p f, best maximize (p, f) (evs s') /\ holds_point n x s' p /\ (r = BQ_SUCCESS -> mm s' w = Some f).
Proof.
  intros HL He Hh E Hr Hs. destruct (optimize_best _ _ _ _ _ _ _ _ _ _ _ _ _ _ _ _ _ _ _ _ _ HL He Hh E Hr) as (L & p & f & A1 & A2 & A3 & A4).
  exists p, f. destruct A1 as [->|[A1 _]]; [auto|contradiction].
Qed.
Print Assumptions C56_best_point_exact.

(** With the status BOBYQA_STEP_FAILED the same holds for all the points but, possibly, the last one. *)
Theorem C56_step_failed_exact H I n npt maximize fn x xl xu scl (rhobeg rhoend : NumR H I) maxfun w fuel s lo hi sc s' :
  layout n npt x xl xu scl w s -> evs s = [] -> holds n xl xu scl s lo hi sc ->
  bobyqa_optimize n npt maximize fn x xl xu scl rhobeg rhoend maxfun w fuel s = Ret BQ_STEP_FAILED s' ->
  exists L p f, (evs s' = L \/ exists e, evs s' = e :: L) /\ best maximize (p, f) L /\ holds_point n x s' p.
Proof.
  intros HL He Hh E.
  assert (Hr : ~ refused BQ_STEP_FAILED) by (unfold refused; intros [A|[A|[A|[A|A]]]]; discriminate).
  destruct (optimize_best _ _ _ _ _ _ _ _ _ _ _ _ _ _ _ _ _ _ _ _ _ HL He Hh E Hr) as (L & p & f & A1 & A2 & A3 & A4).
  exists L, p, f. split; [|auto]. destruct A1 as [A1|[_ A1]]; auto.
Qed.
Print Assumptions C56_step_failed_exact.

(** The hypotheses on the arrays hold for this memory; the execution itself is shown in double precision: BOBYQA_SUCCESS after 11
    calls of the objective function, the variables in x are the ones of one of the calls, none of the calls has a lower value, and the
    value is in w[0].  The same with a maximization of the opposite function. *)
Definition ex_best (maximize : bool) (o : out NumD bstatus) : bool :=
  match o with
  | Ret BQ_SUCCESS s =>
    (Nat.eqb (length (evs s)) 11 &&
     existsb (fun e => match fst e, mm s 0, mm s 1, mm s 100 with
       | [a; b], Some x0, Some x1, Some f => neq a x0 && neq b x1 && neq f (snd e) &&
           forallb (fun e' => if maximize then nle (snd e') (snd e) else nle (snd e) (snd e')) (evs s)
       | _, _, _, _ => false end) (evs s))%bool
  | _ => false
  end.
Example C56_ex :
  (forall H I, layout 2 5 0 10 20 (Some 30) 100 (@ex_mem (NumR H I) 0 0 (-10) (-10) 10 10 2 1)%R /\
     holds 2 10 20 (Some 30) (@ex_mem (NumR H I) 0 0 (-10) (-10) 10 10 2 1)%R (fun _ => -10)%R (fun _ => 10)%R
       (fun i => if i =? 1 then 2 else 1)%R) /\
  ex_best false (bobyqa_optimize 2 5 false ex_fn 0 10 20 None (nZ 1) (nQ 1 10 : NumD) 100 100 2000
    (ex_mem (nZ 0) (nZ 0) (nZ (-10)) (nZ (-10)) (nZ 10) (nZ 10) (nZ 2) (nZ 1))) = true /\
  ex_best true (bobyqa_optimize 2 5 true (fun h p => nopp (ex_fn h p)) 0 10 20 None (nZ 1) (nQ 1 10 : NumD) 100 100 2000
    (ex_mem (nZ 0) (nZ 0) (nZ (-10)) (nZ (-10)) (nZ 10) (nZ 10) (nZ 2) (nZ 1))) = true.
Proof.
  split; [|split; vm_compute; reflexivity].
  intros H I. split; [apply ex_layout; auto|]. intros i Hi. assert (D : i = 1 \/ i = 2) by lia. destruct D as [-> | ->]; repeat split.
Qed.
