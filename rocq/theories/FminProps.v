(** * Properties of the minimization of a function of one variable (C33, C34, C35, C36) *)
From Coq Require Import List ZArith Bool Arith Lia Reals Lra.
From Flocq Require Import Core.
From Verif Require Import Num NumFacts OrdFacts VecModel Base LsReal FminModel FminProofs FminReal FminRc VmProps.
Import ListNotations.

(** ** Specification *)

(** [s] is the state reached by [opk_fmin] after at most [fuel] steps of its loops: [f_points s] are the points where f has been
    called, most recent first; [ret] is the returned value if it has returned. *)
Definition reached {N : Num} (f : N -> N) fuel a b flags maxeval prec (ret : option Z) (s : fm N) : Prop :=
  match fmin_run f fuel a b flags maxeval prec with
  | Some (Running s') => ret = None /\ s = s'
  | Some (Done st s') => ret = Some st /\ s = s'
  | None => False
  end.

(** The value reported for [p] is the one returned by f at [p], or infinite if [p] is an exclusive bound. *)
Definition value_at {N : Num} (f : N -> N) (a b : N) (flags : Z) (points : list N) (p fp : N) : Prop :=
  (In p points /\ fp = f p) \/
  (Z.land flags 1 <> 0%Z /\ p = a /\ fp = ninf) \/ (Z.land flags 2 <> 0%Z /\ p = b /\ fp = ninf).

Lemma known_value {N : Num} (f : N -> N) a b flags pts p fp : known f a b flags pts p fp -> value_at f a b flags pts p fp.
Proof.
  unfold known, value_at, bounded_by_a, bounded_by_b.
  destruct (Z.eqb_spec (Z.land flags 1) 0), (Z.eqb_spec (Z.land flags 2) 0); cbn [negb]; intros [H|[(H & ?)|(H & ?)]]; auto; discriminate H.
Qed.

(** ** C33 *)

(** The values, for IEEE arithmetic or exact arithmetic.  The values of the function must be numbers (not NaN) and not larger
    than HUGE_VAL. *)
Theorem C33_values (N : Num) (O : OrdLaws N) (f : N -> N) fuel a b flags maxeval prec st s :
  (forall x, (f x =? f x)%num = true) -> (forall x, (f x <=? ninf)%num = true) -> ((ninf : N) =? ninf)%num = true ->
  reached f fuel a b flags maxeval prec (Some st) s ->
  (st = 0 \/ st = 1 \/ st = 2)%Z /\
  exists xmin xlo xup fmin flo fup, fmin_out s = [xmin; xlo; xup; fmin; flo; fup] /\
  In xmin (f_points s) /\ fmin = f xmin /\
  value_at f a b flags (f_points s) xlo flo /\ value_at f a b flags (f_points s) xup fup /\
  (st <> 2%Z -> (fmin <=? flo)%num = true /\ (fmin <=? fup)%num = true /\ forall p, In p (f_points s) -> (fmin <=? f p)%num = true).
Proof.
  intros Hn Hi H0. unfold reached, fmin_run. destruct (a =? b)%num; [intros []|].
  set (pr := if (prec <? nZ 0)%num then _ else _).
  pose proof (search_values O f a b flags Hn Hi H0 maxeval pr fuel) as HV.
  destruct (fmin_search f fuel maxeval pr (fmin_first f a b flags)) as [s'|st' s']; [intros [HH _]; discriminate HH|].
  intros [HH ->]. injection HH as ->.
  assert (Rec : records f a b flags s') by (destruct HV as [(_ & (HH & _) & _)|((HH & _) & _)]; exact HH).
  split; [destruct HV as [(-> & _)|(_ & [(-> & _)|(-> & _)])]; auto|].
  destruct Rec as (_ & Ku & (Kv & Ev) & Kw). apply known_value in Ku, Kw.
  unfold fmin_out. destruct (fu_x s' >? fw_x s')%num; do 6 eexists; (split; [reflexivity|]); (split; [exact Kv|]); (split; [exact Ev|]);
    (split; [assumption|]); (split; [assumption|]); intros Hst; (destruct HV as [(-> & _)|((_ & B1 & B2 & B3) & _)]; [congruence|auto]).
Qed.
Print Assumptions C33_values.

(** The order, in exact arithmetic. *)
Theorem C33_order (H I : R) (f : NumR H I -> NumR H I) fuel a b flags maxeval prec ret s :
  (forall x, (f x <= I)%R) -> reached f fuel a b flags maxeval prec ret s ->
  exists xmin xlo xup rest, fmin_out s = xmin :: xlo :: xup :: rest /\ (xlo < xmin < xup)%R.
Proof.
  intros Hi. unfold reached, fmin_run. destruct (a =? b)%num eqn:Eab; [intros []|].
  assert (Hab : a <> b) by (cbn in Eab; now rb).
  set (pr := if (prec <? nZ 0)%num then _ else _).
  pose proof (search_geo H I f a b flags Hi Hab maxeval pr fuel) as HV.
  assert (K : forall s', geo H I a b flags s' -> exists xmin xlo xup rest, fmin_out s' = xmin :: xlo :: xup :: rest /\ (xlo < xmin < xup)%R).
  { intros s' (B & _). unfold fmin_out. cbn [nlt NumR]. unfold between in B.
    destruct (Rlt_bool (fw_x s') (fu_x s')) eqn:E; rb; change (num (NumR H I)) with R in *; do 4 eexists; (split; [reflexivity|]); lra. }
  destruct (fmin_search f fuel maxeval pr (fmin_first f a b flags)) as [s'|st' s']; intros [_ ->]; exact (K _ HV).
Qed.
Print Assumptions C33_order.

(** ** C34 *)

(** [p] is strictly on the side of the end [e] where the other end [o] is. *)
Definition strictly_inside (e o p : R) : Prop := (e < o /\ e < p)%R \/ (o < e /\ p < e)%R.

Theorem C34 (H I : R) (f : NumR H I -> NumR H I) fuel a b flags maxeval prec ret s :
  (forall x, (f x <= I)%R) -> reached f fuel a b flags maxeval prec ret s ->
  forall p, In p (f_points s) ->
  (Z.land flags 1 <> 0%Z -> strictly_inside a b p) /\ (Z.land flags 2 <> 0%Z -> strictly_inside b a p).
Proof.
  intros Hi. unfold reached, fmin_run. destruct (a =? b)%num eqn:Eab; [intros []|].
  assert (Hab : a <> b) by (cbn in Eab; now rb).
  set (pr := if (prec <? nZ 0)%num then _ else _).
  pose proof (search_geo H I f a b flags Hi Hab maxeval pr fuel) as HV.
  assert (K : forall s', geo H I a b flags s' -> forall p, In p (f_points s') ->
     (Z.land flags 1 <> 0%Z -> strictly_inside a b p) /\ (Z.land flags 2 <> 0%Z -> strictly_inside b a p)).
  { intros s' (_ & _ & _ & _ & P) p Hp. destruct (P p Hp) as [P1 P2]. unfold bounded_by_a, bounded_by_b in *.
    change (num (NumR H I)) with R in *. unfold strictly_inside.
    split; intros E; [specialize (P1 ltac:(now apply negb_true_iff, Z.eqb_neq)) | specialize (P2 ltac:(now apply negb_true_iff, Z.eqb_neq))].
    - destruct (Rtotal_order a b) as [L|[L|L]]; [left|contradiction|right]; split; try lra; nra.
    - destruct (Rtotal_order a b) as [L|[L|L]]; [right|contradiction|left]; split; try lra; nra. }
  destruct (fmin_search f fuel maxeval pr (fmin_first f a b flags)) as [s'|st' s']; intros [_ ->]; exact (K _ HV).
Qed.
Print Assumptions C34.

(** With rounding: in the interval from 1 to 1 + 2^-52 (the next floating-point number), whose first end is exclusive, f is
    called at 1. *)
Definition next_one : NumD := (nZ 1 + nQ 1 (2 ^ 52))%num.
Theorem C34_rounding_refuted : exists (f : NumD -> NumD) fuel a b flags maxeval prec st s,
  (forall x, (f x <=? ninf)%num = true) /\ (a <? b)%num = true /\ Z.land flags 1 <> 0%Z /\
  reached f fuel a b flags maxeval prec (Some st) s /\ exists p, In p (f_points s) /\ (p <=? a)%num = true.
Proof.
  exists (fun _ => nZ 0), 5, (nZ 1), next_one, 1%Z, 0%Z, (nZ (-1)).
  assert (X : match fmin_run (fun _ => nZ 0 : NumD) 5 (nZ 1) next_one 1 0 (nZ (-1)) with
    | Some (Done st s) => existsb (fun p => p <=? nZ 1)%num (f_points s) | _ => false end = true) by (vm_compute; reflexivity).
  unfold reached. destruct (fmin_run _ _ _ _ _ _ _) as [[s|st s]|]; [discriminate X| |discriminate X].
  exists st, s. apply existsb_exists in X. repeat split; try assumption; try discriminate; try (intros; vm_compute; reflexivity).
Qed.
Print Assumptions C34_rounding_refuted.

(** ** C35 *)

(** For any arithmetic and any function. *)
Theorem C35_limit (N : Num) (f : N -> N) fuel a b flags maxeval prec ret s :
  (0 < maxeval)%Z -> reached f fuel a b flags maxeval prec ret s ->
  f_nevals s = Z.of_nat (length (f_points s)) /\ (f_nevals s <= Z.max maxeval 3)%Z /\
  (Z.of_nat fuel > maxeval -> exists st, ret = Some st)%Z.
Proof.
  intros Hm. unfold reached, fmin_run. destruct (a =? b)%num; [intros []|].
  set (pr := if (prec <? nZ 0)%num then _ else _).
  pose proof (count_bound f maxeval pr a b flags fuel Hm) as HC.
  pose proof (search_ends f maxeval pr Hm fuel (fmin_first f a b flags)) as HE. destruct (records_first f a b flags) as [_ R1].
  destruct (fmin_search f fuel maxeval pr (fmin_first f a b flags)) as [s'|st' s']; intros [-> ->]; (split; [apply HC|split; [apply HC|]]); intros Hf.
  - destruct (HE ltac:(lia) ltac:(lia)) as (? & ? & ?). congruence.
  - eauto.
Qed.
Print Assumptions C35_limit.

(** out[6], with or without a limit. *)
Theorem C35_count (N : Num) (f : N -> N) fuel a b flags maxeval prec ret s :
  reached f fuel a b flags maxeval prec ret s -> f_nevals s = Z.of_nat (length (f_points s)).
Proof.
  unfold reached, fmin_run. destruct (a =? b)%num; [intros []|].
  set (pr := if (prec <? nZ 0)%num then _ else _).
  set (P := fun s : fm N => f_nevals s = Z.of_nat (length (f_points s))).
  pose proof (search_inv f P P maxeval pr) as HI.
  specialize (HI ltac:(intros s0 H0 _ _; unfold P, enlarge in *; cbn [f_nevals f_points length]; lia)).
  specialize (HI ltac:(auto)).
  specialize (HI ltac:(intros s0 H0 _ _; unfold P, shrink, fmin_update in *; destruct (_ || _); cbn [f_nevals f_points length]; lia)).
  specialize (HI fuel _ (proj1 (proj1 (records_first f a b flags)))).
  destruct (fmin_search f fuel maxeval pr (fmin_first f a b flags)) as [s'|st' s']; intros [_ ->]; unfold P in HI; tauto.
Qed.
Print Assumptions C35_count.

(** Without a limit, in exact arithmetic: when there is a bracket (no larger value in the middle than on the side of the search)
    which does not contain a neighbourhood of zero, the function returns; the number of further evaluations is at most the number
    of reductions by 0.63 needed to bring the length of the bracket below the precision.
    Missing: brackets which contain zero, see below. *)
Lemma reduce_more {N : Num} (f : N -> N) maxeval prec k : forall n s s', fmin_reduce f n maxeval prec s = Running s' ->
  fmin_reduce f (n + k) maxeval prec s = fmin_reduce f k maxeval prec s'.
Proof.
  induction n as [|n IH]; intros s s' E; [now injection E as ->|]. cbn [plus]. rewrite reduce_S in *.
  destruct (conv prec s); [discriminate|]. destruct (spent maxeval s); [discriminate|]. now apply IH.
Qed.
Lemma search_more {N : Num} (f : N -> N) maxeval prec k : forall n s s', fmin_search f n maxeval prec s = Running s' ->
  (fv_f s' >? fw_f s')%num = false -> fmin_search f (n + S k) maxeval prec s = fmin_reduce f (S k) maxeval prec s'.
Proof.
  induction n as [|n IH]; intros s s' E B.
  - injection E as ->. cbn [plus]. now rewrite search_S, B.
  - cbn [plus]. rewrite search_S in E |- *. destruct (fv_f s >? fw_f s)%num.
    + destruct (spent maxeval s); [discriminate|]. now apply IH.
    + change (S (n + S k)) with (S n + S k). now apply reduce_more.
Qed.

Theorem C35_converges_partial (H I : R) (f : NumR H I -> NumR H I) fuel a b flags maxeval (prec : NumR H I) s (m : R) k :
  (forall x, (f x <= I)%R) -> (0 <= prec)%R ->
  reached f fuel a b flags maxeval prec None s -> (fv_f s <= fw_f s)%R ->
  (0 < m)%R -> ((m <= fu_x s /\ m <= fw_x s) \/ (fu_x s <= - m /\ fw_x s <= - m))%R ->
  (Rabs (fw_x s - fu_x s) * 0.63 ^ k <= prec * m)%R ->
  exists st s', reached f (fuel + S k) a b flags maxeval prec (Some st) s'.
Proof.
  intros Hi Hp. unfold reached, fmin_run. destruct (a =? b)%num eqn:Eab; [intros []|].
  assert (Hab : a <> b) by (cbn in Eab; now rb).
  assert (Ep : (prec <? nZ 0)%num = false) by (apply Rlt_bool_false; exact Hp). rewrite Ep.
  pose proof (search_geo H I f a b flags Hi Hab maxeval prec fuel) as HG.
  pose proof (search_inv f (golden H I) (fun s => golden H I s /\ between (fu_x s) (fv_x s) (fw_x s)) maxeval prec) as HI.
  assert (HI' : match fmin_search f fuel maxeval prec (fmin_first f a b flags) with Running s => golden H I s | _ => True end).
  { pose proof (search_inv f (fun s => golden H I s /\ (geo H I a b flags s /\ away H I a b flags s)) (fun s => golden H I s /\ geo H I a b flags s) maxeval prec) as HJ.
    specialize (HJ ltac:(intros s0 (_ & G1 & G2) E _; split; [apply golden_enlarge|]; apply geo_enlarge; auto; cbn in E; now rb)).
    specialize (HJ ltac:(intros s0 (HH & G1 & _) _; exact (conj HH G1))).
    specialize (HJ ltac:(intros s0 (HH & G1) _ _; split; [apply shrink_spec; [exact HH | apply G1] | now apply geo_shrink])).
    specialize (HJ fuel _ (conj (golden_first H I f a b flags) (geo_first H I f a b flags Hi Hab))).
    destruct (fmin_search f fuel maxeval prec (fmin_first f a b flags)); [destruct HJ as [[HJ _]|[HJ _]]; exact HJ | exact Logic.I]. }
  clear HI. destruct (fmin_search f fuel maxeval prec (fmin_first f a b flags)) as [s'|] eqn:E; intros [HN ->]; [|discriminate HN].
  intros HB Hm Hs Hk.
  assert (HB' : (fv_f s' >? fw_f s')%num = false) by (apply Rlt_bool_false; exact HB).
  rewrite (search_more f maxeval prec k fuel _ s' E HB').
  assert (HR : exists c d : R, (m <= c \/ d <= - m)%R /\ (c <= fu_x s' <= d)%R /\ (c <= fw_x s' <= d)%R).
  { change (num (NumR H I)) with R in *. destruct Hs as [[S1 S2]|[S1 S2]].
    - exists m, (Rmax (fu_x s') (fw_x s')). pose proof (Rmax_l (fu_x s') (fw_x s')). pose proof (Rmax_r (fu_x s') (fw_x s')). lra.
    - exists (Rmin (fu_x s') (fw_x s')), (- m)%R. pose proof (Rmin_l (fu_x s') (fw_x s')). pose proof (Rmin_r (fu_x s') (fw_x s')). lra. }
  destruct HR as (c & d & Hcd & Hu & Hw).
  destruct (reduce_converges H I f prec m c d Hp Hm Hcd k s' maxeval HI' (proj1 HG) Hu Hw Hk) as (st & s'' & ->). exists st, s''. auto.
Qed.
Print Assumptions C35_converges_partial.

(** The last statement of C35 is false of brackets which contain zero, the precision being relative to the magnitude of the
    variable: the search of the minimum of |x| from [-1,1] never ends, in exact arithmetic, whatever the precision less than 0.6.
    The documentation of maxeval in optimpack.h ("if non-negative, the maximum number of function evaluations") is also false for
    maxeval = 0: there is no limit. *)
Theorem C35_zero_refuted : exists (H I : R) (f : NumR H I -> NumR H I) a b flags maxeval prec,
  maxeval = 0%Z /\ (0 < prec)%R /\ (forall x y, (f x <= f y)%R <-> (Rabs x <= Rabs y)%R) /\
  forall fuel, exists s, reached f fuel a b flags maxeval prec None s /\ f_nevals s = (3 + Z.of_nat fuel)%Z.
Proof.
  exists 10%R, 20%R, (vee 10 20), (-1)%R, 1%R, 0%Z, 0%Z, 0.5%R. split; [reflexivity|]. split; [lra|]. split; [reflexivity|]. intros fuel.
  unfold reached, fmin_run.
  assert (E1 : (((-1)%R : NumR 10 20) =? (1%R : NumR 10 20))%num = false) by (cbn [neq NumR]; apply Req_bool_false; lra). rewrite E1.
  assert (E2 : (((0.5)%R : NumR 10 20) <? nZ 0)%num = false) by (cbn [nlt nZ NumR]; apply Rlt_bool_false; lra). rewrite E2.
  pose proof (alpha_bounds 10 20) as A.
  set (s := fmin_first (vee 10 20) (-1)%R 1%R 0).
  assert (F : fu_x s = (-1)%R /\ fw_x s = 1%R /\ fv_x s = (alpha 10 20 * (1 - -1) + -1)%R /\ fv_f s = Rabs (fv_x s) /\ fw_f s = 1%R /\ f_nevals s = 3%Z).
  { unfold s, fmin_first. cbn [bounded_by_a bounded_by_b Z.land Z.eqb negb]. 
    assert (E : (vee 10 20 1%R >? vee 10 20 (-1)%R)%num = false) by (cbn [nlt NumR]; unfold vee; apply Rlt_bool_false; rewrite (Rabs_left (-1)), (Rabs_right 1); lra).
    change (bounded_by_a 0) with false. change (bounded_by_b 0) with false. cbn [negb]. rewrite E. cbn [fu_x fw_x fv_x fv_f fw_f f_nevals]. repeat split. unfold vee. apply Rabs_right; lra. }
  destruct F as (F1 & F2 & F3 & F4 & F5 & F6).
  assert (HA : around 10 20 s).
  { split; [apply golden_first|]. split; [|split; [exact F4|]]; unfold between; rewrite ?F1, ?F2, ?F3; lra. }
  destruct (vee_never 10 20 0.5%R 0 ltac:(lra) ltac:(lia) fuel s HA) as (s' & Es & Hn). exists s'. rewrite F6 in Hn.
  assert (Hv : (fv_f s >? fw_f s)%num = false).
  { cbn [nlt NumR]. apply Rlt_bool_false. rewrite F4, F5, F3. unfold Rabs. destruct (Rcase_abs _); lra. }
  destruct fuel as [|fuel]; [injection Es as <-; split; [split; reflexivity | exact Hn]|]. rewrite search_S, Hv, Es. auto.
Qed.
Print Assumptions C35_zero_refuted.

(** ** C36 *)

(** [opk_fmin_next] called with the values of f requests the points of [opk_fmin] called without limit and with the same precision,
    in the same order, for any number [n] of evaluations after the first ones, any arithmetic and any function, if the requested
    points are not NaN (x != x would be considered as a change of the variable); it converges in the same state. *)
Theorem C36 (N : Num) (f : N -> N) n a b flags maxeval prec (c : ctx N) ret s :
  (maxeval <= 0)%Z -> reached f n a b flags maxeval prec ret s ->
  x_prec c = (if prec <? nZ 0 then FMIN_SQRT_EPSILON else prec)%num ->
  (forall p, In p (f_points s) -> (p =? p)%num = true) ->
  exists k c' xp, (1 <= k <= 3) /\ rc_run f (k + n) c a b flags = Some (c', xp, f_points s) /\
  x_nevals c' = Z.of_nat (length (f_points s)) /\
  (ret = None -> length (f_points s) = k + n /\ (x_status c' = FFX \/ x_status c' = FCONVERGENCE)) /\
  (ret <> None -> ret = Some 0%Z /\ x_status c' = FCONVERGENCE /\
    x_u c' = fu_x s /\ x_v c' = fv_x s /\ x_w c' = fw_x s /\ x_fu c' = fu_f s /\ x_fv c' = fv_f s /\ x_fw c' = fw_f s).
Proof.
  intros Hm Hr Hc HP. pose proof (C35_count N f n a b flags maxeval prec ret s Hr) as HN.
  unfold reached, fmin_run in Hr. destruct (a =? b)%num eqn:Eab; [destruct Hr|]. rewrite <- Hc in Hr.
  destruct (records_first f a b flags) as [_ R1].
  exists (Z.to_nat (f_nevals (fmin_first f a b flags))).
  pose proof (rc_direct f maxeval c a b flags n Eab Hm) as HD.
  assert (HL : match fmin_search f n maxeval (x_prec c) (fmin_first f a b flags) with Running s => f_nevals s = (f_nevals (fmin_first f a b flags) + Z.of_nat n)%Z | _ => True end).
  { clear - Hm. generalize (fmin_first f a b flags). generalize (x_prec c). intros prec s.
    assert (Sp : forall s : fm N, spent maxeval s = false) by (intros s0; unfold spent; rewrite Z.gtb_ltb; destruct (Z.ltb_spec 0 maxeval); [lia|reflexivity]).
    assert (KR : forall n s, match fmin_reduce f n maxeval prec s with Running s' => f_nevals s' = (f_nevals s + Z.of_nat n)%Z | _ => True end).
    { clear s n. induction n as [|n IH]; intros s; [cbn; lia|]. rewrite reduce_S, Sp. destruct (conv prec s); [trivial|]. specialize (IH (shrink f s)).
      destruct (fmin_reduce f n maxeval prec (shrink f s)); [|trivial]. rewrite IH. unfold shrink, fmin_update; destruct (_ || _); cbn [f_nevals]; lia. }
    revert s. induction n as [|n IH]; intros s; [cbn; lia|]. rewrite search_S, Sp. destruct (fv_f s >? fw_f s)%num; [|apply KR].
    specialize (IH (enlarge f s)). destruct (fmin_search f n maxeval prec (enlarge f s)); [|trivial]. rewrite IH. cbn [enlarge f_nevals]. lia. }
  destruct (fmin_search f n maxeval (x_prec c) (fmin_first f a b flags)) as [s'|st s']; destruct Hr as [-> ->]; cbn [final_state] in HD;
    destruct (HD HP) as ([[c' xp] pts] & E & A); cbn in A; exists c', xp; rewrite E; (split; [lia|]).
  - destruct A as (-> & A2 & A3). split; [reflexivity|]. split; [congruence|]. split; [|congruence]. intros _. split; [lia|exact A3].
  - destruct A as (-> & -> & (S1 & S2 & S3 & S4 & S5 & S6 & S7 & S8) & A3). split; [reflexivity|]. split; [congruence|]. split; [discriminate|]. auto 10.
Qed.
Print Assumptions C36.

(** [opk_fmin_get_final] does not report the bracket: one of the reported ends is the minimum, for any workspace... *)
Theorem C36_get_final (N : Num) (c : ctx N) xmin xlo xup fmin flo fup nevals :
  fmin_get_final c = Some ([xmin; xlo; xup; fmin; flo; fup], nevals) ->
  xmin = x_v c /\ fmin = x_fv c /\ nevals = x_nevals c /\ ((xlo = xmin /\ flo = fmin) \/ (xup = xmin /\ fup = fmin)).
Proof.
  unfold fmin_get_final. destruct (_ <? 0)%Z; [discriminate|]. destruct (x_u c >? x_w c)%num; intros E; injection E; intros; subst; auto 6.
Qed.
Print Assumptions C36_get_final.
(** ... while the direct function reports an end on each side of the minimum: here the minimum of (x - 1/3)^2 from [0,2]. *)
Definition parab (x : NumD) : NumD := ((x - nQ 1 3) * (x - nQ 1 3))%num.
Definition differ (r1 : option (outcome NumD)) (r2 : option (ctx NumD * NumD * list NumD)) : bool :=
  match r1, r2 with
  | Some (Done 0 s), Some (c, _, _) =>
    match fmin_out s, fmin_get_final c with
    | xmin :: xlo :: xup :: _, Some (xmin' :: xlo' :: xup' :: _, _) =>
      (xlo <? xmin) && (xmin <? xup) && (xmin =? xmin') && ((xmin' =? xlo') || (xmin' =? xup'))
    | _, _ => false
    end%num
  | _, _ => false
  end.
Theorem C36_get_final_refuted : exists (f : NumD -> NumD) n a b flags k,
  differ (fmin_run f n a b flags 0 (nZ (-1))) (rc_run f (k + n) fmin_new a b flags) = true.
Proof. exists parab, 100, (nZ 0), (nZ 2), 0%Z, 3. vm_compute. reflexivity. Qed.
Print Assumptions C36_get_final_refuted.

(** The value of the function at another point than the requested one is refused; then, whatever the calls of [opk_fmin_next] made
    later, the status remains an error, no evaluation is counted, the bracket is not modified and the result is not available. *)
Definition later {N : Num} (calls : list (N * N)) (c : ctx N) : ctx N :=
  fold_left (fun c call => fst (fmin_next c (fst call) (snd call))) calls c.
Theorem C36_other_point (N : Num) (c : ctx N) xp fx calls :
  (x_status c = FFX \/ x_status c = FCONVERGENCE) -> (xp =? x_x c)%num = false ->
  let c' := later calls (fst (fmin_next c xp fx)) in
  x_status c' = FERROR /\ x_nevals c' = x_nevals c /\ fmin_get_final c' = None /\
  x_u c' = x_u c /\ x_v c' = x_v c /\ x_w c' = x_w c /\ x_fu c' = x_fu c /\ x_fv c' = x_fv c /\ x_fw c' = x_fw c.
Proof.
  intros Hs Hx. assert (E : fst (fmin_next c xp fx) = ferror c).
  { unfold fmin_next. rewrite Hx. destruct Hs as [-> | ->]; reflexivity. }
  rewrite E. cbv zeta. unfold later. assert (K : fold_left (fun c call => fst (fmin_next c (fst call) (snd call))) calls (ferror c) = ferror c).
  { induction calls as [|q calls IH]; [reflexivity|]. cbn [fold_left]. rewrite <- IH at 2. reflexivity. }
  rewrite K. repeat split; reflexivity.
Qed.
Print Assumptions C36_other_point.
(** After the start on [0,2] the value at 0 is requested: the one at 1 is refused. *)
Example C36_other_point_ex :
  match rc_run parab 1 fmin_new (nZ 0) (nZ 2) 0%Z with
  | Some (c, xp, _) => match x_status c with FFX => negb (nZ 1 =? x_x c)%num | _ => false end
  | None => false
  end = true.
Proof. vm_compute. reflexivity. Qed.

(** A new call of [opk_fmin_next] after the convergence, with the same variable and its value, counts one more evaluation and
    changes the state: the bracket is degenerate (the last point is taken a second time). *)
Definition again (r : option (ctx NumD * NumD * list NumD)) : bool :=
  match r with
  | Some (c, xp, _) =>
    match x_status c with
    | FCONVERGENCE => let '(c', _) := fmin_next c xp (parab xp) in
      (x_nevals c' =? x_nevals c + 1)%Z && ((x_u c' =? x_v c')%num || (x_v c' =? x_w c')%num || (x_u c' =? x_w c')%num)
    | _ => false
    end
  | None => false
  end.
Theorem C36_again_refuted : exists n a b flags, again (rc_run parab n fmin_new a b flags) = true.
Proof. exists 103, (nZ 0), (nZ 2), 0%Z. vm_compute. reflexivity. Qed.
Print Assumptions C36_again_refuted.

(** ** Examples *)

(** In double precision: minimum of (x - 1/3)^2, from the exclusive interval ]0,2[, from the interval [3,4] and with a limit. *)
Definition ends_with (st : Z) (r : option (outcome NumD)) : bool :=
  match r with
  | Some (Done st' s) => (st =? st')%Z && (0 <? f_nevals s)%Z && forallb (fun p => parab p <=? ninf)%num (f_points s)
  | _ => false
  end.
Example C33_example : exists s1 s2 s3,
  reached parab 100 (nZ 0) (nZ 2) 3 0 (nZ (-1)) (Some 0%Z) s1 /\ reached parab 100 (nZ 3) (nZ 4) 0 0 (nZ (-1)) (Some 0%Z) s2 /\
  reached parab 100 (nZ 3) (nZ 4) 0 10 (nZ (-1)) (Some 1%Z) s3.
Proof.
  assert (X : ends_with 0 (fmin_run parab 100 (nZ 0) (nZ 2) 3 0 (nZ (-1))) && ends_with 0 (fmin_run parab 100 (nZ 3) (nZ 4) 0 0 (nZ (-1)))
    && ends_with 1 (fmin_run parab 100 (nZ 3) (nZ 4) 0 10 (nZ (-1))) = true) by (vm_compute; reflexivity).
  apply andb_prop in X as [X X3]. apply andb_prop in X as [X1 X2]. unfold reached.
  destruct (fmin_run parab 100 (nZ 0) (nZ 2) 3 0 (nZ (-1))) as [[|st1 s1]|]; [discriminate X1| |discriminate X1].
  destruct (fmin_run parab 100 (nZ 3) (nZ 4) 0 0 (nZ (-1))) as [[|st2 s2]|]; [discriminate X2| |discriminate X2].
  destruct (fmin_run parab 100 (nZ 3) (nZ 4) 0 10 (nZ (-1))) as [[|st3 s3]|]; [discriminate X3| |discriminate X3].
  exists s1, s2, s3. unfold ends_with in *. 
  destruct (Z.eqb_spec 0 st1), (Z.eqb_spec 0 st2), (Z.eqb_spec 1 st3); try discriminate; subst; auto.
Qed.

(** In exact arithmetic: a function whose values are less than 1, with the exclusive bounds 1 and 2; the first bracket is [1,2]
    which is reduced below the precision 1/100 in 10 steps. *)
Definition flat (x : NumR 10 20) : NumR 10 20 := 1%R.
Example C35_example : exists s, (forall x, (flat x <= 20)%R) /\ reached flat 0 1%R 2%R 3 0 (0.01)%R None s /\ (fv_f s <= fw_f s)%R /\
  (1 <= fu_x s /\ 1 <= fw_x s)%R /\ (Rabs (fw_x s - fu_x s) * 0.63 ^ 10 <= 0.01 * 1)%R.
Proof.
  exists (fmin_first flat 1%R 2%R 3). split; [intros; unfold flat; lra|]. split.
  - unfold reached, fmin_run. assert (E1 : ((1%R : NumR 10 20) =? (2%R : NumR 10 20))%num = false) by (cbn [neq NumR]; apply Req_bool_false; lra). rewrite E1. split; reflexivity.
  - unfold fmin_first. change (bounded_by_a 3) with true. change (bounded_by_b 3) with true. cbn [negb].
    assert (E : ((ninf : NumR 10 20) >? ninf)%num = false) by (cbn [nlt NumR]; apply Rlt_bool_false; lra). rewrite E.
    cbn [fu_x fw_x fv_f fw_f ninf NumR]. unfold flat. split; [lra|]. split; [lra|]. replace (2 - 1)%R with 1%R by lra. rewrite Rabs_R1. lra.
Qed.
