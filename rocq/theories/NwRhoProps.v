(** * C70: the radius of the trust region in NEWUOA

    newuoa.h 82-83 and 119 (RHOBEG and RHOEND are the initial and final values of the radius), 253-255 (newuoa_get_rho); newuoa.c
    1103-1104 (the first radius, after the NPT initial evaluations), 1589-1600 (the only place where it is reduced), 1131-1135, 1404-1417
    and 1600 (the other radius, DELTA).  The specification is in RhoSpec.v.  Nothing is supposed of the memory, of the values of the function, of cos
    and of sin. *)
From Coq Require Import ZArith Bool List Lia Reals Lra.
From Flocq Require Import Core BinarySingleNaN.
From Verif Require Import Num NumFacts BqLang BqModel BqWp BqSpec NwModel NwSpec NwEnd NwProps Yields RhoSpec NwRho RhoNum.
Import ListNotations.
Local Open Scope Z_scope.

Section Reach.
Context {N : Num} (ncos nsin : N -> N).
Section Inv.
Variables (D : N -> Prop) (ok : N -> N -> N -> Prop).
Hypothesis HD : forall e r0, D e -> nle e (nZ 0) = false -> nlt r0 e = false -> DeltaLaws N (ok e r0).
Hypothesis Hok : forall e r0 k r, D e -> nle e (nZ 0) = false -> nlt r0 e = false -> reduced e (nw_next e) k r0 r -> ok e r0 r.
Lemma reach_kr c s : reach ncos nsin c s -> kr D c.
Proof.
  induction 1 as [n npt rhobeg rhoend maxfun a s c s' C E|c f x fi fuel s c' s' HR IH C A E|c f fi fuel s c' s' HR IH E|c s HR IH|c s s' HR IH C].
  - exact (proj1 (kr_create D n npt rhobeg rhoend maxfun a _ _ _ E)).
  - exact (kr_iterate ncos nsin D ok HD Hok c f (Some x) fi fuel IH _ _ _ E).
  - exact (kr_iterate ncos nsin D ok HD Hok c f None fi fuel IH _ _ _ E).
  - destruct IH as ((H1 & _) & H2 & H3 & _). unfold kr. cbn. split; [lia|]. split; [exact H2|]. split; [exact H3|].
    left. split; [reflexivity|discriminate].
  - exact IH.
Qed.
End Inv.
Lemma kr_ok D c : kr (N := N) D c -> k_npt c <= k_nevals c -> nrok (k_rhoend c) (k_rhobeg c) (D (k_rhoend c)) (k_v c).
Proof.
  intros ((H1 & H0) & H2 & H3 & H4) L. destruct H4 as [[H4 _]|H4]; [lia|].
  destruct H4 as [[_ (L1 & L2 & [L3|[L3 _]])]|[_ [L3|[L3 _]]]]; [exfalso|exact L3|exfalso; lia|exact L3].
  unfold ncount in L1. cbn [fst snd] in *. lia.
Qed.
Lemma kr_succ D c : kr (N := N) D c -> k_status c = NW_SUCCESS -> k_npt c <= k_nevals c.
Proof.
  intros (_ & _ & _ & H4) HS. destruct H4 as [[_ H4]|H4]; [contradiction|]. unfold k_status in HS.
  destruct H4 as [[H4 _]|[_ [(_ & _ & H4)|[_ H4]]]]; [congruence|contradiction|exact H4].
Qed.
Definition noD : N -> Prop := fun _ => False.
Lemma reach_any c s : reach ncos nsin c s -> kr noD c.
Proof. apply (reach_kr noD (fun _ _ _ => True)); intros; contradiction. Qed.
Lemma DeltaLaws_nan (O : OrdLaws N) (L : RhoLaws N) : DeltaLaws N (fun r => nlt (nZ 0) r = true \/ nle r r = false).
Proof.
  assert (K := DeltaLaws_ok O L).
  assert (G : forall d r : N, nle r r = false -> nlt d r = false).
  { intros d r H. rewrite (key_le _ O) in H. rewrite (key_lt _ O). destruct (key O r); [|destruct (key O d); reflexivity].
    revert H. case Rle_bool_spec; [discriminate|lra]. }
  split.
  - intros d r [H|H] E; [exact (dl_more _ _ K d r H E)|apply G, H].
  - intros d r [H|H]; [exact (dl_max _ _ K d r H)|apply G, H].
  - intros r [H|H]; [exact (dl_irr _ _ K r H)|apply G, H].
Qed.
Lemma reach_delta (O : OrdLaws N) (L : RhoLaws N) c s : reach ncos nsin c s -> kr (fun e => nle e e = true) c.
Proof.
  apply (reach_kr (fun e => nle e e = true) (fun _ _ r => nlt (nZ 0) r = true \/ nle r r = false)).
  - intros. apply DeltaLaws_nan; assumption.
  - intros e r0 k r Ne H1 H2 HR. assert (Pe := o_pos O L _ Ne H1). destruct (nle r0 r0) eqn:Nb.
    + left. apply (o_lt_trans O _ e _ Pe).
      exact (proj1 (reduced_range O e (nw_next e) k _ _ (nw_next_range O L _ Pe) (o_total O _ _ Nb Ne H2) HR)).
    + right. assert (r = r0) as ->; [|exact Nb]. clear H2. induction HR as [r|k r0 r HR IH Hl]; [reflexivity|]. rewrite (IH Nb) in Hl.
      exfalso. rewrite (key_le _ O) in Nb. rewrite (key_lt _ O) in Hl. destruct (key O r0); [|destruct (key O e); discriminate].
      revert Nb. case Rle_bool_spec; [discriminate|lra].
Qed.
End Reach.

(** ** The radius is the initial one, reduced some number of times *)

(** In any arithmetic: once the NPT initial values have been given, the radius is obtained from RHOBEG by reductions, each one of a radius
    larger than RHOEND: by 10, but for the last two ones (see [nw_next] in RhoSpec.v).  The success is possible only then, and the radius
    is not larger than RHOEND. *)
Theorem C70_radius (N : Num) ncos nsin (c : ncontext (N := N)) s : reach ncos nsin c s ->
  (k_npt c <= newuoa_get_nevals (Some c) ->
   exists k, reduced (k_rhoend c) (nw_next (k_rhoend c)) k (k_rhobeg c) (newuoa_get_rho (Some c))) /\
  (newuoa_get_status (Some c) = NW_SUCCESS ->
   k_npt c <= newuoa_get_nevals (Some c) /\ nlt (k_rhoend c) (newuoa_get_rho (Some c)) = false).
Proof.
  intros HR. assert (K := reach_any ncos nsin c s HR). split.
  - intros L. exact (proj1 (kr_ok noD c K L)).
  - intros HS. split; [exact (kr_succ noD c K HS)|exact (C58_success N ncos nsin c s HR HS)].
Qed.
Print Assumptions C70_radius.

(** One call: after the initial evaluations, the radius changes only by such reductions. *)
Theorem C70_call (N : Num) ncos nsin (c c' : ncontext (N := N)) f x fi fuel s s' : reach ncos nsin c s ->
  k_npt c <= newuoa_get_nevals (Some c) -> newuoa_iterate ncos nsin c f x fi fuel s = Ret c' s' ->
  exists k, reduced (k_rhoend c) (nw_next (k_rhoend c)) k (newuoa_get_rho (Some c)) (newuoa_get_rho (Some c')).
Proof. intros HR L E. exact (kr_call ncos nsin noD c f x fi fuel (reach_any ncos nsin c s HR) L eq_refl _ _ _ E). Qed.
Print Assumptions C70_call.

(** ** The bounds *)

(** In an ordered arithmetic with the laws of RhoSpec.v, if neither RHOBEG nor RHOEND is a NaN: after the initial evaluations, the radius
    is between RHOEND and RHOBEG, it is positive, and it is RHOEND at the success. *)
Theorem C70_bounds (N : Num) ncos nsin (c : ncontext (N := N)) s : OrdLaws N -> RhoLaws N -> reach ncos nsin c s ->
  nle (k_rhobeg c) (k_rhobeg c) = true -> nle (k_rhoend c) (k_rhoend c) = true ->
  k_npt c <= newuoa_get_nevals (Some c) \/ newuoa_get_status (Some c) = NW_SUCCESS ->
  nle (k_rhoend c) (newuoa_get_rho (Some c)) = true /\ nle (newuoa_get_rho (Some c)) (k_rhobeg c) = true /\
  nlt (nZ 0) (newuoa_get_rho (Some c)) = true /\
  (newuoa_get_status (Some c) = NW_SUCCESS -> neq (newuoa_get_rho (Some c)) (k_rhoend c) = true).
Proof.
  intros O L HR Nb Ne HV. assert (K := reach_any ncos nsin c s HR). destruct (C70_radius N ncos nsin c s HR) as (H1 & H2).
  assert (HV' : k_npt c <= newuoa_get_nevals (Some c)) by (destruct HV as [HV|HV]; [exact HV|exact (proj1 (H2 HV))]).
  destruct (H1 HV') as (k & H). destruct K as (_ & P1 & P2 & _).
  assert (Pe := o_pos O L _ Ne P1). assert (Le := o_total O _ _ Nb Ne P2).
  destruct (reduced_range O (k_rhoend c) (nw_next (k_rhoend c)) k _ _ (nw_next_range O L _ Pe) Le H) as [G1 G2].
  split; [exact G1|]. split; [exact G2|]. split; [exact (o_lt_trans O _ _ _ Pe G1)|].
  intros HS. apply (o_anti O); [exact G1|apply H2, HS].
Qed.
Print Assumptions C70_bounds.

(** The bound of the steps, DELTA, is never less than the radius (newuoa.c 1104, 1131-1135, 1404-1417 and 1600), with any value of the
    function and even if RHOBEG is a NaN. *)
Theorem C70_delta (N : Num) ncos nsin (c : ncontext (N := N)) s : OrdLaws N -> RhoLaws N -> reach ncos nsin c s ->
  nle (k_rhoend c) (k_rhoend c) = true -> k_npt c <= newuoa_get_nevals (Some c) ->
  nlt (v_delta (k_v c)) (newuoa_get_rho (Some c)) = false.
Proof. intros O L HR Ne HV. exact (proj2 (kr_ok _ c (reach_delta ncos nsin O L c s HR) HV) Ne). Qed.
Print Assumptions C70_delta.

(** With the same hypotheses, a call does not increase the radius. *)
Theorem C70_decreasing (N : Num) ncos nsin (c c' : ncontext (N := N)) f x fi fuel s s' : OrdLaws N -> RhoLaws N -> reach ncos nsin c s ->
  nle (k_rhobeg c) (k_rhobeg c) = true -> nle (k_rhoend c) (k_rhoend c) = true -> k_npt c <= newuoa_get_nevals (Some c) ->
  newuoa_iterate ncos nsin c f x fi fuel s = Ret c' s' -> nle (newuoa_get_rho (Some c')) (newuoa_get_rho (Some c)) = true.
Proof.
  intros O L HR Nb Ne HV E. destruct (C70_bounds N ncos nsin c s O L HR Nb Ne (or_introl HV)) as (B1 & _).
  destruct (C70_call N ncos nsin c c' f x fi fuel s s' HR HV E) as (k & K).
  assert (Pe : nlt (nZ 0) (k_rhoend c) = true) by (apply (o_pos O L _ Ne), (reach_any ncos nsin c s HR)).
  exact (proj2 (reduced_range O (k_rhoend c) (nw_next (k_rhoend c)) k _ _ (nw_next_range O L _ Pe) B1 K)).
Qed.
Print Assumptions C70_decreasing.

(** In exact arithmetic, the number [k] of reductions is bounded: if there are two or more, 16 * 10^(k-2) RHOEND < RHOBEG. *)
Theorem C70_count H I ncos nsin (c : ncontext (N := NumR H I)) s : reach ncos nsin c s -> k_npt c <= newuoa_get_nevals (Some c) ->
  exists k, reduced (k_rhoend c) (nw_next (k_rhoend c)) k (k_rhobeg c) (newuoa_get_rho (Some c)) /\
  ((k < 2)%nat \/ (16 * 10 ^ (k - 2) * (k_rhoend c : R) < (k_rhobeg c : R))%R).
Proof.
  intros HR HV. destruct (C70_radius _ ncos nsin c s HR) as (H1 & _). destruct (H1 HV) as (k & Hk). exists k. split; [exact Hk|].
  destruct k as [|[|k]]; [left; lia|left; lia|right]. replace (S (S k) - 2)%nat with k by lia. refine (nw_count H I _ _ _ k _ Hk).
  destruct (reach_any ncos nsin c s HR) as (_ & P & _). cbn in P. revert P. case Rle_bool_spec; [discriminate|auto].
Qed.
Print Assumptions C70_count.

(** ** Examples in double precision *)
Definition nex_rho (rhobeg rhoend : NumD) (k : nat) : out NumD (option (ncontext (N := NumD))) :=
  nzclient ex_cos ex_sin rhobeg rhoend k (nex_mem (nZ 0) (nZ 0) (nZ 2) (nZ 1)).
Lemma nex_rho_reach rb re k c s : nex_rho rb re k = Ret (Some c) s -> reach ex_cos ex_sin c s.
Proof. unfold nex_rho. apply nzclient_reach; apply nex_cells; cbn; lia. Qed.
Definition sfz (x : NumD) : Z * Z := match B2SF x with SpecFloat.S754_finite _ m e => (Zpos m, e) | _ => (0, 0) end.
Definition nex_radius (rhobeg rhoend : NumD) (k : nat) : option (nstatus * Z * (Z * Z) * (Z * Z)) :=
  match nex_rho rhobeg rhoend k with
  | Ret (Some c) _ => Some (newuoa_get_status (Some c), newuoa_get_nevals (Some c), sfz (newuoa_get_rho (Some c)), sfz (v_delta (k_v c)))
  | _ => None
  end.
(** RHOBEG = 1 and RHOEND = 1/100: the radius and DELTA are 1/10 at the sixth request (sqrt(100)/100), and 1/100 at the end *)
Example C70_ex : map (nex_radius (nZ 1) (nQ 1 100)) [0; 4; 5; 9]%nat =
  [Some (NW_ITERATE, 0, (0, 0), (0, 0)); Some (NW_ITERATE, 4, (0, 0), (0, 0));
   Some (NW_ITERATE, 5, (7205759403792794, -56), (7205759403792794, -56));
   Some (NW_TOO_MANY_EVALUATIONS, 9, (5764607523034235, -59), (5764607523034235, -59))].
Proof. vm_compute. reflexivity. Qed.
(** It meets the hypotheses of C70_bounds and C70_delta *)
Definition nex_check (b : ncontext (N := NumD) -> bool) (o : out NumD (option (ncontext (N := NumD)))) : bool :=
  match o with Ret (Some c) _ => b c | _ => false end.
Lemma nex_check_reach b rb re k : nex_check b (nex_rho rb re k) = true -> exists c s, reach ex_cos ex_sin c s /\ b c = true.
Proof.
  intros V. assert (HR := nex_rho_reach rb re k). unfold nex_check in V. destruct (nex_rho rb re k) as [[c|] s|s|s|s]; try discriminate V.
  exists c, s. split; [apply HR; reflexivity|exact V].
Qed.
Example C70_bounds_ex : exists (c : ncontext (N := NumD)) s, reach ex_cos ex_sin c s /\
  nle (k_rhobeg c) (k_rhobeg c) = true /\ nle (k_rhoend c) (k_rhoend c) = true /\ k_npt c <= newuoa_get_nevals (Some c).
Proof.
  destruct (nex_check_reach (fun c => nle (k_rhobeg c) (k_rhobeg c) && nle (k_rhoend c) (k_rhoend c) && (k_npt c <=? newuoa_get_nevals (Some c)))%bool
    (nZ 1) (nQ 1 100) 5) as (c & s & HR & V); [vm_cast_no_check (eq_refl true)|].
  rewrite !andb_true_iff in V. destruct V as ((V1 & V2) & V3). exists c, s. split; [exact HR|]. split; [exact V1|]. split; [exact V2|].
  apply Z.leb_le, V3.
Qed.

(** ** What the documentation says of newuoa_get_rho is not true *)
Definition nis_iter (st : nstatus) : bool := match st with NW_ITERATE => true | _ => false end.
Lemma nis_iter_spec st : nis_iter st = true -> st = NW_ITERATE.
Proof. destruct st; (discriminate || reflexivity). Qed.

(** newuoa.h 253-255: the result is strictly positive once the algorithm has been started.  It is still 0 after four calls, during the
    initial evaluations. *)
Theorem C70_positive_refuted : exists (c : ncontext (N := NumD)) s, reach ex_cos ex_sin c s /\
  newuoa_get_nevals (Some c) = 4 /\ newuoa_get_status (Some c) = NW_ITERATE /\ neq (newuoa_get_rho (Some c)) (nZ 0) = true.
Proof.
  destruct (nex_check_reach (fun c => (newuoa_get_nevals (Some c) =? 4) && nis_iter (newuoa_get_status (Some c)) && neq (newuoa_get_rho (Some c)) (nZ 0))%bool
    (nZ 1) (nQ 1 100) 4) as (c & s & HR & V); [vm_cast_no_check (eq_refl true)|].
  rewrite !andb_true_iff in V. destruct V as ((V1 & V2) & V3). exists c, s. split; [exact HR|]. split; [apply Z.eqb_eq, V1|].
  split; [apply nis_iter_spec, V2|exact V3].
Qed.
Print Assumptions C70_positive_refuted.
(** ... and is 0 if it has not yet been started.  After newuoa_restart, it is the last radius of the previous use: here 1/100. *)
Theorem C70_restart_refuted : exists (c : ncontext (N := NumD)) s, reach ex_cos ex_sin c s /\
  newuoa_get_nevals (Some c) = 0 /\ newuoa_get_status (Some c) = NW_ITERATE /\ neq (newuoa_get_rho (Some c)) (nQ 1 100) = true.
Proof.
  destruct (nex_check_reach (fun c => neq (newuoa_get_rho (Some c)) (nQ 1 100)) (nZ 1) (nQ 1 100) 9) as (c & s & HR & V);
    [vm_cast_no_check (eq_refl true)|].
  exists (newuoa_restart c), s. split; [apply reach_restart, HR|]. split; [reflexivity|]. split; [reflexivity|exact V].
Qed.
Print Assumptions C70_restart_refuted.
(** With a NaN given as RHOEND, even a negative RHOBEG passes the tests of newuoa_create: then the radius is negative, and nothing is
    reported (the next point is requested). *)
Theorem C70_nan_refuted : exists (c : ncontext (N := NumD)) s, reach ex_cos ex_sin c s /\
  k_npt c <= newuoa_get_nevals (Some c) /\ newuoa_get_status (Some c) = NW_ITERATE /\ nlt (newuoa_get_rho (Some c)) (nZ 0) = true.
Proof.
  destruct (nex_check_reach (fun c => (k_npt c <=? newuoa_get_nevals (Some c)) && nis_iter (newuoa_get_status (Some c)) && nlt (newuoa_get_rho (Some c)) (nZ 0))%bool
    (nZ (-1)) B754_nan 5) as (c & s & HR & V); [vm_cast_no_check (eq_refl true)|].
  rewrite !andb_true_iff in V. destruct V as ((V1 & V2) & V3). exists c, s. split; [exact HR|]. split; [apply Z.leb_le, V1|].
  split; [apply nis_iter_spec, V2|exact V3].
Qed.
Print Assumptions C70_nan_refuted.
