(** * C69: the radius of the trust region in COBYLA

    cobyla.h 74-78 (RHOBEG and RHOEND are the initial and final values of the radius), 296-298 (cobyla_get_rho); cobyla.c 489
    (the first radius), 930-933 (the only place where it changes), 293-301 (cobyla_get_rho).  The specification is in RhoSpec.v.
    Nothing is supposed of the memory nor of the values of the function and of the constraints. *)
From Coq Require Import ZArith Bool List Lia Reals Lra.
From Flocq Require Import Core BinarySingleNaN.
From Verif Require Import Num NumFacts BqLang BqModel BqWp BqSpec BqProps NwTop CbModel CbSpec CbMain CbNum CbTop CbProps Yields RhoSpec CbRho RhoNum.
Import ListNotations.
Local Open Scope Z_scope.

Section Reach.
Context {N : Num}.
Definition cradius (q : ccontext (N := N)) : Prop := exists k, reduced (q_rhoend q) (cb_next (q_rhoend q)) k (q_rhobeg q) (c_rho (q_v q)).
Definition cr (q : ccontext (N := N)) : Prop :=
  nle (q_rhoend q) zero = false /\ nlt (q_rhobeg q) (q_rhoend q) = false /\
  (q_nevals q <> 0 -> cradius q) /\ (q_status q = CB_SUCCESS -> nlt (q_rhoend q) (c_rho (q_v q)) = false /\ cradius q).
Lemma ccreate_r n m (rb re : N) maxfun a : yields (cobyla_create n m rb re maxfun a) (fun r => match r with None => True | Some q =>
  nle re zero = false /\ nlt rb re = false /\ q_rhobeg q = rb /\ q_rhoend q = re /\ c_rho (q_v q) = nZ 0 /\ q_nevals q = 0 /\ q_status q = CB_ITERATE end).
Proof.
  unfold cobyla_create. destruct (_ || _)%bool eqn:E; [apply y_ret; exact Logic.I|]. rewrite !orb_false_iff in E. destruct E as ((((E1 & E2) & E3) & E4) & E5).
  destruct a as [a|]; [|apply y_ret; exact Logic.I]. apply y_bindT. intros _. apply y_ret. repeat split; assumption.
Qed.
Lemma cr_iterate q f x c fi fuel : cr q -> yields (cobyla_iterate q f x c fi fuel) cr.
Proof.
  intros (H1 & H2 & H3 & H4). eapply y_weak; [apply citerate_r|]. intros q' ((_ & E1 & E2) & H).
  unfold cr, cradius in *. rewrite E1, E2. split; [exact H1|]. split; [exact H2|].
  destruct H as [(K1 & K2 & K3 & K4)|(K1 & (k & K2) & K3)].
  - rewrite K1, K2. split; [exact H3|]. intros K. congruence.
  - assert (G : exists k, reduced (q_rhoend q) (cb_next (q_rhoend q)) k (q_rhobeg q) (c_rho (q_v q'))).
    { revert K2. destruct (Z.eqb_spec (q_nevals q) 0) as [E|E]; intros K2; [exists k; exact K2|].
      destruct (H3 E) as (j & Hj). destruct (reduced_trans _ _ _ _ _ _ _ Hj K2) as (i & _ & Hi). exists i. exact Hi. }
    split; [auto|]. intros K. split; [exact (K3 K)|exact G].
Qed.
Lemma creach_r q s : creach q s -> cr q.
Proof.
  induction 1 as [n m rb re maxfun a s q s' C E|q f x c fi fuel s q' s' HR IH G E|q f c fi fuel s q' s' HR IH E|q s HR IH|q s s' HR IH C].
  - assert (K := ccreate_r n m rb re maxfun (Some a) _ _ _ E). cbn beta iota in K. destruct K as (K1 & K2 & K3 & K4 & K5 & K6 & K7).
    unfold cr, cradius. rewrite K3, K4. split; [exact K1|]. split; [exact K2|]. rewrite K6, K7. split; [congruence|discriminate].
  - exact (cr_iterate q f (Some x) c fi fuel IH _ _ _ E).
  - exact (cr_iterate q f None c fi fuel IH _ _ _ E).
  - destruct IH as (H1 & H2 & _). split; [exact H1|]. split; [exact H2|]. split; [intros K; exfalso; apply K; reflexivity|discriminate].
  - exact IH.
Qed.
End Reach.

(** ** The radius is the initial one, reduced some number of times *)

(** In any arithmetic: once a value has been given, the radius is obtained from RHOBEG by halvings, each one of a radius larger than
    RHOEND, the last one being replaced by RHOEND; with the status of success, it is not larger than RHOEND. *)
Theorem C69_radius (N : Num) (q : ccontext (N := N)) s : creach q s ->
  (cobyla_get_nevals (Some q) <> 0 ->
   exists k, reduced (q_rhoend q) (cb_next (q_rhoend q)) k (q_rhobeg q) (cobyla_get_rho (Some q))) /\
  (cobyla_get_status (Some q) = CB_SUCCESS -> nlt (q_rhoend q) (cobyla_get_rho (Some q)) = false).
Proof. intros HR. destruct (creach_r q s HR) as (_ & _ & H1 & H2). split; [exact H1|]. intros HS. apply H2, HS. Qed.
Print Assumptions C69_radius.

(** One call: the radius changes only by such reductions (from RHOBEG for the first call), it does not change at all if the call is
    rejected.  The two limits are the arguments of cobyla_create, for ever. *)
Theorem C69_call (N : Num) (q q' : ccontext (N := N)) f x c fi fuel s s' :
  cobyla_iterate q f x c fi fuel s = Ret q' s' ->
  (q_rhobeg q' = q_rhobeg q /\ q_rhoend q' = q_rhoend q) /\
  ((cobyla_get_status (Some q') <> CB_SUCCESS /\ cobyla_get_status (Some q') <> CB_ITERATE /\
    cobyla_get_nevals (Some q') = cobyla_get_nevals (Some q) /\ cobyla_get_rho (Some q') = cobyla_get_rho (Some q)) \/
   (exists k, reduced (q_rhoend q) (cb_next (q_rhoend q)) k
     (if cobyla_get_nevals (Some q) =? 0 then q_rhobeg q else cobyla_get_rho (Some q)) (cobyla_get_rho (Some q')))).
Proof.
  intros E. destruct (citerate_r q f x c fi fuel _ _ _ E) as ((_ & E1 & E2) & H). split; [auto|].
  destruct H as [(K1 & K2 & K3 & K4)|(K1 & K2 & K3)]; [left; auto|right; exact K2].
Qed.
Print Assumptions C69_call.
Theorem C69_create (N : Num) n m (rhobeg rhoend : N) maxfun a s q s' :
  cobyla_create n m rhobeg rhoend maxfun a s = Ret (Some q) s' ->
  q_rhobeg q = rhobeg /\ q_rhoend q = rhoend /\ nle rhoend (nZ 0) = false /\ nlt rhobeg rhoend = false /\
  cobyla_get_rho (Some q) = nZ 0 /\ cobyla_get_nevals (Some q) = 0 /\ cobyla_get_status (Some q) = CB_ITERATE.
Proof. intros E. destruct (ccreate_r n m rhobeg rhoend maxfun a _ _ _ E) as (K1 & K2 & K3 & K4 & K5 & K6 & K7). repeat split; assumption. Qed.
Print Assumptions C69_create.

(** ** The bounds *)

(** In an ordered arithmetic with the laws of RhoSpec.v, if neither RHOBEG nor RHOEND is a NaN: once a value has been given, the radius
    is between RHOEND and RHOBEG, it is positive, and it is RHOEND at the success. *)
Theorem C69_bounds (N : Num) (q : ccontext (N := N)) s : OrdLaws N -> RhoLaws N -> creach q s ->
  nle (q_rhobeg q) (q_rhobeg q) = true -> nle (q_rhoend q) (q_rhoend q) = true ->
  cobyla_get_nevals (Some q) <> 0 \/ cobyla_get_status (Some q) = CB_SUCCESS ->
  nle (q_rhoend q) (cobyla_get_rho (Some q)) = true /\ nle (cobyla_get_rho (Some q)) (q_rhobeg q) = true /\
  nlt (nZ 0) (cobyla_get_rho (Some q)) = true /\
  (cobyla_get_status (Some q) = CB_SUCCESS -> neq (cobyla_get_rho (Some q)) (q_rhoend q) = true).
Proof.
  intros O L HR Nb Ne HV. destruct (creach_r q s HR) as (P1 & P2 & H1 & H2).
  assert (Pe := o_pos O L _ Ne P1). assert (Le := o_total O _ _ Nb Ne P2).
  assert (H : cradius q) by (destruct HV as [HV|HV]; [exact (H1 HV)|exact (proj2 (H2 HV))]). destruct H as (k & H).
  destruct (reduced_range O (q_rhoend q) (cb_next (q_rhoend q)) k _ _ (cb_next_range O L _ Pe) Le H) as [G1 G2].
  cbn [cobyla_get_rho cobyla_get_status]. split; [exact G1|]. split; [exact G2|]. split; [exact (o_lt_trans O _ _ _ Pe G1)|].
  intros HS. apply (o_anti O); [exact G1|apply H2, HS].
Qed.
Print Assumptions C69_bounds.

(** With the same hypotheses, a call does not increase the radius. *)
Theorem C69_decreasing (N : Num) (q q' : ccontext (N := N)) f x c fi fuel s s' : OrdLaws N -> RhoLaws N -> creach q s ->
  nle (q_rhobeg q) (q_rhobeg q) = true -> nle (q_rhoend q) (q_rhoend q) = true -> cobyla_get_nevals (Some q) <> 0 ->
  cobyla_iterate q f x c fi fuel s = Ret q' s' -> nle (cobyla_get_rho (Some q')) (cobyla_get_rho (Some q)) = true.
Proof.
  intros O L HR Nb Ne HV E. destruct (C69_bounds N q s O L HR Nb Ne (or_introl HV)) as (B1 & _).
  destruct (C69_call N q q' f x c fi fuel s s' E) as (_ & [(_ & _ & _ & ->)|(k & K)]); [exact (o_refl_r O _ _ B1)|].
  destruct (Z.eqb_spec (cobyla_get_nevals (Some q)) 0) as [E0|_]; [contradiction|].
  assert (Pe := o_pos O L _ Ne (proj1 (creach_r q s HR))).
  exact (proj2 (reduced_range O (q_rhoend q) (cb_next (q_rhoend q)) k _ _ (cb_next_range O L _ Pe) B1 K)).
Qed.
Print Assumptions C69_decreasing.

(** The laws are those of double and single precision, and of the exact reals. *)
Theorem C69_arithmetics : RhoLaws NumD /\ RhoLaws NumS /\ (forall H I, RhoLaws (NumR H I)).
Proof. exact (conj RhoLawsD (conj RhoLawsS RhoLawsR)). Qed.
Print Assumptions C69_arithmetics.

(** In exact arithmetic, the number [k] of reductions is bounded: 2^(k-1) RHOEND < RHOBEG. *)
Theorem C69_count H I (q : ccontext (N := NumR H I)) s : creach q s -> cobyla_get_nevals (Some q) <> 0 ->
  exists k, reduced (q_rhoend q) (cb_next (q_rhoend q)) k (q_rhobeg q) (cobyla_get_rho (Some q)) /\
  (k = O \/ (2 ^ (k - 1) * (q_rhoend q : R) < (q_rhobeg q : R))%R).
Proof.
  intros HR HV. destruct (C69_radius _ q s HR) as (H1 & _). destruct (H1 HV) as (k & Hk). exists k. split; [exact Hk|].
  destruct k as [|k]; [left; reflexivity|right]. replace (S k - 1)%nat with k by lia. refine (cb_count H I _ _ _ k _ Hk).
  assert (P := proj1 (creach_r q s HR)). cbn in P. revert P. case Rle_bool_spec; [discriminate|auto].
Qed.
Print Assumptions C69_count.

(** ** Examples in double precision *)

(** A client that gives the value zero until the end *)
Fixpoint czeros {N : Num} (k : nat) (q : ccontext (N := N)) : prog N (ccontext (N := N)) :=
  match k with
  | O => ret q
  | S k => bind (cobyla_iterate q (nZ 0) (Some 0) (Some 20) 50 200) (czeros k)
  end.
Lemma czeros_reach {N : Num} k (q : ccontext (N := N)) s q' s' : CbLaws N ->
  creach q s -> cgiven q 0 (Some 20) s -> czeros k q s = Ret q' s' -> creach q' s'.
Proof.
  intros HN. revert q s. induction k as [|k IH]; intros q s HR HG E; cbn [czeros] in E.
  - injection E as -> ->. exact HR.
  - unfold bind in E. destruct (cobyla_iterate q (nZ 0) (Some 0) (Some 20) 50 200 s) as [q1 s1|s1|s1|s1] eqn:E1; try discriminate E.
    assert (R1 : creach q1 s1) by (eapply creach_iterate; eassumption).
    apply (IH q1 s1 R1); [|exact E]. destruct (creach_valid HN q s HR) as [HV HC].
    assert (S := qiterate_safe HN q 0 (Some 20) s (nZ 0) 50 200 HV HG HC). rewrite E1 in S. destruct S as (_ & G & _).
    destruct (citerate_args _ _ _ _ _ _ _ _ _ E1) as (N2 & P2 & W2). destruct HG as (_ & HA & _).
    unfold cgiven. rewrite N2, P2, W2. split; [|split; [exact HA|]].
    + intros i Hi. apply G. left. left. lia.
    + intros i Hi. apply G. right. exists 20. split; [reflexivity|lia].
Qed.
Definition czclient {N : Num} (rhobeg rhoend : N) (k : nat) : prog N (option (ccontext (N := N))) := (
  let* r := cobyla_create 2 1 rhobeg rhoend 100 (Some 100) in
  match r with
  | None => ret None
  | Some q => let* q := czeros k q in ret (Some q)
  end)%bq.
Lemma czclient_reach {N : Num} (rhobeg rhoend : N) k s q s' : CbLaws N ->
  cells s 0 2 -> cells s 20 1 -> cells s 100 48 -> czclient rhobeg rhoend k s = Ret (Some q) s' -> creach q s'.
Proof.
  intros HN C0 C2 C1 E. unfold czclient, bind in E.
  destruct (cobyla_create 2 1 rhobeg rhoend 100 (Some 100) s) as [[q0|] s1|s1|s1|s1] eqn:E1; try discriminate E.
  assert (R1 : creach q0 s1) by (eapply creach_create; [|exact E1]; exact C1).
  assert (I1 : cells s1 0 2 /\ cells s1 20 1).
  { destruct (C61_create N 2 1 rhobeg rhoend 100 100 s C1) as (r & t & F1 & _ & F2 & _). rewrite E1 in F1. injection F1 as <- <-.
    split; intros i Hi; rewrite F2; [apply C0, Hi|lia|apply C2, Hi|lia]. }
  destruct (ccreate_args _ _ _ _ _ _ _ _ _ E1) as (N1 & P1 & W1).
  assert (G1 : cgiven q0 0 (Some 20) s1).
  { unfold cgiven. rewrite N1, P1, W1. split; [apply I1|]. split; [unfold apart; cbn; lia|apply I1]. }
  destruct (czeros k q0 s1) as [q1 s2|s2|s2|s2] eqn:E2; try discriminate E. injection E as -> ->.
  eapply czeros_reach; eassumption.
Qed.
Definition cex_rho (rhobeg rhoend : NumD) (k : nat) : out NumD (option (ccontext (N := NumD))) :=
  czclient rhobeg rhoend k (cex_mem (nZ 0) (nZ 0) (nZ 2) (nZ 1)).
Lemma cex_rho_reach rb re k q s : cex_rho rb re k = Ret (Some q) s -> creach q s.
Proof. unfold cex_rho. apply czclient_reach; [exact CbLawsD|apply cex_cells; lia|apply cex_cells; lia|apply cex_cells; lia]. Qed.
Definition cex_radius (rhobeg rhoend : NumD) (k : nat) : option (cstatus * Z * (Z * Z)) :=
  match cex_rho rhobeg rhoend k with
  | Ret (Some q) _ => Some (cobyla_get_status (Some q), cobyla_get_nevals (Some q),
      match B2SF (cobyla_get_rho (Some q)) with SpecFloat.S754_finite _ m e => (Zpos m, e) | _ => (0, 0) end)
  | _ => None
  end.
(** RHOBEG = 1 and RHOEND = 1/10: the radius is 1, then 1/4 (after two reductions) and 1/10 at the success *)
Example C69_ex : map (cex_radius (nZ 1) (nQ 1 10)) [0; 2; 3; 5]%nat =
  [Some (CB_ITERATE, 0, (0, 0)); Some (CB_ITERATE, 2, (4503599627370496, -52)); Some (CB_ITERATE, 3, (4503599627370496, -54));
   Some (CB_SUCCESS, 5, (7205759403792794, -56))].
Proof. vm_compute. reflexivity. Qed.
(** It meets the hypotheses of C69_bounds *)
Definition cex_bounds (k : nat) : bool :=
  match cex_rho (nZ 1) (nQ 1 10) k with
  | Ret (Some q) _ => nle (q_rhobeg q) (q_rhobeg q) && nle (q_rhoend q) (q_rhoend q) && negb (cobyla_get_nevals (Some q) =? 0) &&
      match cobyla_get_status (Some q) with CB_SUCCESS => true | _ => false end
  | _ => false end.
Example C69_bounds_ex : exists q s, cex_rho (nZ 1) (nQ 1 10) 5 = Ret (Some q) s /\ creach q s /\
  nle (q_rhobeg q) (q_rhobeg q) = true /\ nle (q_rhoend q) (q_rhoend q) = true /\
  cobyla_get_nevals (Some q) <> 0 /\ cobyla_get_status (Some q) = CB_SUCCESS.
Proof.
  assert (V : cex_bounds 5 = true) by (vm_cast_no_check (eq_refl true)).
  assert (HR := cex_rho_reach (nZ 1) (nQ 1 10) 5). unfold cex_bounds in V. destruct (cex_rho (nZ 1) (nQ 1 10) 5) as [[q|] s|s|s|s]; try discriminate V.
  exists q, s. split; [reflexivity|]. split; [apply HR; reflexivity|]. rewrite !andb_true_iff, negb_true_iff in V.
  destruct V as (((V1 & V2) & V3) & V4). split; [exact V1|]. split; [exact V2|]. split; [apply Z.eqb_neq, V3|].
  destruct (cobyla_get_status (Some q)); try discriminate V4. reflexivity.
Qed.

(** ** What the documentation says of cobyla_get_rho is not true *)

(** cobyla.h 296-298: the result is 0 if the algorithm has not yet been started.  After cobyla_restart, it is the last radius of the
    previous use: here 1/10. *)
Definition cex_is (b : NumD -> bool) (o : out NumD (option (ccontext (N := NumD)))) : bool :=
  match o with Ret (Some q) _ => b (cobyla_get_rho (Some q)) | _ => false end.
Theorem C69_restart_refuted : exists (q : ccontext (N := NumD)) s, creach q s /\
  cobyla_get_nevals (Some q) = 0 /\ cobyla_get_status (Some q) = CB_ITERATE /\ neq (cobyla_get_rho (Some q)) (nQ 1 10) = true.
Proof.
  assert (V : cex_is (fun r => neq r (nQ 1 10)) (cex_rho (nZ 1) (nQ 1 10) 5) = true) by (vm_cast_no_check (eq_refl true)).
  assert (HR := cex_rho_reach (nZ 1) (nQ 1 10) 5). unfold cex_is in V. destruct (cex_rho (nZ 1) (nQ 1 10) 5) as [[q|] s|s|s|s]; try discriminate V.
  exists (cobyla_restart q), s. split; [apply creach_restart, HR; reflexivity|]. split; [reflexivity|]. split; [reflexivity|exact V].
Qed.
Print Assumptions C69_restart_refuted.
(** A NaN given as RHOBEG passes the tests of cobyla_create: then the radius is not positive, and nothing is reported (the next point
    is requested). *)
Definition is_iter (st : cstatus) : bool := match st with CB_ITERATE => true | _ => false end.
Definition cex_nanb : bool :=
  match cex_rho B754_nan (nQ 1 10) 1 with
  | Ret (Some q) _ => (cobyla_get_nevals (Some q) =? 1) && is_iter (cobyla_get_status (Some q)) && negb (nlt (nZ 0) (cobyla_get_rho (Some q)))
  | _ => false end.
Theorem C69_nan_refuted : exists (q : ccontext (N := NumD)) s, creach q s /\
  cobyla_get_nevals (Some q) = 1 /\ cobyla_get_status (Some q) = CB_ITERATE /\ nlt (nZ 0) (cobyla_get_rho (Some q)) = false.
Proof.
  assert (V : cex_nanb = true) by (vm_cast_no_check (eq_refl true)).
  assert (HR := cex_rho_reach B754_nan (nQ 1 10) 1). unfold cex_nanb in V. destruct (cex_rho B754_nan (nQ 1 10) 1) as [[q|] s|s|s|s]; try discriminate V.
  rewrite !andb_true_iff, negb_true_iff in V. destruct V as ((V1 & V2) & V3). exists q, s. split; [apply HR; reflexivity|].
  split; [apply Z.eqb_eq, V1|]. split; [|exact V3]. destruct (cobyla_get_status (Some q)); try discriminate V2. reflexivity.
Qed.
Print Assumptions C69_nan_refuted.
