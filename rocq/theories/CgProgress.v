(** * Progress of the conjugate gradient optimizer in exact arithmetic *)
From Coq Require Import List ZArith Bool Arith Lia Reals Lra.
From Flocq Require Import Core.
From Verif Require Import Num NumFacts OrdFacts ListFacts VecModel VecProofs Base LsModel LsSpec LsProofs LsOrd LsReal
  OptSpace VmModel VmSpec VmProofs VmRealSpec VmReal CgModel CgSpec CgProofs.
Import ListNotations.
Local Open Scope R_scope.

Section Progress.
Variables H I : R.
Notation NR := (NumR H I).
Context {S : Space NR}.
Implicit Types (o : cg S) (x g d : S) (t : tally S).

Definition step_ok o : Prop :=
  match n_task o with
  | COMPUTE_FG => (1 <= n_evals o)%Z -> 0 <= (l_stpmin (n_ls o) : R) <= l_stpmax (n_ls o)
  | NEW_X | FINAL_X => (2 <= n_evals o)%Z -> 0 <= (n_alpha o : R)
  | _ => True
  end.

Lemma started_bounds (l l' : ls NR) (f g s s1 s2 : R) : ls_inv l -> ls_start l (f : NR) (g : NR) (s : NR) (s1 : NR) (s2 : NR) = Some l' -> l_task l' = LS_SEARCH ->
  0 <= (l_stpmin l' : R) <= l_stpmax l'.
Proof.
  intros Il E Tk. destruct (start_cases l (f : NR) (g : NR) (s : NR) (s1 : NR) (s2 : NR) Il) as (l2 & E2 & _ & C). rewrite E in E2. injection E2 as <-.
  simpl in C. destruct (Rlt_bool_spec s1 0); [subst l'; discriminate|]. destruct (Rlt_bool_spec s2 s1); [subst l'; discriminate|].
  destruct (Rlt_bool s s1); [subst l'; discriminate|]. destruct (Rlt_bool s2 s); [subst l'; discriminate|]. destruct (Rle_bool 0 g); [subst l'; discriminate|].
  destruct C as (_ & _ & _ & -> & -> & _). auto.
Qed.

Lemma new_x_bounds cfg o t x (f : R) g o' x' : cinv cfg o t -> cg_new_x o x (f : NR) g = Some (o', x') -> step_ok o'.
Proof.
  intros (V1 & V2 & V3 & V4 & V5 & V6 & V7 & V8 & V9 & _) E. rewrite <- V1 in V8, V9.
  destruct (new_x_form o x (f : NR) g V8 V9 V2) as (o2 & l & _ & _ & Es & _ & E'). rewrite E in E'.
  unfold step_ok. destruct (l_task l) eqn:Tl; unfold cg_trial in E'; injection E' as -> ->; try exact Logic.I.
  cbn [n_task nsuccess nset_task n_ls nset_ls]. intros _. eapply started_bounds; [exact V2|exact Es|exact Tl].
Qed.

Lemma check_bounds cfg o t x (f : R) g : cinv cfg o t -> n_task o = COMPUTE_FG -> step_ok o -> step_ok (fst (cg_check o x (f : NR) g)).
Proof.
  intros V Et K. unfold step_ok in K. rewrite Et in K. assert (He : (0 <= n_evals o)%Z) by (destruct V as (_ & _ & _ & V4 & _ & _ & V7 & _); lia).
  destruct V as (_ & _ & _ & V4 & _ & _ & _ & _ & _ & _ & V). rewrite Et in V.
  destruct (Z.eq_dec (n_evals o) 0) as [E0|E0].
  - rewrite (check_first o x (f : NR) g E0). cbn [fst]. set (o1 := nset_counts o 1 _ _). destruct (accept_frame o1 g) as (_ & _ & _ & _ & _ & _ & _ & _ & _ & _ & _ & _ & _ & A14 & _ & _ & A17 & _).
    unfold step_ok. rewrite A14. destruct (accepted_cases _ A17) as [X|X]; rewrite X; intros Y; unfold o1 in Y; cbn in Y; lia.
  - destruct V as [(V & _)|(_ & _ & Tl & El)]; [lia|]. specialize (K ltac:(lia)).
    pose proof (check_search o x (f : NR) g ltac:(lia)) as C. cbv zeta in C.
    pose proof (iterate_cases (n_ls o) (n_alpha o) (f : NR) (- vdot (n_d o) g)%num) as L.
    destruct (ls_iterate (n_ls o) (n_alpha o) (f : NR) (- vdot (n_d o) g)%num) as [l s] eqn:Ei. rewrite C. clear C.
    destruct L as [(L & _)|[(_ & L & _)|(_ & _ & L1 & L2 & _ & L)]]; [congruence| |].
    { exfalso. rewrite El in L. simpl in L. rewrite Req_bool_true in L by reflexivity. discriminate. }
    assert (Bs : l_stpmin l = l_stpmin (n_ls o) /\ l_stpmax l = l_stpmax (n_ls o)) by (unfold same_base in L2; intuition congruence).
    assert (Sp : 0 <= (s : R)).
    { destruct (method_iterate _ _ _ _) as [l1 s1]. destruct L as (_ & [(_ & -> & _)|[(_ & _ & -> & _)|(X & _ & -> & _)]]); try lra.
      simpl in X. destruct (Rle_bool_spec s1 (l_stpmin (n_ls o))); [discriminate|]. simpl. lra. }
    assert (Ac : forall oo, n_alpha oo = s -> step_ok (cg_accept oo g)).
    { intros oo Ho. destruct (accept_frame oo g) as (_ & _ & _ & _ & _ & _ & _ & _ & _ & _ & _ & _ & A13 & _ & _ & _ & A17 & _).
      unfold step_ok. destruct (accepted_cases _ A17) as [X|X]; rewrite X, A13, Ho; auto. }
    destruct (l_task l).
    + exact Logic.I.
    + unfold step_ok, cg_trial. cbn [fst n_task nsuccess nset_task n_ls nset_ls]. destruct Bs as [-> ->]. auto.
    + apply Ac. reflexivity.
    + destruct (is_rounding _); [apply Ac; reflexivity|exact Logic.I].
Qed.

Lemma run_bounds_cg cfg cs : forall o t o' rs, cinv cfg o t -> step_ok o -> crun o cs = Some (o', rs) -> step_ok o'.
Proof.
  induction cs as [|cl cs IH]; intros o t o' rs V K E; [injection E as <- <-; exact K|].
  cbn [crun] in E. destruct (cdo o cl) as [[o1 r]|] eqn:E1; [|discriminate]. destruct (crun o1 cs) as [[o2 rs2]|] eqn:E2; [|discriminate]. injection E as <- <-.
  destruct (cdo_ok cfg o t cl V) as (o3 & x3 & E3 & V3). rewrite E1 in E3. injection E3 as <- ->. apply (IH _ _ _ _ V3) in E2; [exact E2|].
  destruct cl as [x|x f g].
  - cbn [cdo cg_start] in E1. injection E1 as <- _ _. unfold step_ok. cbn. lia.
  - cbn [cdo] in E1. destruct (cg_iterate o x f g) as [[o4 x4]|] eqn:Ei; [|discriminate]. injection E1 as -> _ _. unfold cg_iterate in Ei.
    destruct (n_task o) eqn:Et; try (injection Ei as <- _; exact K).
    + injection Ei as Ei. pose proof (check_bounds cfg o t x f g V Et K) as C. rewrite Ei in C. exact C.
    + eapply new_x_bounds; [exact V|exact Ei].
    + eapply new_x_bounds; [exact V|exact Ei].
Qed.

Lemma starts cfg o t x (f : R) g o' x' : cinv cfg o t -> n_task o = NEW_X -> step_ok o -> k_fmin_given cfg = false ->
  0 < (k_delta cfg : R) -> 0 <= (k_stpmin cfg : R) <= 1 -> 1 <= (k_stpmax cfg : R) -> (forall z : S, 0 <= (vnorm2 z : R)) -> 0 < (n_gnorm o : R) ->
  cg_new_x o x (f : NR) g = Some (o', x') -> n_task o' = COMPUTE_FG.
Proof.
  intros (V1 & V2 & V3 & V4 & V5 & V6 & V7 & V8 & V9 & _ & V) Et K Kf Kd Kmin Kmax Np Gp E. rewrite <- V1 in V8, V9.
  unfold step_ok in K. rewrite Et in K, V.
  destruct (new_x_form o x (f : NR) g V8 V9 V2) as (o2 & l & _ & M & Es & _ & E'). rewrite E in E'. clear E.
  assert (X : 0 <= (n_alpha o2 : R) /\ (n_dtg o2 : R) < 0).
  { destruct M as [(o1 & dtg & M1 & _ & _ & M4 & _ & _ & _ & M8 & _ & M10)|[(_ & M2 & _ & M4 & _)|(M & _)]].
    - rewrite M8. change (Rlt_bool dtg 0 = true) in M4. destruct (Rlt_bool_spec dtg 0) as [Hd|]; [|discriminate]. split; [|exact Hd]. specialize (K ltac:(lia)).
      rewrite M10. destruct (has_flag _ _); [|exact K].
      assert (D0 : (n_dtg0 o : R) < 0).
      { destruct V as (_ & [(V & _)|(_ & q & qs & _ & (_ & _ & _ & _ & C5 & _) & _)] & _); [lia|]. change (Rle_bool 0 (n_dtg0 o) = false) in C5. destruct (Rle_bool_spec 0 (n_dtg0 o)); [discriminate|assumption]. }
      change (0 <= (n_alpha o : R) * ((n_dtg0 o : R) / (dtg : R))). apply Rmult_le_pos; [exact K|].
      replace ((n_dtg0 o : R) / (dtg : R)) with ((- (n_dtg0 o : R)) * / (- (dtg : R))) by (change (num NR) with R in *; field; lra).
      change (num NR) with R in *. apply Rmult_le_pos; [lra|]. left. apply Rinv_0_lt_compat. lra.
    - rewrite M2, M4. change (0 <= (first_step o x (f : NR) : R) /\ - (n_gnorm o : R) * (n_gnorm o : R) < 0). split; [|nra].
      unfold first_step. rewrite V1, Kf. cbn [andb]. change (neq (f : NR) (nZ 0)) with (Req_bool f 0).
      destruct (negb _).
      + change (0 <= 2 * Rabs (f / (- (n_gnorm o : R) * (n_gnorm o : R)))). pose proof (Rabs_pos (f / (- (n_gnorm o : R) * (n_gnorm o : R)))). lra.
      + destruct (nlt _ _).
        * change (0 <= (k_delta cfg : R) * (vnorm2 x : R) / (n_gnorm o : R)). apply Rmult_le_pos; [apply Rmult_le_pos; [lra|apply Np]|]. left. apply Rinv_0_lt_compat. exact Gp.
        * change (0 <= (k_delta cfg : R) / (n_gnorm o : R)). apply Rmult_le_pos; [lra|]. left. apply Rinv_0_lt_compat. exact Gp.
    - exfalso. change (Rlt_bool 0 0 = true) in M. destruct (Rlt_bool_spec 0 0); [lra|discriminate]. }
  destruct X as (X1 & X2).
  destruct (start_cases (n_ls o) (f : NR) (n_dtg o2) (n_alpha o2) (k_stpmin (n_cfg o) * n_alpha o2)%num (k_stpmax (n_cfg o) * n_alpha o2)%num V2) as (l2 & El & _ & Q).
  rewrite Es in El. injection El as <-. simpl in Q. rewrite V1 in Q. change (num NR) with R in *.
  set (a := n_alpha o2 : R) in *. set (m1 := k_stpmin cfg : R) in *. set (m2 := k_stpmax cfg : R) in *.
  rewrite Rlt_bool_false in Q by nra. rewrite Rlt_bool_false in Q by nra. rewrite Rlt_bool_false in Q by nra. rewrite Rlt_bool_false in Q by nra.
  rewrite Rle_bool_false in Q by exact X2. destruct Q as (Q & _). rewrite Q in E'. unfold cg_trial in E'. injection E' as -> ->. reflexivity.
Qed.
End Progress.
