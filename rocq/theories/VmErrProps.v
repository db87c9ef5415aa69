(** * Errors of the operations on the bounds are reported by VMLMB (C53) *)
From Coq Require Import List ZArith Bool Lia.
From Verif Require Import Num VecModel Base LsModel OptSpace VmModel VmSpec VmProps.
Import ListNotations.

Lemma ok_success st : ok st = true -> st = SUCCESS.
Proof. destruct st; simpl; congruence. Qed.
Lemma ok_failure st : ok st = false -> st <> SUCCESS.
Proof. destruct st; simpl; congruence. Qed.

Lemma trial_cfg {N : Num} {S : Space N} (o : vm S) x o' x' : vm_trial o x = Some (o', x') ->
  v_cfg o' = v_cfg o /\ v_d o' = v_d o /\ v_stp o' = v_stp o /\ v_bsmin o' = v_bsmin o /\ v_task o' <> NEW_X /\ v_task o' <> FINAL_X.
Proof.
  unfold vm_trial. destruct (get_x0 o) as [x0|]; [|discriminate].
  destruct (c_box (v_cfg o)) as [b|]; [destruct (_ >? _)%num; [destruct (projvar b _) as [st y], (ok st)|]|]; intros [= <- <-]; repeat split; cbn; congruence.
Qed.

(** [opk_start_vmlmb]: the result of the projection of the variables decides. *)
Theorem C53_start (N : Num) (S : Space N) (o : vm S) (box : Convex S) x o' x' :
  c_box (v_cfg o) = Some box -> vm_start o x = (o', x') ->
  x' = snd (projvar box x) /\ vm_get_status o' = fst (projvar box x) /\
  (vm_get_task o' = COMPUTE_FG <-> fst (projvar box x) = SUCCESS) /\ (vm_get_task o' = ERROR <-> fst (projvar box x) <> SUCCESS).
Proof.
  intros Hb. unfold vm_start. cbn [set_lb set_counts v_cfg]. change (v_cfg (set_lb _ _)) with (v_cfg o). rewrite Hb.
  destruct (projvar box x) as [st y]. cbn [fst snd]. destruct (ok st) eqn:E; intros [= <- <-]; cbn.
  - apply ok_success in E. subst st. repeat split; congruence.
  - apply ok_failure in E. repeat split; congruence.
Qed.
Print Assumptions C53_start.

Lemma update_cfg {N : Num} {S : Space N} (o : vm S) x g o' : vm_update o x g = Some o' -> v_cfg o' = v_cfg o.
Proof.
  unfold vm_update. repeat match goal with |- context [match ?d with Some _ => _ | None => None end] => destruct d; [|discriminate] end.
  all: try (intros [= <-]; reflexivity).
Qed.
Lemma direction_cfg {N : Num} {S : Space N} (o : vm S) x g o' r : vm_direction o x g = Some (o', r) -> v_cfg o' = v_cfg o.
Proof.
  unfold vm_direction.
  assert (K : forall o1, (if (v_iters o >=? 1)%Z then vm_update o x (gsave o g) else Some o) = Some o1 -> v_cfg o1 = v_cfg o).
  { intros o1. destruct (_ >=? 1)%Z; [apply update_cfg | now intros [= <-]]. }
  destruct (if (v_iters o >=? 1)%Z then _ else _) as [o1|]; [|discriminate]. specialize (K o1 eq_refl).
  destruct (vm_apply _ _ _ _ _) as [[[b d] st]|]; [|discriminate]. destruct (ok st); [|intros [= <- _]; exact K].
  destruct (match c_box _ with Some _ => _ | None => _ end) as [st' d']. destruct (ok st'); intros [= <- _]; exact K.
Qed.
Lemma save_cfg {N : Num} {S : Space N} (o : vm S) x f g o' : vm_save o x f g = Some o' -> v_cfg o' = v_cfg o /\ v_d o' = v_d o /\ v_bsmin o' = v_bsmin o.
Proof.
  unfold vm_save. destruct (c_save _).
  - repeat match goal with |- context [match ?d with Some _ => _ | None => None end] => destruct d; [|discriminate] end. now intros [= <-].
  - now intros [= <-].
Qed.

Lemma new_x_bounds (N : Num) (S : Space N) (o : vm S) (box : Convex S) x f g o' x' :
  c_box (v_cfg o) = Some box ->
  (forall o1 : vm S, c_box (v_cfg o1) = Some box -> forall o' x', vm_trial o1 x = Some (o', x') ->
    vm_get_task o' = COMPUTE_FG -> (v_stp o' >? v_bsmin o')%num = true -> exists y, projvar box y = (SUCCESS, x')) ->
  forall t, vm_new_x o x f g = Some (o', x') -> accepted t = true ->
  (t = COMPUTE_FG \/ accepted t = true -> vm_get_task o' = COMPUTE_FG -> (v_stp o' >? v_bsmin o')%num = true ->
     exists y, projvar box y = (SUCCESS, x')) /\
  (t = COMPUTE_FG -> accepted (vm_get_task o') = true -> fst (freevar box x g) = SUCCESS) /\
  (accepted t = true -> vm_get_task o' = COMPUTE_FG ->
     exists s1 smin smax, steplim box x (v_d o') = (SUCCESS, Some (s1, smin, smax)) /\ (smax <=? nZ 0)%num = false /\ v_bsmin o' = smin).
Proof.
  intros Hb KT t E Ht.
  assert (G : v_task o' <> COMPUTE_FG \/ ((v_stp o' >? v_bsmin o')%num = true -> vm_get_task o' = COMPUTE_FG -> exists y, projvar box y = (SUCCESS, x')) /\
    exists s1 smin smax, steplim box x (v_d o') = (SUCCESS, Some (s1, smin, smax)) /\ (smax <=? nZ 0)%num = false /\ v_bsmin o' = smin).
  { revert E. unfold vm_new_x. destruct (vm_direction o x g) as [[o1 r]|] eqn:Ed; [|discriminate]. apply direction_cfg in Ed.
    destruct r as [dtg|st]; [|intros [= <- <-]; left; cbn; discriminate].
    assert (K : exists o2 dtg2, (if (dtg <? nZ 0)%num then (set_steps o1 (nZ 1) (v_bsmin o1), dtg) else vm_steepest o1 x f g) = (o2, dtg2) /\ v_cfg o2 = v_cfg o1).
    { destruct (dtg <? nZ 0)%num; [do 2 eexists; split; reflexivity|]. unfold vm_steepest. destruct (_ >? 0)%Z; do 2 eexists; split; reflexivity. }
    destruct K as (o2 & dtg2 & -> & E2). unfold vm_limits. rewrite E2, Ed, Hb. destruct (steplim box x (v_d o2)) as [st lims] eqn:El.
    destruct lims as [[[s1 smin] smax]|]; [|discriminate]. destruct (ok st) eqn:Eo; cbn [negb]; [|intros [= <- <-]; left; cbn; discriminate].
    apply ok_success in Eo. subst st. destruct (smax <=? nZ 0)%num eqn:Es; [intros [= <- <-]; left; cbn; discriminate|].
    match goal with |- context [vm_save ?o _ _ _] => set (o3 := o) end.
    destruct (vm_save o3 x f g) as [o4|] eqn:E4; [|discriminate]. apply save_cfg in E4. destruct E4 as (C4 & D4 & B4).
    destruct (ls_start _ _ _ _ _ _) as [l|]; [|discriminate].
    destruct (l_task l); try (intros [= <- <-]; left; cbn; discriminate). intros E5. right. split.
    - intros H1 H2. eapply KT; [|exact E5|exact H2|exact H1]. cbn [set_lnsrch v_cfg]. rewrite C4. cbn. now rewrite E2, Ed.
    - apply trial_cfg in E5. destruct E5 as (_ & D5 & _ & B5 & _). cbn in D5, B5. rewrite D5, D4, B5, B4. unfold o3. cbn. eauto 10. }
  destruct G as [G|[G1 G2]].
  - split; [|split]; unfold vm_get_task; try congruence. intros ->. discriminate Ht.
  - split; [auto|split; [|auto]]. intros ->. discriminate Ht.
Qed.

(** [opk_iterate_vmlmb]: whatever the state of an optimizer with bounds and the results of the operations on the bounds,
    - if the call requests the function at new variables beyond the first bound, these variables come from a successful projection;
    - if the call accepts a point, the free variables have been successfully determined at this point;
    - if the call leaves an accepted point, the step limits have been successfully determined, some step is possible and the first
      step is not longer. *)
Theorem C53_iterate (N : Num) (S : Space N) (o : vm S) (box : Convex S) x f g o' x' :
  c_box (v_cfg o) = Some box -> vm_iterate o x f g = Some (o', x') ->
  (v_task o = COMPUTE_FG \/ accepted (v_task o) = true -> vm_get_task o' = COMPUTE_FG -> (v_stp o' >? v_bsmin o')%num = true ->
     exists y, projvar box y = (SUCCESS, x')) /\
  (v_task o = COMPUTE_FG -> accepted (vm_get_task o') = true -> fst (freevar box x g) = SUCCESS) /\
  (accepted (v_task o) = true -> vm_get_task o' = COMPUTE_FG ->
     exists s1 smin smax, steplim box x (v_d o') = (SUCCESS, Some (s1, smin, smax)) /\ (smax <=? nZ 0)%num = false /\ v_bsmin o' = smin).
Proof.
  intros Hb.
  assert (KT : forall o1 : vm S, c_box (v_cfg o1) = Some box -> forall o' x', vm_trial o1 x = Some (o', x') ->
    vm_get_task o' = COMPUTE_FG -> (v_stp o' >? v_bsmin o')%num = true -> exists y, projvar box y = (SUCCESS, x')).
  { intros o1 Hb1 o2 x2 Ht. pose proof (trial_cfg _ _ _ _ Ht) as (_ & _ & Es & Em & _). rewrite Es, Em. revert Ht. unfold vm_trial.
    destruct (get_x0 o1) as [x0|]; [|discriminate]. rewrite Hb1. destruct (_ >? _)%num eqn:E.
    - destruct (projvar box _) as [st y] eqn:Ep. destruct (ok st) eqn:Eo; intros [= <- <-]; cbn; [|discriminate].
      apply ok_success in Eo. subst st. intros _ _. eexists. exact Ep.
    - intros [= <- <-]. discriminate. }
  unfold vm_iterate. destruct (v_task o) eqn:Et.
  1, 2, 6: intros [= <- <-]; (split; [|split]); cbn; intuition discriminate.
  - (* function computed *)
    unfold vm_check. cbn [v_evals set_counts].
    assert (KA : forall o1 : vm S, c_box (v_cfg o1) = Some box -> vm_get_task (vm_accept o1 x g) <> COMPUTE_FG /\
      (accepted (vm_get_task (vm_accept o1 x g)) = true -> fst (freevar box x g) = SUCCESS)).
    { intros o1 Hb1. unfold vm_accept. rewrite Hb1. destruct (freevar box x g) as [st w]. cbn [fst].
      destruct (ok st) eqn:Eo; cbn [negb]; [|cbn; split; discriminate]. apply ok_success in Eo. split; [|auto].
      destruct (c_method _); cbn; destruct (_ <=? _)%num; discriminate. }
    assert (KF : forall o1 o' x', Some (vm_accept o1 x g, x) = Some (o', x') -> c_box (v_cfg o1) = Some box ->
      vm_get_task o' <> COMPUTE_FG /\ (accepted (vm_get_task o') = true -> fst (freevar box x g) = SUCCESS)).
    { intros o1 o2 x2 [= <- <-] Hb1. now apply KA. }
    assert (G : forall o2 x2, vm_get_task o2 <> COMPUTE_FG -> (accepted (vm_get_task o2) = true -> fst (freevar box x g) = SUCCESS) ->
      (COMPUTE_FG = COMPUTE_FG \/ accepted COMPUTE_FG = true -> vm_get_task o2 = COMPUTE_FG -> (v_stp o2 >? v_bsmin o2)%num = true -> exists y, projvar box y = (SUCCESS, x2)) /\
      (COMPUTE_FG = COMPUTE_FG -> accepted (vm_get_task o2) = true -> fst (freevar box x g) = SUCCESS) /\
      (accepted COMPUTE_FG = true -> vm_get_task o2 = COMPUTE_FG -> exists s1 smin smax, steplim box x (v_d o2) = (SUCCESS, Some (s1, smin, smax)) /\ (smax <=? nZ 0)%num = false /\ v_bsmin o2 = smin)).
    { intros o2 x2 G1 G2. split; [|split]; [tauto|tauto|discriminate]. }
    destruct (_ >? 1)%Z.
    + match goal with |- context [match ?d with Some _ => _ | None => None end] => destruct d as [dtg|]; [|discriminate] end.
      destruct (ls_iterate _ _ _ _) as [l stp]. destruct (l_task l).
      * intros [= <- <-]. apply G; cbn; discriminate.
      * intros E. split; [|split].
        -- intros _. eapply KT; [|exact E]. exact Hb.
        -- intros _ A. apply trial_cfg in E. destruct E as (_ & _ & _ & _ & T1 & T2). unfold vm_get_task in A. destruct (v_task o'); congruence || discriminate.
        -- discriminate.
      * intros E. destruct (KF _ _ _ E Hb). now apply G.
      * destruct (is_rounding (l_status l)); intros E; [destruct (KF _ _ _ E Hb); now apply G|]. injection E as <- <-. apply G; cbn; discriminate.
    + intros E. destruct (KF _ _ _ E Hb). now apply G.
  - (* accepted point *)
    intros E. now apply (new_x_bounds N S o box x f g o' x' Hb KT).
  - intros E. now apply (new_x_bounds N S o box x f g o' x' Hb KT).
Qed.
Print Assumptions C53_iterate.

(** A set whose operations fail when the first variable is 7; the run of the example is stopped with its error. *)
Definition at_seven (x : SD) : bool := match elts x with a :: _ => (a =? nZ 7)%num | [] => false end.
Definition bad_box : Convex SD := mkConvex NumD SD
  (fun x => if at_seven x then (INFEASIBLE_BOUNDS, x) else projvar ex_box x) (projdir ex_box) (freevar ex_box) (steplim ex_box).
Example C53_example : exists o : vm SD, new_optimizer None 2 None (Some bad_box) o /\ c_box (v_cfg o) = Some bad_box /\ vm_get_task (fst (vm_start o (ex_x 7 1))) = ERROR /\ vm_get_task (fst (vm_start o (ex_x 5 1))) = COMPUTE_FG.
Proof.
  destruct (is_some_ex (new_vmlmb (S := SD) None 2 None (Some bad_box))) as (o & E); [vm_compute; reflexivity|].
  exists o. assert (Hn : new_optimizer None 2 None (Some bad_box) o) by (split; [exact E|discriminate]). split; [exact Hn|].
  destruct (VmProofs.new_ok None 2 None (Some bad_box) o Hn) as (_ & _ & Eb & _). split; [exact Eb|].
  destruct (vm_start o (ex_x 7 1)) as [o1 x1] eqn:E1. destruct (vm_start o (ex_x 5 1)) as [o2 x2] eqn:E2.
  destruct (C53_start _ _ o bad_box _ _ _ Eb E1) as (_ & _ & _ & K1). destruct (C53_start _ _ o bad_box _ _ _ Eb E2) as (_ & _ & K2 & _).
  split; [apply K1; vm_compute; discriminate | apply K2; vm_compute; reflexivity].
Qed.
