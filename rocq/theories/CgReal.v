(** * The conjugate gradient optimizer driven by an objective function: any arithmetic, then exact arithmetic *)
From Coq Require Import List ZArith Bool Arith Lia Reals Lra Sorted.
From Verif Require Import Num NumFacts ListFacts VecModel VecProofs Base LsModel LsSpec LsProofs LsOrd LsReal LsDescent
  OptSpace VmModel VmSpec VmProofs VmRealSpec VmReal CgModel CgSpec CgProofs.

Import ListNotations.

Section Eval.
Context {N : Num} {S : Space N} (F : S -> N) (G : S -> S).
Implicit Types (o : cg S) (x g d : S) (t : tally S).

Definition ctrial o x (s : N) : S := vaxpby (nZ 1) x (- s)%num (n_d o).

Definition Jc o t (prev : option S) : Prop :=
  match n_task o with
  | COMPUTE_FG => t_points t = [] \/
      exists p pts, t_points t = p :: pts /\ snd p = G (fst p) /\ t_f0 t = F (fst p) /\ n_g0norm o = vnorm2 (snd p) /\ prev = Some (ctrial o (fst p) (n_alpha o))
  | NEW_X | FINAL_X => prev = Some (t_x t) /\ t_g t = G (t_x t) /\ (t_points t = [] \/
      exists p pts s, t_points t = p :: pts /\ snd p = G (fst p) /\ n_g0norm o = vnorm2 (snd p) /\ t_x t = ctrial o (fst p) s)
  | _ => True
  end.
Definition cfair (prev : option S) (cl : vcall S) : Prop :=
  match cl with VStart _ => True | VIterate x f g => (forall p, prev = Some p -> x = p) /\ f = F x /\ g = G x end.

(** What an iteration does to the line search. *)
Definition ls_step o o' (f : N) : Prop :=
  params (n_ls o') = params (n_ls o) /\
  match n_task o with
  | COMPUTE_FG => (1 <= n_evals o)%Z -> n_d o' = n_d o /\ n_g0norm o' = n_g0norm o /\ exists dtg s', ls_iterate (n_ls o) (n_alpha o) f dtg = (n_ls o', s') /\
      (n_task o' = COMPUTE_FG -> l_task (n_ls o') = LS_SEARCH /\ n_alpha o' = s') /\
      (accepted (n_task o') = true -> l_task (n_ls o') = LS_CONVERGENCE \/ l_task (n_ls o') = LS_WARNING /\ l_status (n_ls o') = ROUNDING_ERRORS_PREVENT_PROGRESS)
  | NEW_X | FINAL_X => n_task o' = COMPUTE_FG -> l_task (n_ls o') = LS_SEARCH /\ n_g0norm o' = n_gnorm o /\
      exists dtg s s1 s2, ls_start (n_ls o) f dtg s s1 s2 = Some (n_ls o')
  | _ => o' = o
  end.

Lemma check_step o x (f : N) g o' x' : cg_check o x f g = (o', x') -> n_task o = COMPUTE_FG ->
  (0 <= n_evals o)%Z -> ls_step o o' f /\ (n_task o' = COMPUTE_FG -> x' = ctrial o' (n_x0 o) (n_alpha o')).
Proof.
  intros E Et He. unfold ls_step. rewrite Et. destruct (Z.eq_dec (n_evals o) 0) as [E0|E0].
  - rewrite (check_first o x f g E0) in E. injection E as <- <-.
    set (o1 := nset_counts o 1 _ _). destruct (accept_frame o1 g) as (A1 & A2 & _ & _ & _ & _ & _ & _ & _ & _ & _ & _ & _ & _ & _ & _ & A17 & _).
    rewrite A2. split; [split; [reflexivity|lia]|]. intros X. rewrite X in A17. discriminate.
  - pose proof (check_search o x f g) as C. cbv zeta in C.
    pose proof (iterate_params (n_ls o) (n_alpha o) f (- vdot (n_d o) g)%num) as P.
    destruct (ls_iterate (n_ls o) (n_alpha o) f (- vdot (n_d o) g)%num) as [l alpha] eqn:El. cbn [fst] in P. specialize (C ltac:(lia)). rewrite E in C. clear E.
    set (o1 := nset_ls (nset_dtg (nset_counts o (n_evals o + 1) (n_iters o) (n_restarts o)) (- vdot (n_d o) g)%num (n_alpha o)) l alpha) in C.
    set (o2 := nset_ls (nset_dtg (nset_counts o (n_evals o + 1) (n_iters o + 1) (n_restarts o)) (- vdot (n_d o) g)%num (n_alpha o)) l alpha) in C.
    assert (Acc : (l_task l = LS_CONVERGENCE \/ l_task l = LS_WARNING /\ l_status l = ROUNDING_ERRORS_PREVENT_PROGRESS) -> (o', x') = (cg_accept o2 g, x) ->
      (params (n_ls o') = params (n_ls o) /\ ((1 <= n_evals o)%Z -> n_d o' = n_d o /\ n_g0norm o' = n_g0norm o /\ exists dtg s', ls_iterate (n_ls o) (n_alpha o) f dtg = (n_ls o', s') /\
      (n_task o' = COMPUTE_FG -> l_task (n_ls o') = LS_SEARCH /\ n_alpha o' = s') /\
      (accepted (n_task o') = true -> l_task (n_ls o') = LS_CONVERGENCE \/ l_task (n_ls o') = LS_WARNING /\ l_status (n_ls o') = ROUNDING_ERRORS_PREVENT_PROGRESS))) /\
      (n_task o' = COMPUTE_FG -> x' = ctrial o' (n_x0 o) (n_alpha o'))).
    { intros Hl. injection 1 as -> ->. destruct (accept_frame o2 g) as (A1 & A2 & _ & _ & A5 & _ & _ & A8 & _ & _ & _ & _ & _ & _ & _ & _ & A17 & _).
      rewrite A2, A5, A8. split; [|intros X; rewrite X in A17; discriminate]. split; [exact P|]. intros _. split; [reflexivity|]. split; [reflexivity|].
      exists (- vdot (n_d o) g)%num, alpha. split; [exact El|]. split; [intros X; rewrite X in A17; discriminate|]. intros _. exact Hl. }
    assert (Err : forall st, (o', x') = (nfailure o1 st, x) ->
      (params (n_ls o') = params (n_ls o) /\ ((1 <= n_evals o)%Z -> n_d o' = n_d o /\ n_g0norm o' = n_g0norm o /\ exists dtg s', ls_iterate (n_ls o) (n_alpha o) f dtg = (n_ls o', s') /\
      (n_task o' = COMPUTE_FG -> l_task (n_ls o') = LS_SEARCH /\ n_alpha o' = s') /\
      (accepted (n_task o') = true -> l_task (n_ls o') = LS_CONVERGENCE \/ l_task (n_ls o') = LS_WARNING /\ l_status (n_ls o') = ROUNDING_ERRORS_PREVENT_PROGRESS))) /\
      (n_task o' = COMPUTE_FG -> x' = ctrial o' (n_x0 o) (n_alpha o'))).
    { intros st. injection 1 as -> ->. split; [|discriminate]. split; [exact P|]. intros _. split; [reflexivity|]. split; [reflexivity|].
      exists (- vdot (n_d o) g)%num, alpha. split; [exact El|]. split; discriminate. }
    destruct (l_task l) eqn:Tl.
    + eapply Err; exact C.
    + unfold cg_trial in C. injection C as -> ->. split; [|reflexivity]. split; [exact P|]. intros _. split; [reflexivity|]. split; [reflexivity|].
      exists (- vdot (n_d o) g)%num, alpha. split; [exact El|]. split; [|discriminate]. intros _. split; [exact Tl|reflexivity].
    + apply Acc; auto.
    + destruct (is_rounding (l_status l)) eqn:Rd; [|eapply Err; exact C]. apply Acc; auto. right. split; [reflexivity|].
      unfold is_rounding in Rd. destruct (l_status l); try discriminate; reflexivity.
Qed.

Lemma new_x_step cfg o t x (f : N) g o' x' : cinv cfg o t -> accepted (n_task o) = true -> cg_new_x o x f g = Some (o', x') ->
  ls_step o o' f /\ (n_task o' = COMPUTE_FG -> x' = ctrial o' x (n_alpha o')).
Proof.
  intros (V1 & V2 & V3 & V4 & V5 & V6 & V7 & V8 & V9 & _) At E. rewrite <- V1 in V8, V9.
  destruct (new_x_form o x f g V8 V9 V2) as (o2 & l & (A1 & A2 & A3 & A4 & A5 & A6 & A7 & A8 & A9 & A10 & A11 & A12) & M & Es & Il & E').
  rewrite E in E'. assert (P := start_params _ _ _ _ _ _ _ Es).
  assert (B : n_ls o' = l /\ (n_task o' = COMPUTE_FG -> l_task l = LS_SEARCH /\ x' = ctrial o' x (n_alpha o') /\ n_g0norm o' = n_gnorm o)).
  { destruct (l_task l) eqn:Tl; unfold cg_trial in E'; injection E' as -> ->; (split; [reflexivity|]); try discriminate. intros _. split; [reflexivity|].
    split; [unfold ctrial; cbn [nsuccess nset_task nset_ls n_x0 n_d n_alpha]; rewrite A3; reflexivity|]. cbn [nsuccess nset_task nset_ls n_g0norm]. exact A7. }
  destruct B as (B1 & B2). rewrite <- B1 in P, Es. unfold ls_step. split.
  - split; [exact P|]. destruct (accepted_cases _ At) as [X|X]; rewrite X; intros Tk; destruct (B2 Tk) as (B3 & _ & B5); rewrite B1, <- B1; (split; [congruence|]); (split; [exact B5|]); eauto 8.
  - intros Tk. destruct (B2 Tk) as (_ & B4 & _). exact B4.
Qed.

Lemma Jc_step cfg o t prev cl o' r x' : cinv cfg o t -> Jc o t prev -> cfair prev cl -> cdo o cl = Some (o', (r, x')) ->
  let t' := tally_step false None t cl r in
  r = n_task o' /\ cinv cfg o' t' /\ Jc o' t' (Some x') /\ (match cl with VStart _ => n_ls o' = n_ls o | VIterate _ f _ => ls_step o o' f end).
Proof.
  intros V J Hf E. destruct (cdo_ok cfg o t cl V) as (o1 & x1 & E1 & V1). rewrite E in E1. injection E1 as <- -> ->.
  intros t'. split; [reflexivity|]. split; [exact V1|]. destruct cl as [x|x f g].
  - cbn [cdo cg_start] in E. injection E as <- _ <-. split; [left; reflexivity|reflexivity].
  - destruct Hf as (Hx & -> & ->). cbn [cdo] in E. destruct (cg_iterate o x (F x) (G x)) as [[o2 x2]|] eqn:Ei; [|discriminate]. injection E as -> _ ->. rename Ei into E. unfold cg_iterate in E.
    assert (Et : n_task o = t_task t) by apply V. unfold t' in *. clear t'.
    assert (NX : accepted (n_task o) = true -> cg_new_x o x (F x) (G x) = Some (o', x1) ->
      Jc o' (tally_step false None t (VIterate x (F x) (G x)) (n_task o')) (Some x1) /\ ls_step o o' (F x)).
    { clear E. intros Ac E. destruct (new_x_step cfg o t x (F x) (G x) o' x1 V Ac E) as (Ls & Ex).
      split; [|exact Ls]. destruct (new_x_ok cfg o t x (F x) (G x) V Ac) as (o2 & x2 & E2 & _ & Tk & _). rewrite E in E2. injection E2 as <- <-.
      assert (Jp : prev = Some (t_x t) /\ t_g t = G (t_x t)) by (unfold Jc in J; destruct (n_task o); try discriminate; tauto).
      destruct Jp as (-> & Jg). specialize (Hx _ eq_refl). 
      destruct Tk as [Tk|Tk]; unfold Jc; rewrite Tk; [|exact Logic.I]. right. exists (x, G x), (t_points t). cbn [fst snd].
      assert (Etl : tally_step false None t (VIterate x (F x) (G x)) COMPUTE_FG = mkTally COMPUTE_FG (t_evals t) (t_accepted t) (t_x t) (t_g t) (t_ginit t) ((x, G x) :: t_points t) (F x) (G x)).
      { cbn [tally_step]. rewrite <- Et. destruct (accepted_cases _ Ac) as [X|X]; rewrite X; reflexivity. }
      rewrite Etl. cbn [t_points t_f0]. repeat (split; [reflexivity|]). split; [|rewrite (Ex Tk); reflexivity].
      assert (Gn : n_gnorm o = vnorm2 (t_g t)).
      { destruct V as (_ & _ & _ & _ & _ & _ & _ & _ & _ & _ & V). destruct (accepted_cases _ Ac) as [X|X]; rewrite X in V; apply V. }
      assert (Gs : n_g0norm o' = n_gnorm o). { destruct Ls as (_ & Ls). destruct (accepted_cases _ Ac) as [X|X]; rewrite X in Ls; apply (Ls Tk). }
      rewrite Gs, Gn, Jg, Hx. reflexivity. }
    destruct (n_task o) eqn:Eo.
    + injection E as <- <-. split; [unfold Jc; rewrite Eo; exact Logic.I|]. split; [reflexivity|rewrite Eo; reflexivity].
    + destruct V as (_ & _ & _ & _ & _ & _ & _ & _ & _ & _ & V). rewrite Eo in V. contradiction.
    + pose proof (check_ok cfg o t x (F x) (G x) V Eo) as C. injection E as E. rewrite E in C. destruct C as (_ & _ & C0 & C1).
      assert (He : (0 <= n_evals o)%Z) by (destruct V as (_ & _ & _ & V4 & _ & _ & V7 & _); lia).
      destruct (check_step o x (F x) (G x) o' x1 E Eo He) as (Ls & Ex). split; [|exact Ls].
      unfold Jc in J. rewrite Eo in J.
      destruct V as (_ & _ & _ & V4 & _ & _ & V7 & _ & _ & _ & V). rewrite Eo in V.
      destruct Ls as (_ & Ls). rewrite Eo in Ls. rewrite V4 in Ls.
      assert (Jq : t_points t = [] /\ t_evals t = 0%Z \/ exists p pts, t_points t = p :: pts /\ snd p = G (fst p) /\ t_f0 t = F (fst p) /\ n_g0norm o = vnorm2 (snd p) /\ prev = Some (ctrial o (fst p) (n_alpha o)) /\ (1 <= t_evals t)%Z /\ n_x0 o = fst p).
      { destruct V as [(W1 & W2 & W3)|((W1 & W2) & (p & pts & W3 & W4) & W5)]; [auto|]. right. destruct J as [J|(p' & pts' & J1 & J2 & J3 & J4 & J5)]; [congruence|].
        rewrite W3 in J1. injection J1 as <- <-. exists p, pts. split; [exact W3|]. repeat (split; [assumption|]). apply W4. }
      unfold Jc. destruct (n_task o') eqn:Eo'; try exact Logic.I.
      * (* another trial *)
        destruct Jq as [(_ & Jq)|(p & pts & J1 & J2 & J3 & J4 & J5 & J6 & J7)]; [specialize (C0 Jq); discriminate|]. right. exists p, pts.
        cbn [tally_step]. rewrite <- Et. cbn [accepted t_points t_f0]. split; [exact J1|]. split; [exact J2|]. split; [exact J3|].
        destruct (Ls J6) as (L1 & L2 & _). rewrite L2. split; [exact J4|]. rewrite (Ex eq_refl), J7. reflexivity.
      * rewrite (C1 eq_refl). cbn [tally_step]. rewrite <- Et. cbn [accepted t_x t_g t_points]. split; [reflexivity|]. split; [reflexivity|].
        destruct Jq as [(Jq & _)|(p & pts & J1 & J2 & J3 & J4 & J5 & J6 & J7)]; [left; exact Jq|right]. exists p, pts, (n_alpha o). split; [exact J1|]. split; [exact J2|].
        destruct (Ls J6) as (L1 & L2 & _). rewrite L2. split; [exact J4|]. specialize (Hx _ J5). rewrite Hx. unfold ctrial. rewrite L1. reflexivity.
      * rewrite (C1 eq_refl). cbn [tally_step]. rewrite <- Et. cbn [accepted t_x t_g t_points]. split; [reflexivity|]. split; [reflexivity|].
        destruct Jq as [(Jq & _)|(p & pts & J1 & J2 & J3 & J4 & J5 & J6 & J7)]; [left; exact Jq|right]. exists p, pts, (n_alpha o). split; [exact J1|]. split; [exact J2|].
        destruct (Ls J6) as (L1 & L2 & _). rewrite L2. split; [exact J4|]. specialize (Hx _ J5). rewrite Hx. unfold ctrial. rewrite L1. reflexivity.
    + apply NX; auto.
    + apply NX; auto.
    + destruct V as (_ & _ & _ & _ & _ & _ & _ & _ & _ & _ & V). rewrite Eo in V. contradiction.
Qed.

Lemma step_task t (cl : vcall S) r : t_task (tally_step false None t cl r) = r.
Proof. destruct cl; [reflexivity|]. cbn [tally_step]. destruct (t_task t); try reflexivity. destruct (accepted r); reflexivity. Qed.

Lemma Jc_run cfg cs : forall o t prev o' rs, cinv cfg o t -> Jc o t prev -> evaluates F G prev cs rs -> crun o cs = Some (o', rs) ->
  let t' := count_calls false None t cs rs in
  cinv cfg o' t' /\ Jc o' t' (match cs with [] => prev | _ => option_map snd (hd_error (rev rs)) end).
Proof.
  induction cs as [|cl cs IH]; intros o t prev o' rs V J Ev E.
  - injection E as <- <-. cbn. auto.
  - cbn [crun] in E. destruct (cdo o cl) as [[o1 [r x1]]|] eqn:E1; [|discriminate]. destruct (crun o1 cs) as [[o2 rs2]|] eqn:E2; [|discriminate]. injection E as <- <-.
    assert (Hf : cfair prev cl /\ evaluates F G (Some x1) cs rs2).
    { destruct cl; cbn [evaluates] in Ev; [split; [exact Logic.I|exact Ev]|]. destruct Ev as (Q1 & Q2 & Q3 & Q4). repeat split; auto. }
    destruct Hf as [Hf Ev1].
    destruct (Jc_step cfg o t prev cl o1 r x1 V J Hf E1) as (Er & V1 & J1 & _).
    destruct (IH o1 _ (Some x1) o2 rs2 V1 J1 Ev1 E2) as (V2 & J2).
    cbn [count_calls]. split; [exact V2|].
    assert (Ep : match cs with [] => Some x1 | _ :: _ => option_map snd (hd_error (rev rs2)) end = option_map snd (hd_error (rev ((r, x1) :: rs2)))).
    { destruct cs as [|cl2 cs].
      - injection E2 as _ <-. reflexivity.
      - assert (rs2 <> []) by (cbn [crun] in E2; destruct (cdo o1 cl2) as [[? ?]|]; [|discriminate]; destruct (crun _ cs) as [[? ?]|]; [|discriminate]; injection E2 as _ <-; discriminate).
        exact (last_cons snd (r, x1) rs2 H). }
    refine (eq_ind _ (fun q => Jc o2 _ q) J2 _ Ep).
Qed.

(** A caller as in the specification makes such calls. *)
Lemma cdrive_ok cfg k : forall o t x, cinv cfg o t ->
  exists o' rs, crun o (cdrive F G k o x) = Some (o', rs) /\ evaluates F G (Some x) (cdrive F G k o x) rs /\ length rs = k.
Proof.
  induction k as [|k IH]; intros o t x V; [exists o, []; cbn; auto|].
  cbn [cdrive]. destruct (cdo_ok cfg o t (VIterate x (F x) (G x)) V) as (o1 & x1 & E & V1). cbn [cdo] in E.
  destruct (cg_iterate o x (F x) (G x)) as [[o2 x2]|] eqn:Ei; [|discriminate]. injection E as -> _ ->.
  destruct (IH o1 _ x1 V1) as (o' & rs & R & Ev & L). exists o', ((n_task o1, x1) :: rs). cbn [crun cdo]. rewrite Ei, R. split; [reflexivity|]. split; [|simpl; lia].
  cbn [evaluates]. split; [intros p X; injection X as <-; reflexivity|]. auto.
Qed.
Lemma cdrive_from_ok opts lnsrch o k x : new_cg opts lnsrch o ->
  exists o' rs, crun o (cdrive_from F G k o x) = Some (o', rs) /\ evaluates F G None (cdrive_from F G k o x) rs /\ length rs = Datatypes.S k.
Proof.
  intros Hn. destruct (new_cg_ok opts lnsrch o Hn) as (V & _). unfold cdrive_from. cbn [cg_start].
  destruct (cdo_ok _ o tally0 (VStart x) V) as (o1 & x1 & E & V1). cbn [cdo cg_start] in E. injection E as <- _ <-.
  destruct (cdrive_ok (n_cfg o) k _ _ x V1) as (o' & rs & R & Ev & L). exists o', ((COMPUTE_FG, x) :: rs). cbn [crun cdo cg_start]. rewrite R. split; [reflexivity|].
  split; [exact Ev|simpl; lia].
Qed.
End Eval.
