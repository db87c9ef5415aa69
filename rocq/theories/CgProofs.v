(** * Proofs about the conjugate gradient optimizer: invariants, any arithmetic *)
From Coq Require Import List ZArith Bool Arith Lia.
From Verif Require Import Num VecModel Base LsModel LsSpec LsProofs LsOrd ListFacts OptSpace VmModel VmSpec VmProofs CgModel CgSpec VmRealSpec.
Import ListNotations.

Section Inv.
Context {N : Num} {S : Space N}.
Implicit Types (o : cg S) (x g d : S) (t : tally S).

Definition opt_needs (r : rule) (v : option S) : Prop := if needs_g0 r then v <> None else v = None.

(** The members set at the start of a line search from the point [p]. *)
Definition csaved o t (p : S * S) : Prop :=
  n_x0 o = fst p /\ n_g0 o = (if needs_g0 (k_rule (n_cfg o)) then Some (snd p) else None) /\ n_f0 o = t_f0 t /\ snd p = t_g0 t /\
  nle (nZ 0) (n_dtg0 o) = false /\ l_ginit (n_ls o) = n_dtg0 o /\ l_finit (n_ls o) = t_f0 t /\
  (n_dtg0 o = (- vdot (n_d o) (snd p))%num \/ n_d o = snd p /\ n_dtg0 o = (- n_g0norm o * n_g0norm o)%num \/ (nZ 0 <? (nZ 0 : N))%num = true).

Definition cinv (cfg : cgcfg N) o t : Prop :=
  n_cfg o = cfg /\ ls_inv (n_ls o) /\ n_task o = t_task t /\ n_evals o = t_evals t /\ n_iters o = Z.max 0 (t_accepted t - 1) /\
  (0 <= n_restarts o <= Z.max 0 (Z.of_nat (length (t_points t)) - 1))%Z /\
  (Z.of_nat (length (t_points t)) <= t_accepted t <= t_evals t)%Z /\
  opt_needs (k_rule cfg) (n_g0 o) /\ opt_needs (k_rule cfg) (n_y o) /\
  ((1 <= t_accepted t)%Z -> n_ginit o = t_ginit t) /\
  match n_task o with
  | COMPUTE_FG =>
    (t_evals t = 0 /\ t_accepted t = 0 /\ t_points t = [])%Z \/
    (1 <= t_evals t /\ t_accepted t = Z.of_nat (length (t_points t)))%Z /\ (exists p pts, t_points t = p :: pts /\ csaved o t p) /\
      l_task (n_ls o) = LS_SEARCH /\ l_stp (n_ls o) = n_alpha o
  | NEW_X | FINAL_X =>
    (t_accepted t = Z.of_nat (length (t_points t)) + 1)%Z /\
    ((t_evals t = 1)%Z /\ t_points t = [] \/
     (2 <= t_evals t)%Z /\ exists p pts, t_points t = p :: pts /\ csaved o t p /\ n_dtg o = (- vdot (n_d o) (t_g t))%num) /\
    n_gnorm o = vnorm2 (t_g t) /\
    (n_task o = FINAL_X <-> nle (n_gnorm o) (cmax3 (nZ 0) (k_gatol cfg) (k_grtol cfg * t_ginit t)%num) = true)
  | ERROR => True
  | START | WARNING => False
  end.

(** ** The updates: what they do not change *)
Definition up_frame o o' : Prop :=
  n_cfg o' = n_cfg o /\ n_ls o' = n_ls o /\ n_x0 o' = n_x0 o /\ n_g0 o' = n_g0 o /\ opt_needs (k_rule (n_cfg o)) (n_y o') /\
  n_f0 o' = n_f0 o /\ n_g0norm o' = n_g0norm o /\ n_gnorm o' = n_gnorm o /\ n_dtg0 o' = n_dtg0 o /\ n_dtg o' = n_dtg o /\ n_ginit o' = n_ginit o /\
  n_alpha o' = n_alpha o /\ n_evals o' = n_evals o /\ n_iters o' = n_iters o /\ n_restarts o' = n_restarts o /\ n_task o' = n_task o.

Lemma update0_frame o g beta : opt_needs (k_rule (n_cfg o)) (n_y o) -> up_frame o (fst (update0 o g beta)).
Proof. intros H. unfold update0. destruct (neq _ _); repeat split; exact H. Qed.
Lemma update1_frame o g beta : opt_needs (k_rule (n_cfg o)) (n_y o) -> up_frame o (fst (update1 o g beta)).
Proof. apply update0_frame. Qed.

Lemma form_y_ok o g : opt_needs (k_rule (n_cfg o)) (n_g0 o) -> opt_needs (k_rule (n_cfg o)) (n_y o) -> needs_g0 (k_rule (n_cfg o)) = true ->
  exists g0, n_g0 o = Some g0 /\ form_y o g = Some (nset_y o (vaxpby (nZ 1) g (nZ (-1)) g0), vaxpby (nZ 1) g (nZ (-1)) g0).
Proof.
  unfold opt_needs, form_y. intros H1 H2 H3. rewrite H3 in *. destruct (n_g0 o) as [g0|]; [|congruence]. destruct (n_y o); [|congruence]. eauto.
Qed.

Lemma up_frame_y o o' y : n_cfg o' = n_cfg o -> needs_g0 (k_rule (n_cfg o)) = true -> up_frame (nset_y o y) o' -> up_frame o o'.
Proof.
  intros E Hn (A1 & A2 & A3 & A4 & A5 & A6). repeat (split; [first [exact A1|exact A2|exact A3|exact A4|exact A5]|]). exact A6.
Qed.

Lemma update_ok o g : opt_needs (k_rule (n_cfg o)) (n_g0 o) -> opt_needs (k_rule (n_cfg o)) (n_y o) ->
  exists o' s, cg_update o g = Some (o', s) /\ up_frame o o'.
Proof.
  intros H1 H2. assert (Y : forall y, needs_g0 (k_rule (n_cfg o)) = true -> opt_needs (k_rule (n_cfg (nset_y o y))) (n_y (nset_y o y))).
  { intros y Hn. unfold opt_needs. cbn [n_cfg nset_y n_y]. rewrite Hn. discriminate. }
  assert (U : forall y beta, needs_g0 (k_rule (n_cfg o)) = true -> exists o' s, Some (update1 (nset_y o y) g beta) = Some (o', s) /\ up_frame o o').
  { intros y beta Hn. pose proof (update1_frame (nset_y o y) g beta (Y y Hn)) as F. destruct (update1 (nset_y o y) g beta) as [o' s]. exists o', s. split; [reflexivity|].
    eapply up_frame_y; [apply F|exact Hn|exact F]. }
  assert (U0 : forall beta, exists o' s, Some (update0 o g beta) = Some (o', s) /\ up_frame o o').
  { intros beta. pose proof (update0_frame o g beta H2) as F. destruct (update0 o g beta) as [o' s]. exists o', s. auto. }
  unfold cg_update. destruct (k_rule (n_cfg o)) eqn:Er;
    try (destruct (form_y_ok o g) as (g0 & E0 & E1); rewrite ?Er; auto; fail).
  1, 4: apply U0.
  all: destruct (form_y_ok o g) as (g0 & E0 & E1); rewrite ?Er; auto.
  - unfold update_Hestenes_Stiefel. rewrite E1. apply U. reflexivity.
  - unfold update_Polak_Ribiere_Polyak. rewrite E1. apply U. reflexivity.
  - unfold update_Liu_Storey. rewrite E1. apply U. reflexivity.
  - unfold update_Dai_Yuan. rewrite E1. apply U. reflexivity.
  - unfold update_Perry_Shanno. rewrite E1. set (y := vaxpby _ _ _ _). 
    assert (F0 : up_frame o (nset_y o y)) by (pose proof (Y y eq_refl); repeat split; assumption).
    cbv zeta. destruct (nle _ _); [eauto|]. destruct (neq _ _); [eauto|]. eexists _, _. split; [reflexivity|]. exact F0.
  - unfold update_Hager_Zhang. rewrite E1. set (y := vaxpby _ _ _ _). cbv zeta. destruct (negb _); [|apply U; reflexivity].
    cbn [n_cfg nset_y]. destruct (k_hz_orig (n_cfg o)); [|apply U; reflexivity]. 
    match goal with |- exists _ _, Some (update1 (nset_y (nset_y o _) ?z) g ?b) = _ /\ _ => change (nset_y (nset_y o y) z) with (nset_y o z) end. apply U. reflexivity.
Qed.

(** ** The direction *)
Lemma direction_frame o g : opt_needs (k_rule (n_cfg o)) (n_g0 o) -> opt_needs (k_rule (n_cfg o)) (n_y o) ->
  exists o1 dtg, cg_direction o g = Some (nset_dtg o1 dtg (n_alpha o)) /\ up_frame o o1 /\
    (dtg = nZ 0 \/ (n_evals o > 1)%Z /\ cg_update o g = Some (o1, true) /\ dtg = (- vdot (n_d o1) g)%num).
Proof.
  intros H1 H2. unfold cg_direction. destruct (Z.leb_spec (n_evals o) 1).
  - exists o, (nZ 0). split; [reflexivity|]. split; [repeat split; assumption|auto].
  - destruct (update_ok o g H1 H2) as (o1 & s & E & F). rewrite E. assert (Ea : n_alpha o1 = n_alpha o) by apply F. destruct s.
    + rewrite <- Ea. eexists o1, _. split; [reflexivity|]. split; [exact F|]. destruct (_ && _); [left; reflexivity|]. right. split; [lia|]. auto.
    + rewrite <- Ea. exists o1, (nZ 0). split; [reflexivity|]. auto.
Qed.

(** Everything about a call in the state NEW_X or FINAL_X: the state just before the start of the line search. *)
Definition at_start o o2 x f g : Prop :=
  n_cfg o2 = n_cfg o /\ n_ls o2 = n_ls o /\ n_x0 o2 = x /\ n_g0 o2 = (if needs_g0 (k_rule (n_cfg o)) then Some g else None) /\
  opt_needs (k_rule (n_cfg o)) (n_y o2) /\ n_f0 o2 = f /\ n_g0norm o2 = n_gnorm o /\ n_gnorm o2 = n_gnorm o /\ n_dtg0 o2 = n_dtg o2 /\
  n_ginit o2 = n_ginit o /\ n_evals o2 = n_evals o /\ n_iters o2 = n_iters o.

(** The direction and the step: given by the update, or a restart. *)
Definition updated o o2 g : Prop := exists o1 dtg, (n_evals o > 1)%Z /\ cg_update o g = Some (o1, true) /\ dtg = (- vdot (n_d o1) g)%num /\
  nlt dtg (nZ 0) = true /\ ((k_epsilon (n_cfg o) >? nZ 0) && (dtg >? - k_epsilon (n_cfg o) * vnorm2 (n_d o1) * n_gnorm o))%num = false /\
  n_d o2 = n_d o1 /\ n_beta o2 = n_beta o1 /\ n_dtg o2 = dtg /\ n_restarts o2 = n_restarts o /\
  n_alpha o2 = if has_flag (k_flags (n_cfg o)) NLCG_SHANNO_PHUA then (n_alpha o * (n_dtg0 o / dtg))%num else n_alpha o.
Definition first_step o x f : N :=
  let dtg := (- n_gnorm o * n_gnorm o)%num in
  if k_fmin_given (n_cfg o) && (k_fmin (n_cfg o) <? f)%num then (nZ 2 * (k_fmin (n_cfg o) - f) / dtg)%num
  else if negb (f =? nZ 0)%num then (nZ 2 * nabs (f / dtg))%num
  else if (vnorm2 x >? nZ 0)%num then (k_delta (n_cfg o) * vnorm2 x / n_gnorm o)%num else (k_delta (n_cfg o) / n_gnorm o)%num.
Definition restarted o o2 x f g : Prop :=
  n_d o2 = g /\ n_dtg o2 = (- n_gnorm o * n_gnorm o)%num /\ n_beta o2 = nZ 0 /\ n_alpha o2 = first_step o x f /\
  n_restarts o2 = (if (n_evals o >? 1)%Z then n_restarts o + 1 else n_restarts o)%Z /\
  ((n_evals o <= 1)%Z \/ (exists o1, cg_update o g = Some (o1, false)) \/
   exists o1 dtg, cg_update o g = Some (o1, true) /\ dtg = (- vdot (n_d o1) g)%num /\
     (nlt dtg (nZ 0) = false \/ ((k_epsilon (n_cfg o) >? nZ 0) && (dtg >? - k_epsilon (n_cfg o) * vnorm2 (n_d o1) * n_gnorm o))%num = true)).

(** (The last case: an arithmetic in which zero is less than zero.) *)
Definition moved o o2 x f g : Prop := updated o o2 g \/ restarted o o2 x f g \/ nlt (nZ 0) (nZ 0 : N) = true /\ n_restarts o2 = n_restarts o.

Lemma new_x_form o x f g : opt_needs (k_rule (n_cfg o)) (n_g0 o) -> opt_needs (k_rule (n_cfg o)) (n_y o) -> ls_inv (n_ls o) ->
  exists o2 l, at_start o o2 x f g /\ moved o o2 x f g /\
    ls_start (n_ls o) f (n_dtg o2) (n_alpha o2) (k_stpmin (n_cfg o) * n_alpha o2)%num (k_stpmax (n_cfg o) * n_alpha o2)%num = Some l /\ ls_inv l /\
    cg_new_x o x f g = Some (match l_task l with LS_SEARCH => cg_trial (nset_ls o2 l (n_alpha o2)) | _ => (nfailure (nset_ls o2 l (n_alpha o2)) (l_status l), x) end).
Proof.
  intros H1 H2 Il. unfold cg_new_x.
  assert (Fin : forall o1 o2, up_frame o o1 -> n_cfg o2 = n_cfg o1 -> n_ls o2 = n_ls o1 -> n_g0 o2 = n_g0 o1 -> n_y o2 = n_y o1 -> n_gnorm o2 = n_gnorm o1 ->
    n_ginit o2 = n_ginit o1 -> n_evals o2 = n_evals o1 -> n_iters o2 = n_iters o1 ->
    at_start o (nset_start o2 x (match n_g0 o2 with Some _ => Some g | None => None end) f) x f g).
  { intros o1 o2 (A1 & A2 & A3 & A4 & A5 & A6 & A7 & A8 & A9 & A10 & A11 & A12 & A13 & A14 & A15 & A16) E1 E2 E3 E4 E5 E6 E7 E8.
    unfold at_start. cbn [nset_start n_cfg n_ls n_x0 n_g0 n_y n_f0 n_g0norm n_gnorm n_dtg0 n_dtg n_ginit n_evals n_iters].
    rewrite E1, E2, E3, E4, E5, E6, E7, E8, A1, A2, A4, A8, A11, A13, A14. repeat (split; [first [reflexivity|assumption]|]).
    split; [|repeat (split; [first [reflexivity|assumption]|]); reflexivity].
    unfold opt_needs in H1. destruct (needs_g0 _); [destruct (n_g0 o); congruence|rewrite H1; reflexivity]. }
  assert (Go : forall o1 o2, up_frame o o1 -> n_cfg o2 = n_cfg o1 -> n_ls o2 = n_ls o1 -> n_g0 o2 = n_g0 o1 -> n_y o2 = n_y o1 -> n_gnorm o2 = n_gnorm o1 ->
    n_ginit o2 = n_ginit o1 -> n_evals o2 = n_evals o1 -> n_iters o2 = n_iters o1 ->
    let o3 := nset_start o2 x (match n_g0 o2 with Some _ => Some g | None => None end) f in
    moved o o3 x f g ->
    exists o3' l, at_start o o3' x f g /\ moved o o3' x f g /\
    ls_start (n_ls o) f (n_dtg o3') (n_alpha o3') (k_stpmin (n_cfg o) * n_alpha o3')%num (k_stpmax (n_cfg o) * n_alpha o3')%num = Some l /\ ls_inv l /\
    (do l <- ls_start (n_ls o3) (n_f0 o3) (n_dtg0 o3) (n_alpha o3) (k_stpmin (n_cfg o3) * n_alpha o3)%num (k_stpmax (n_cfg o3) * n_alpha o3)%num;
     match l_task l with LS_SEARCH => Some (cg_trial (nset_ls o3 l (n_alpha o3))) | _ => Some (nfailure (nset_ls o3 l (n_alpha o3)) (l_status l), x) end) =
    Some (match l_task l with LS_SEARCH => cg_trial (nset_ls o3' l (n_alpha o3')) | _ => (nfailure (nset_ls o3' l (n_alpha o3')) (l_status l), x) end)).
  { intros o1 o2 F E1 E2 E3 E4 E5 E6 E7 E8 o3 UR. pose proof (Fin o1 o2 F E1 E2 E3 E4 E5 E6 E7 E8) as A. fold o3 in A.
    destruct (start_cases (n_ls o) f (n_dtg o3) (n_alpha o3) (k_stpmin (n_cfg o) * n_alpha o3)%num (k_stpmax (n_cfg o) * n_alpha o3)%num Il) as (l & E & Il' & _).
    exists o3, l. split; [exact A|]. split; [exact UR|]. split; [exact E|]. split; [exact Il'|].
    destruct A as (A1 & A2 & A3 & A4 & A5 & A6 & A7 & A8 & A9 & _). rewrite A1, A2, A6, A9, E. destruct (l_task l); reflexivity. }
  destruct (direction_frame o g H1 H2) as (o1 & dtg & E & F & D). rewrite E. 
  pose proof F as (A1 & A2 & A3 & A4 & A5 & A6 & A7 & A8 & A9 & A10 & A11 & A12 & A13 & A14 & A15 & A16).
  cbv zeta. set (oD := nset_dtg o1 dtg (n_alpha o)) in *. cbn [n_dtg]. destruct (nlt (n_dtg oD) (nZ 0)) eqn:En.
  - destruct (nlt (nZ 0) (nZ 0 : N)) eqn:Z0.
    { destruct (has_flag _ _); apply (Go o1 _ F); try reflexivity; right; right; (split; [exact Z0|exact A15]). }
    assert (Hup : dtg = (- vdot (n_d o1) g)%num /\ (n_evals o > 1)%Z /\ cg_update o g = Some (o1, true)).
    { destruct D as [->|(D1 & D2 & D3)]; [cbn [oD nset_dtg n_dtg] in En; congruence|auto]. }
    destruct Hup as (U1 & U2 & U3).
    assert (Ep : ((k_epsilon (n_cfg o) >? nZ 0) && (dtg >? - k_epsilon (n_cfg o) * vnorm2 (n_d o1) * n_gnorm o))%num = false).
    { unfold cg_direction in E. destruct (Z.leb_spec (n_evals o) 1); [lia|]. rewrite U3 in E. assert (E' := f_equal (fun q => match q with Some q => n_dtg q | None => nZ 0 end) E).
      cbn [nset_dtg n_dtg oD] in E'. clear E. rewrite A1, A8 in E'. rewrite <- U1 in E'. cbn [oD nset_dtg n_dtg] in En. revert E'. destruct (_ && _); [|reflexivity]. intros E'. congruence. }
    cbn [oD nset_dtg n_cfg n_dtg0 n_dtg n_alpha]. cbn [oD nset_dtg n_dtg] in En. destruct (has_flag (k_flags (n_cfg o1)) NLCG_SHANNO_PHUA) eqn:Ef.
    + apply (Go o1 _ F); try reflexivity. left. exists o1, dtg. repeat (split; [first [assumption|reflexivity]|]).
      cbn [nset_start nset_dtg n_alpha oD]. rewrite <- A1, Ef, A9. auto.
    + apply (Go o1 _ F); try reflexivity. left. exists o1, dtg. repeat (split; [first [assumption|reflexivity]|]).
      cbn [nset_start nset_dtg n_alpha oD]. rewrite <- A1, Ef. auto.
  - assert (Hre : (n_evals o <= 1)%Z \/ (exists o1, cg_update o g = Some (o1, false)) \/
     exists o1 dtg, cg_update o g = Some (o1, true) /\ dtg = (- vdot (n_d o1) g)%num /\
     (nlt dtg (nZ 0) = false \/ ((k_epsilon (n_cfg o) >? nZ 0) && (dtg >? - k_epsilon (n_cfg o) * vnorm2 (n_d o1) * n_gnorm o))%num = true)).
    { unfold cg_direction in E. destruct (Z.leb_spec (n_evals o) 1); [auto|]. right. destruct (update_ok o g H1 H2) as (o1' & s & Eu & F'). rewrite Eu in E |- *.
      destruct s; [right|left; eauto]. exists o1', (- vdot (n_d o1') g)%num. split; [reflexivity|]. split; [reflexivity|].
      assert (E' := f_equal (fun q => match q with Some q => n_dtg q | None => nZ 0 end) E). cbn [nset_dtg n_dtg oD] in E'. cbn [oD nset_dtg n_dtg] in En.
      assert (n_cfg o1' = n_cfg o) as Ec by apply F'. assert (n_gnorm o1' = n_gnorm o) as Eg by apply F'. rewrite Ec, Eg in E'. clear E. revert E'.
      match goal with |- context [if ?b then nZ 0 else _] => destruct b end; [auto|]. intros E'. left. rewrite E'. exact En. }
    unfold cg_steepest. cbn [oD nset_dtg n_evals]. rewrite A13. destruct (n_evals o >? 1)%Z eqn:Ee.
    + apply (Go o1 _ F); try reflexivity; [exact (eq_sym A13)|]. right. left. unfold restarted. cbn [oD nset_start nset_dtg nset_d nset_counts n_d n_dtg n_beta n_alpha n_restarts n_gnorm n_cfg n_evals].
      rewrite Ee, A8, A1, A15. repeat (split; [reflexivity|]). exact Hre.
    + apply (Go o1 _ F); try reflexivity. right. left. unfold restarted. cbn [oD nset_start nset_dtg nset_d nset_counts n_d n_dtg n_beta n_alpha n_restarts n_gnorm n_cfg n_evals].
      rewrite Ee, A8, A1, A15. repeat (split; [reflexivity|]). exact Hre.
Qed.

(** ** The calls *)
Lemma trial_task o : n_task (fst (cg_trial o)) = COMPUTE_FG. Proof. reflexivity. Qed.

Lemma accept_frame o g : let o' := cg_accept o g in
  n_cfg o' = n_cfg o /\ n_ls o' = n_ls o /\ n_x0 o' = n_x0 o /\ n_g0 o' = n_g0 o /\ n_d o' = n_d o /\ n_y o' = n_y o /\ n_f0 o' = n_f0 o /\
  n_g0norm o' = n_g0norm o /\ n_gnorm o' = vnorm2 g /\ n_dtg0 o' = n_dtg0 o /\ n_dtg o' = n_dtg o /\
  n_ginit o' = (if (n_evals o <=? 1)%Z then vnorm2 g else n_ginit o) /\ n_alpha o' = n_alpha o /\ n_evals o' = n_evals o /\ n_iters o' = n_iters o /\
  n_restarts o' = n_restarts o /\ accepted (n_task o') = true /\
  (n_task o' = FINAL_X <-> nle (n_gnorm o') (cmax3 (nZ 0) (k_gatol (n_cfg o)) (k_grtol (n_cfg o) * n_ginit o')%num) = true).
Proof.
  unfold cg_accept. cbv zeta. cbn [nsuccess nset_task nset_gnorm n_cfg n_ls n_x0 n_g0 n_d n_y n_f0 n_g0norm n_gnorm n_dtg0 n_dtg n_ginit n_alpha n_evals n_iters n_restarts n_task].
  repeat (split; [reflexivity|]). destruct (nle _ _) eqn:E.
  - split; [reflexivity|]. split; auto.
  - split; [reflexivity|]. split; [discriminate|]. intros X. discriminate X.
Qed.

Lemma accepted_cases a : accepted a = true -> a = NEW_X \/ a = FINAL_X.
Proof. destruct a; try discriminate; auto. Qed.

(** The first evaluation and the evaluations of a line search. *)
Lemma check_first o x f g : n_evals o = 0%Z -> cg_check o x f g = (cg_accept (nset_counts o 1 (n_iters o) (n_restarts o)) g, x).
Proof. intros E. unfold cg_check. rewrite E. reflexivity. Qed.

Lemma check_search o x f g : (1 <= n_evals o)%Z ->
  let dtg := (- vdot (n_d o) g)%num in
  let '(l, alpha) := ls_iterate (n_ls o) (n_alpha o) f dtg in
  let o1 := nset_ls (nset_dtg (nset_counts o (n_evals o + 1) (n_iters o) (n_restarts o)) dtg (n_alpha o)) l alpha in
  let o2 := nset_ls (nset_dtg (nset_counts o (n_evals o + 1) (n_iters o + 1) (n_restarts o)) dtg (n_alpha o)) l alpha in
  cg_check o x f g = match l_task l with
    | LS_SEARCH => cg_trial o1
    | LS_CONVERGENCE => (cg_accept o2 g, x)
    | LS_WARNING => if is_rounding (l_status l) then (cg_accept o2 g, x) else (nfailure o1 (l_status l), x)
    | LS_ERROR => (nfailure o1 (l_status l), x)
    end.
Proof.
  intros He. cbv zeta. unfold cg_check. cbn [nset_counts n_evals]. destruct (Z.gtb_spec (n_evals o + 1) 1) as [X|X]; [|lia].
  cbn [nset_counts n_ls n_alpha n_d]. destruct (ls_iterate (n_ls o) (n_alpha o) f _) as [l alpha]. destruct (l_task l); reflexivity.
Qed.

Notation tstep := (tally_step false (@None (Convex S))).

Lemma check_ok cfg o t x f g : cinv cfg o t -> n_task o = COMPUTE_FG ->
  let '(o', x') := cg_check o x f g in
  cinv cfg o' (tstep t (VIterate x f g) (n_task o')) /\ n_restarts o' = n_restarts o /\
  (t_evals t = 0%Z -> accepted (n_task o') = true) /\ (accepted (n_task o') = true -> x' = x).
Proof.
  intros (V1 & V2 & V3 & V4 & V5 & V6 & V7 & V8 & V9 & V10 & V11) Et. rewrite Et in V11, V3. symmetry in V3. cbn [tally_step]. rewrite V3.
  destruct V11 as [(E0 & E1 & E2)|((E0 & E1) & (p & pts & Ep & Sv) & Hs & Ha)].
  - rewrite (check_first o x f g) by lia. set (o1 := nset_counts o 1 _ _).
    destruct (accept_frame o1 g) as (A1 & A2 & A3 & A4 & A5 & A6 & A7 & A8 & A9 & A10 & A11 & A12 & A13 & A14 & A15 & A16 & A17 & A18).
    rewrite A17. split; [|split; [exact A16|auto]]. unfold cinv. cbn [t_task t_evals t_accepted t_points t_ginit t_f0 t_g0 t_x t_g].
    cbn [o1 nset_counts n_cfg n_ls n_g0 n_y n_ginit n_evals n_iters n_restarts] in A1, A2, A4, A6, A12, A14, A15, A16, A18.
    rewrite A2, A4, A6, A12, A14, A15, A16, E0, E1, E2. rewrite E1, E2 in *. cbn [Z.eqb Z.add Z.leb Z.compare Pos.compare Pos.compare_cont length] in *.
    split; [congruence|]. split; [exact V2|]. split; [reflexivity|]. split; [reflexivity|]. split; [rewrite V5; reflexivity|].
    split; [exact V6|]. split; [simpl; lia|]. split; [exact V8|]. split; [exact V9|]. split; [reflexivity|].
    rewrite A12 in A18. rewrite V1 in A18.
    destruct (accepted_cases _ A17) as [X|X]; rewrite X in *; (split; [reflexivity|]); (split; [left; auto|]); (split; [exact A9|]); exact A18.
  - pose proof (check_search o x f g) as C. rewrite V4 in C. specialize (C E0). cbv zeta in C.
    pose proof (iterate_cases (n_ls o) (n_alpha o) f (- vdot (n_d o) g)%num) as Ci. pose proof (iterate_inv (n_ls o) (n_alpha o) f (- vdot (n_d o) g)%num V2) as Ii.
    destruct (ls_iterate (n_ls o) (n_alpha o) f (- vdot (n_d o) g)%num) as [l alpha] eqn:El. cbn [fst] in Ii.
    assert (Same : l_task l <> LS_ERROR -> l_stp l = alpha /\ l_finit l = l_finit (n_ls o) /\ l_ginit l = l_ginit (n_ls o)).
    { intros Hn. destruct Ci as [(_ & -> & _)|[(_ & _ & -> & _)|(_ & _ & Q1 & (_ & _ & Q2 & Q3) & _)]]; try (contradiction Hn; reflexivity). auto. }
    clear Ci. destruct Sv as (B1 & B2 & B3 & B4 & B5 & B6 & B7 & B8).
    set (o1 := nset_ls (nset_dtg (nset_counts o (t_evals t + 1) (n_iters o) (n_restarts o)) (- vdot (n_d o) g)%num (n_alpha o)) l alpha) in C.
    set (o2 := nset_ls (nset_dtg (nset_counts o (t_evals t + 1) (n_iters o + 1) (n_restarts o)) (- vdot (n_d o) g)%num (n_alpha o)) l alpha) in C.
    assert (Acc : l_task l <> LS_ERROR -> let o' := cg_accept o2 g in
       cinv cfg o' (if accepted (n_task o') then mkTally (n_task o') (t_evals t + 1) (t_accepted t + 1) x g (if (t_accepted t =? 0)%Z then pgnorm false None x g else t_ginit t) (t_points t) (t_f0 t) (t_g0 t)
                    else mkTally (n_task o') (t_evals t + 1) (t_accepted t) (t_x t) (t_g t) (t_ginit t) (t_points t) (t_f0 t) (t_g0 t)) /\
       n_restarts o' = n_restarts o /\ (t_evals t = 0%Z -> accepted (n_task o') = true) /\ (accepted (n_task o') = true -> x = x)).
    { intros Hn. cbv zeta. specialize (Same Hn). destruct Same as (Q1 & Q2 & Q3).
      destruct (accept_frame o2 g) as (A1 & A2 & A3 & A4 & A5 & A6 & A7 & A8 & A9 & A10 & A11 & A12 & A13 & A14 & A15 & A16 & A17 & A18).
      rewrite A17. split; [|split; [exact A16|auto]]. unfold cinv. cbn [t_task t_evals t_accepted t_points t_ginit t_f0 t_g0 t_x t_g].
      cbn [o2 nset_counts nset_dtg nset_ls n_cfg n_ls n_x0 n_g0 n_d n_y n_f0 n_g0norm n_dtg0 n_dtg n_ginit n_evals n_iters n_restarts n_alpha] in A1, A2, A3, A4, A5, A6, A7, A8, A10, A11, A12, A13, A14, A15, A16, A18.
      rewrite Ep in *. cbn [length] in *.
      assert (Ez : (t_accepted t =? 0)%Z = false) by (apply Z.eqb_neq; lia). rewrite Ez.
      assert (Eg : n_ginit (cg_accept o2 g) = t_ginit t).
      { rewrite A12. destruct (Z.leb_spec (t_evals t + 1) 1); [lia|]. apply V10. lia. }
      rewrite A2, A4, A6, A14, A15, A16.
      split; [congruence|]. split; [exact Ii|]. split; [reflexivity|]. split; [reflexivity|]. split; [lia|].
      split; [exact V6|]. split; [lia|]. split; [exact V8|]. split; [exact V9|]. split; [intros _; exact Eg|].
      assert (Sv' : csaved (cg_accept o2 g) (mkTally (n_task (cg_accept o2 g)) (t_evals t + 1) (t_accepted t + 1) x g (t_ginit t) (p :: pts) (t_f0 t) (t_g0 t)) p).
      { unfold csaved. rewrite A1, A2, A3, A4, A5, A7, A8, A10. cbn [t_f0 t_g0]. rewrite Q2, Q3. auto 10. }
      rewrite Eg, V1 in A18.
      destruct (accepted_cases _ A17) as [X|X]; rewrite X in *; (split; [lia|]); (split; [right; split; [lia|]; exists p, pts; split; [reflexivity|]; split; [exact Sv'|rewrite A5; exact A11]|]);
        (split; [exact A9|]); exact A18. }
    assert (Err : forall st, let o' := nfailure o1 st in
       cinv cfg o' (if accepted (n_task o') then mkTally (n_task o') (t_evals t + 1) (t_accepted t + 1) x g (if (t_accepted t =? 0)%Z then pgnorm false None x g else t_ginit t) (t_points t) (t_f0 t) (t_g0 t)
                    else mkTally (n_task o') (t_evals t + 1) (t_accepted t) (t_x t) (t_g t) (t_ginit t) (t_points t) (t_f0 t) (t_g0 t)) /\
       n_restarts o' = n_restarts o /\ (t_evals t = 0%Z -> accepted (n_task o') = true) /\ (accepted (n_task o') = true -> x = x)).
    { intros st. cbn [accepted n_task nfailure nset_task]. split; [|split; [reflexivity|split; [lia|reflexivity]]].
      unfold cinv. cbn [o1 nset_counts nset_dtg nset_ls nfailure nset_task n_cfg n_ls n_g0 n_y n_ginit n_evals n_iters n_restarts n_task t_task t_evals t_accepted t_points t_ginit].
      repeat (split; [first [assumption|reflexivity|lia]|]). exact Logic.I. }
    destruct (l_task l) eqn:Tl; rewrite C.
    + apply Err.
    + cbn [cg_trial]. cbn [accepted n_task nsuccess nset_task cg_trial]. split; [|split; [reflexivity|split; [lia|discriminate]]].
      destruct Same as (Q1 & Q2 & Q3); [discriminate|].
      unfold cinv. cbn [o1 nset_counts nset_dtg nset_ls nsuccess nset_task n_cfg n_ls n_g0 n_y n_ginit n_evals n_iters n_restarts n_task n_alpha t_task t_evals t_accepted t_points t_ginit].
      repeat (split; [first [assumption|reflexivity|lia]|]). right. split; [lia|]. split; [|split; [exact Tl|exact Q1]].
      exists p, pts. split; [exact Ep|]. unfold csaved. cbn [o1 nset_counts nset_dtg nset_ls nsuccess nset_task n_cfg n_ls n_x0 n_g0 n_f0 n_dtg0 n_d n_g0norm t_f0 t_g0].
      rewrite Q2, Q3. auto 10.
    + apply Acc. discriminate.
    + destruct (is_rounding (l_status l)); [apply Acc; discriminate|apply Err].
Qed.

Lemma new_x_ok cfg o t x f g : cinv cfg o t -> accepted (n_task o) = true ->
  exists o' x', cg_new_x o x f g = Some (o', x') /\ cinv cfg o' (tstep t (VIterate x f g) (n_task o')) /\
    (n_task o' = COMPUTE_FG \/ n_task o' = ERROR) /\ (n_restarts o <= n_restarts o' <= n_restarts o + 1)%Z /\
    (n_evals o = 1%Z -> n_restarts o' = n_restarts o).
Proof.
  intros (V1 & V2 & V3 & V4 & V5 & V6 & V7 & V8 & V9 & V10 & V11) At.
  assert (E : (t_accepted t = Z.of_nat (length (t_points t)) + 1)%Z /\ (t_evals t = 1 /\ t_points t = [] \/ 2 <= t_evals t /\ exists p pts, t_points t = p :: pts)%Z).
  { destruct (accepted_cases _ At) as [X|X]; rewrite X in V11; destruct V11 as (Q1 & [(Q2 & Q3)|(Q2 & p & pts & Q3 & _)] & _);
      (split; [exact Q1|]); [left; auto|right; split; [exact Q2|eauto]|left; auto|right; split; [exact Q2|eauto]]. }
  destruct E as (E1 & E2). rewrite <- V1 in V8, V9.
  destruct (new_x_form o x f g V8 V9 V2) as (o2 & l & (A1 & A2 & A3 & A4 & A5 & A6 & A7 & A8 & A9 & A10 & A11 & A12) & M & Es & Il & E).
  assert (Rb : (n_restarts o <= n_restarts o2 <= n_restarts o + (if (n_evals o >? 1)%Z then 1 else 0))%Z).
  { destruct M as [(o1 & dtg & _ & _ & _ & _ & _ & _ & _ & _ & -> & _)|[(_ & _ & _ & _ & -> & _)|(_ & ->)]]; destruct (n_evals o >? 1)%Z; lia. }
  assert (Sl : l_task l = LS_SEARCH -> l_stp l = n_alpha o2 /\ l_finit l = f /\ l_ginit l = n_dtg o2 /\ nle (nZ 0) (n_dtg o2) = false).
  { intros Ht. destruct (start_cases (n_ls o) f (n_dtg o2) (n_alpha o2) (k_stpmin (n_cfg o) * n_alpha o2)%num (k_stpmax (n_cfg o) * n_alpha o2)%num V2) as (l' & E' & _ & C).
    assert (l' = l) by congruence. subst l'. clear E'.
    do 4 (match type of C with if ?c then _ else _ => destruct c; [exfalso; rewrite C in Ht; discriminate Ht|] end).
    destruct (nle (nZ 0) (n_dtg o2)) eqn:D0; [exfalso; rewrite C in Ht; discriminate Ht|].
    destruct C as (_ & _ & C1 & _ & _ & C2 & C3). auto. }
  set (o' := match l_task l with LS_SEARCH => cg_trial (nset_ls o2 l (n_alpha o2)) | _ => (nfailure (nset_ls o2 l (n_alpha o2)) (l_status l), x) end) in *.
  assert (B : n_cfg (fst o') = n_cfg o2 /\ n_ls (fst o') = l /\ n_x0 (fst o') = n_x0 o2 /\ n_g0 (fst o') = n_g0 o2 /\ n_d (fst o') = n_d o2 /\ n_y (fst o') = n_y o2 /\
     n_f0 (fst o') = n_f0 o2 /\ n_g0norm (fst o') = n_g0norm o2 /\ n_dtg0 (fst o') = n_dtg0 o2 /\ n_ginit (fst o') = n_ginit o2 /\ n_alpha (fst o') = n_alpha o2 /\
     n_evals (fst o') = n_evals o2 /\ n_iters (fst o') = n_iters o2 /\ n_restarts (fst o') = n_restarts o2 /\
     n_task (fst o') = match l_task l with LS_SEARCH => COMPUTE_FG | _ => ERROR end).
  { unfold o'. destruct (l_task l); repeat (split; [reflexivity|]); reflexivity. }
  destruct o' as [o' x']. cbn [fst] in B. destruct B as (B1 & B2 & B3 & B4 & B5 & B6 & B7 & B8 & B9 & B10 & B11 & B12 & B13 & B14 & B15).
  exists o', x'. split; [exact E|]. rewrite B14.
  assert (Hb : (n_restarts o2 <= n_restarts o + 1)%Z) by (destruct (n_evals o >? 1)%Z; lia).
  split; [|split; [rewrite B15; destruct (l_task l); auto|split; [lia|intros X; rewrite X in Rb; cbn [Z.gtb Z.compare Pos.compare Pos.compare_cont] in Rb; lia]]].
  assert (Tt : tstep t (VIterate x f g) (n_task o') = mkTally (n_task o') (t_evals t) (t_accepted t) (t_x t) (t_g t) (t_ginit t) ((x, g) :: t_points t) f g).
  { cbn [tally_step]. rewrite <- V3. destruct (accepted_cases _ At) as [X|X]; rewrite X; reflexivity. }
  rewrite Tt. unfold cinv. cbn [t_task t_evals t_accepted t_points t_ginit length].
  rewrite B1, B2, B4, B6, B10, B11, B12, B13, B14, A1, A10, A11, A12. 
  split; [exact V1|]. split; [exact Il|]. split; [reflexivity|]. split; [exact V4|]. split; [exact V5|].
  split. { destruct E2 as [(E2 & E3)|(E2 & p & pts & E3)]; rewrite E3 in *; cbn [length] in *; [|destruct (n_evals o >? 1)%Z; lia]. rewrite V4, E2 in Rb. cbn [Z.gtb Z.compare Pos.compare Pos.compare_cont] in Rb. lia. }
  split; [lia|]. split; [rewrite A4, V1; unfold opt_needs; destruct (needs_g0 (k_rule cfg)); congruence|]. split; [rewrite <- V1; exact A5|]. split; [intros X; apply V10; lia|].
  rewrite B15. destruct (l_task l) eqn:Tl; try exact Logic.I. right. split; [lia|]. specialize (Sl eq_refl). destruct Sl as (S1 & S2 & S3 & S4).
  split; [|auto]. exists (x, g), (t_points t). split; [reflexivity|]. unfold csaved. cbn [fst snd t_f0 t_g0].
  rewrite B1, B2, B3, B4, B5, B7, B8, B9, A1, A3, A4, A6, A7, A9. repeat (split; [first [assumption|reflexivity]|]).
  destruct M as [(o1 & dtg & _ & _ & M1 & _ & _ & M2 & _ & M3 & _)|[(M1 & M2 & _)|(M & _)]].
  - left. rewrite M3, M1, M2. reflexivity.
  - right. left. auto.
  - right. right. exact M.
Qed.

Lemma cdo_ok cfg o t c : cinv cfg o t -> exists o' x', cdo o c = Some (o', (n_task o', x')) /\ cinv cfg o' (tstep t c (n_task o')).
Proof.
  intros V. destruct c as [x|x f g]; cbn [cdo cg_start].
  - exists (nsuccess (nset_counts o 0 0 0) COMPUTE_FG), x. split; [reflexivity|]. destruct V as (V1 & V2 & V3 & V4 & V5 & V6 & V7 & V8 & V9 & V10 & V11).
    unfold cinv. cbn [nsuccess nset_task nset_counts n_cfg n_ls n_g0 n_y n_ginit n_evals n_iters n_restarts n_task tally_step t_task t_evals t_accepted t_points t_ginit length Z.of_nat].
    repeat (split; [first [assumption|reflexivity|lia]|]). left. auto.
  - unfold cg_iterate. destruct (n_task o) eqn:Et.
    + exists o, x. unfold cg_get_task. rewrite Et. split; [reflexivity|]. pose proof V as (V1 & V2 & V3 & V4 & V5 & V6 & V7 & V8 & V9 & V10 & V11). cbn [tally_step].
      rewrite <- V3, Et. unfold cinv. cbn [t_task t_evals t_accepted t_points t_ginit]. rewrite Et. repeat (split; [first [assumption|reflexivity|lia]|]). exact Logic.I.
    + destruct V as (_ & _ & _ & _ & _ & _ & _ & _ & _ & _ & V11). rewrite Et in V11. contradiction.
    + pose proof (check_ok cfg o t x f g V Et) as C. destruct (cg_check o x f g) as [o' x']. exists o', x'. split; [reflexivity|]. apply C.
    + destruct (new_x_ok cfg o t x f g V) as (o' & x' & E & V' & _); [rewrite Et; reflexivity|]. rewrite E. exists o', x'. split; [reflexivity|exact V'].
    + destruct (new_x_ok cfg o t x f g V) as (o' & x' & E & V' & _); [rewrite Et; reflexivity|]. rewrite E. exists o', x'. split; [reflexivity|exact V'].
    + destruct V as (_ & _ & _ & _ & _ & _ & _ & _ & _ & _ & V11). rewrite Et in V11. contradiction.
Qed.

Lemma crun_ok cfg o t cs : cinv cfg o t ->
  exists o' rs, crun o cs = Some (o', rs) /\ length rs = length cs /\ cinv cfg o' (count_calls false None t cs rs).
Proof.
  revert o t. induction cs as [|c cs IH]; intros o t V.
  - exists o, []. split; [reflexivity|]. split; [reflexivity|exact V].
  - destruct (cdo_ok cfg o t c V) as (o1 & x1 & E & V1). destruct (IH o1 _ V1) as (o2 & rs & E2 & L & V2).
    exists o2, ((n_task o1, x1) :: rs). cbn [crun]. rewrite E, E2. split; [reflexivity|]. split; [simpl; lia|]. exact V2.
Qed.

(** ** Creation *)
Definition the_cgopts (opts : option (cgopts N)) : cgopts N := match opts with None => cg_default_options | Some o => o end.

Lemma new_cg_ok opts lnsrch o : new_cg opts lnsrch o ->
  cinv (n_cfg o) o tally0 /\ cg_check_options (Some (the_cgopts opts)) = SUCCESS /\
  k_delta (n_cfg o) = q_delta (the_cgopts opts) /\ k_epsilon (n_cfg o) = q_epsilon (the_cgopts opts) /\
  k_grtol (n_cfg o) = q_grtol (the_cgopts opts) /\ k_gatol (n_cfg o) = q_gatol (the_cgopts opts) /\
  k_stpmin (n_cfg o) = q_stpmin (the_cgopts opts) /\ k_stpmax (n_cfg o) = q_stpmax (the_cgopts opts) /\ k_fmin_given (n_cfg o) = false /\
  k_hz_orig (n_cfg o) = false /\
  k_flags (n_cfg o) = (if (q_flags (the_cgopts opts) =? 0)%Z then NLCG_DEFAULT else q_flags (the_cgopts opts)) /\ rule_of (k_flags (n_cfg o)) = Some (k_rule (n_cfg o)).
Proof.
  intros (E & Hl). unfold new_nlcg in E. fold (the_cgopts opts) in E. set (op := the_cgopts opts) in *.
  destruct (ok (cg_check_options (Some op))) eqn:Eck; cbn [negb] in E; [|discriminate].
  set (fl := if (q_flags op =? 0)%Z then _ else _) in *. destruct (rule_of fl) as [r|] eqn:Er; [|discriminate].
  match goal with H : (match ?e with Some _ => _ | None => None end) = _ |- _ => destruct e as [l|] eqn:El; [|discriminate] end.
  assert (Il : ls_inv l).
  { destruct lnsrch as [l'|]; [injection El as <-; apply usable_inv; auto|]. unfold new_csrch in El. destruct (_ || _); [discriminate|]. injection El as <-. exact I. }
  injection E as <-. cbn [n_cfg k_delta k_epsilon k_grtol k_gatol k_stpmin k_stpmax k_fmin_given k_hz_orig k_flags k_rule].
  split; [|split; [unfold ok in Eck; destruct (cg_check_options (Some op)); try discriminate; reflexivity|repeat (split; [reflexivity|]); exact Er]].
  unfold cinv. cbn [n_cfg n_ls n_g0 n_y n_ginit n_evals n_iters n_restarts n_task k_rule tally0 t_task t_evals t_accepted t_points t_ginit length Z.of_nat].
  split; [reflexivity|]. split; [exact Il|]. repeat (split; [first [reflexivity|lia]|]). unfold opt_needs.
  destruct (needs_g0 r); (split; [congruence|]; split; [congruence|]; split; [lia|exact I]).
Qed.
End Inv.
