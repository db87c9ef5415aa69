(** * Properties of the conjugate gradient optimizer driven by an objective function, exact arithmetic (C26, C28, C29, C30) *)
From Coq Require Import List ZArith Bool Arith Lia Reals Lra Sorted.
From Flocq Require Import Core.
From Verif Require Import Num NumFacts OrdFacts ListFacts VecModel VecProofs Base LsModel LsSpec LsProofs LsOrd LsReal LsDescent
  OptSpace VmModel VmSpec VmProofs VmProps VmRealSpec VmReal LbfgsSpec LbfgsReal LbfgsProofs LbfgsRun
  CgModel CgSpec CgProofs CgReal CgFormSpec CgForm CgProgress CgProps.
Import ListNotations.
Local Open Scope R_scope.

Lemma opp_step (x d : list R) (s : R) : lin 1 x (- s) d = lin 1 x s (opposite d).
Proof.
  unfold lin, opposite. apply list_eq_nth_error. intros i. rewrite !map2_nth_error, nth_error_map.
  destruct (nth_error x i), (nth_error d i); simpl; auto. f_equal. ring.
Qed.

Section Exact.
Variables (H I : R) (n : nat).
Notation NR := (NumR H I).
Notation SR := (list_space (cast_id NR) n).
Variables (F : SR -> R) (G : SR -> SR).

Lemma new_task opts lnsrch (o : cg SR) : new_cg opts lnsrch o -> n_task o = ERROR.
Proof.
  intros (E & _). unfold new_nlcg in E. destruct (negb _); [discriminate|]. destruct (rule_of _); [|discriminate].
  match type of E with (match ?e with Some _ => _ | None => None end) = _ => destruct e as [l|]; [|discriminate] end. injection E as <-. reflexivity.
Qed.

Lemma run_invs opts lnsrch (o o' : cg SR) cs rs : new_cg opts lnsrch o -> crun o cs = Some (o', rs) -> evaluates (F : SR -> NR) G None cs rs -> n_task o' <> ERROR ->
  cinv (n_cfg o) o' (ctally cs rs) /\ Jc (F : SR -> NR) G o' (ctally cs rs) (option_map snd (hd_error (rev rs))).
Proof.
  intros Hn Rn Ev Et. destruct (new_cg_ok opts lnsrch o Hn) as (V0 & _).
  assert (J0 : Jc (F : SR -> NR) G o tally0 None) by (unfold Jc; rewrite (new_task _ _ _ Hn); exact Logic.I).
  destruct (Jc_run (F : SR -> NR) G (n_cfg o) cs o tally0 None o' rs V0 J0 Ev Rn) as (V & J). split; [exact V|].
  destruct cs; [|exact J]. exfalso. injection Rn as <- <-. apply Et. apply (new_task _ _ _ Hn).
Qed.

(** ** C26: the slope of the line searches (exact arithmetic)

    The proposed variables are [x0 + stp*p], the initial slope of the line search is <p, G x0> and it is strictly negative. *)
Theorem C26_nlcg_slope_exact opts lnsrch (o o' : cg SR) cs rs x0 pts g0 :
  new_cg opts lnsrch o -> crun o cs = Some (o', rs) -> evaluates (F : SR -> NR) G None cs rs ->
  cg_get_task o' = COMPUTE_FG -> t_points (ctally cs rs) = (x0, g0) :: pts ->
  exists (x : SR) (p : list R), option_map snd (hd_error (rev rs)) = Some x /\ length p = n /\
    elts x = lin 1 (elts x0) (cg_get_step (Some o')) p /\ l_stp (n_ls o') = cg_get_step (Some o') /\
    l_finit (n_ls o') = F x0 /\ (l_ginit (n_ls o') : R) = ip p (elts (G x0)) /\ ip p (elts (G x0)) < 0.
Proof.
  intros Hn Rn Ev Et Ep. unfold cg_get_task in Et. destruct (run_invs _ _ _ _ _ _ Hn Rn Ev) as (V & J); [congruence|].
  set (t := ctally cs rs) in *. unfold Jc in J. rewrite Et in J. destruct J as [J|(p & pts' & J1 & J2 & J3 & J4 & J5)]; [congruence|].
  rewrite Ep in J1. injection J1 as <- <-. cbn [fst snd] in *. subst g0.
  destruct V as (_ & _ & _ & _ & _ & _ & _ & _ & _ & _ & V). rewrite Et in V.
  destruct V as [(_ & _ & V)|(_ & (p & pts' & W1 & W2) & W3 & W4)]; [congruence|]. rewrite Ep in W1. injection W1 as <- <-.
  destruct (csaved_slope H I n o' t (x0, G x0) W2 J4) as (S1 & S2). destruct W2 as (_ & _ & _ & _ & _ & C6 & C7 & _). cbn [snd] in *.
  exists (ctrial o' x0 (n_alpha o')), (opposite (elts (n_d o'))). split; [exact J5|]. split; [apply opp_length, el_length|]. cbn [cg_get_step].
  split; [|split; [exact W4|split; [rewrite C7; exact J3|split; [rewrite C6; exact S1|exact (eq_ind _ (fun z : R => z < 0) S2 _ S1)]]]].
  refine (eq_trans (axpby_el H I n 1 (- n_alpha o') x0 (n_d o')) _). apply opp_step.
Qed.

(** ** C28: the objective function decreases *)
Lemma cg_search_monotone opts lnsrch (o : cg SR) : new_cg opts lnsrch o -> (forall l, lnsrch = Some l -> monotone_search l) ->
  monotone H I (n_ls o) /\ 0 < armijo_tol H I (n_ls o).
Proof.
  intros (E & _) Hm. unfold new_nlcg in E. destruct (negb _); [discriminate|]. destruct (rule_of _); [|discriminate].
  match type of E with (match ?e with Some _ => _ | None => None end) = _ => destruct e as [l|] eqn:El; [|discriminate] end. injection E as <-. cbn [n_ls].
  assert (B : forall ftol amin (l : ls NR), new_backtrack true ftol amin = Some l -> monotone H I l /\ 0 < armijo_tol H I l).
  { intros ftol amin l0. unfold new_backtrack. destruct (_ || _) eqn:Eo; [discriminate|]. injection 1 as <-. unfold monotone, armijo_tol. cbn [l_method].
    simpl in Eo. apply orb_false_elim in Eo. destruct Eo as [Eo _]. apply orb_false_elim in Eo. destruct Eo as [Eo _]. apply orb_false_elim in Eo. destruct Eo as [Eo _].
    rb. simpl. auto. }
  assert (Cs : forall (ftol gtol xtol : R) (l : ls NR), 0 < ftol -> new_csrch (N := NR) true ftol gtol xtol = Some l -> monotone H I l /\ 0 < armijo_tol H I l).
  { intros ftol gtol xtol l0 Hf. unfold new_csrch. destruct (_ || _) eqn:Eo; [discriminate|]. injection 1 as <-. unfold monotone, armijo_tol. cbn. split; [lra|exact Hf]. }
  destruct lnsrch as [l'|].
  - injection El as ->. destruct (Hm l eq_refl) as (l0 & cs0 & rs0 & R0 & L).
    pose proof (run_params _ _ _ _ R0) as P.
    assert (M0 : monotone H I l0 /\ 0 < armijo_tol H I l0) by (destruct L as [(? & ? & L)|(? & ? & ? & L1 & L)]; eauto).
    destruct M0 as [M0 M1]. destruct (params_monotone H I _ _ P M0) as [M2 M3]. rewrite M3. auto.
  - eapply Cs; [|exact El]. simpl. lra.
Qed.

Theorem C28_decrease opts lnsrch (o o' : cg SR) cs rs :
  new_cg opts lnsrch o -> (forall l, lnsrch = Some l -> monotone_search l) ->
  crun o cs = Some (o', rs) -> evaluates (F : SR -> NR) G None cs rs ->
  Sorted Rlt (values (N := NR) ERROR [] cs rs).
Proof.
  intros Hn Hm Rn Ev. destruct (new_cg_ok opts lnsrch o Hn) as (V0 & _). pose proof (new_task _ _ _ Hn) as Et.
  assert (J0 : Jc (F : SR -> NR) G o tally0 None) by (unfold Jc; rewrite Et; exact Logic.I).
  destruct (cg_search_monotone _ _ _ Hn Hm) as [M1 M2].
  apply (Jdc_run H I n (F : SR -> NR) G (n_cfg o) cs o tally0 None o' rs [] V0 J0 Ev Rn).
  unfold Jdc. rewrite Et. repeat split; auto.
Qed.

(** ** C29: the directions

    The optimizer is driven by a function [F] and a gradient [G]; a point [x] has just been accepted, the previous accepted point
    is [x0] and the last search direction is [p].  The next line search is along [p'] with an initial step [s']. *)
Theorem C29_direction opts lnsrch (o o' o'' : cg SR) cs rs x0 g0 pts x' :
  new_cg opts lnsrch o -> crun o cs = Some (o', rs) -> evaluates (F : SR -> NR) G None cs rs ->
  accepted (cg_get_task o') = true -> t_points (ctally cs rs) = (x0, g0) :: pts ->
  let x := t_x (ctally cs rs) in
  cg_iterate o' x (F x : NR) (G x) = Some (o'', x') -> cg_get_task o'' = COMPUTE_FG ->
  let flags := cflags H I opts in
  let p := opposite (elts (n_d o')) in
  let p' := opposite (elts (n_d o'')) in
  let s' := cg_get_step (Some o'') : R in
  let g := elts (G x) in
  g0 = G x0 /\ (exists s, elts x = lin 1 (elts x0) s p) /\ elts x' = lin 1 (elts x) s' p' /\
  let steepest := p' = opposite g /\ cg_get_beta o'' = 0 /\ cg_get_restarts o'' = (cg_get_restarts o' + 1)%Z /\
                  s' = steepest_step (q_delta (the_cgopts opts)) (F x) (elts x) g in
  match conjugate (Z.land flags 255) (Z.testbit flags 8) p (elts g0) g with
  | Some (beta, q) =>
    (sufficient (q_epsilon (the_cgopts opts)) q g /\ p' = q /\ cg_get_beta o'' = beta /\ cg_get_restarts o'' = cg_get_restarts o' /\
     s' = (if Z.testbit flags 9 then cg_get_step (Some o') * (ip p (elts g0) / ip q g) else cg_get_step (Some o'))) \/
    (~ sufficient (q_epsilon (the_cgopts opts)) q g /\ steepest)
  | None => steepest
  end.
Proof.
  intros Hn Rn Ev Ac Ep x Ei Tk flags p p' s' g. unfold cg_get_task in *.
  destruct (run_invs _ _ _ _ _ _ Hn Rn Ev) as (V & J); [intros X; rewrite X in Ac; discriminate|].
  destruct (new_cg_ok opts lnsrch o Hn) as (_ & Hck & Kd & Ke & _ & _ & _ & _ & Kf & Kz & Kfl & Kr).
  set (t := ctally cs rs) in *.
  assert (J' : Jc (F : SR -> NR) G o' t (Some (t_x t)) /\ t_g t = G x /\ exists s, g0 = G x0 /\ t_x t = ctrial o' x0 s).
  { destruct (accepted_cases _ Ac) as [X|X]; unfold Jc in *; rewrite X in *; destruct J as (J1 & J2 & J3);
      (split; [split; [reflexivity|split; [exact J2|exact J3]]|]); (split; [exact J2|]); (destruct J3 as [J3|(q & pts' & s & Q1 & Q2 & Q3 & Q4)]; [congruence|]); rewrite Ep in Q1; injection Q1 as <- <-; exists s; auto. }
  destruct J' as (J' & Eg & s & Eg0 & Ex). 
  assert (En : cg_new_x o' x (F x : NR) (G x) = Some (o'', x')) by (unfold cg_iterate in Ei; destruct (accepted_cases _ Ac) as [X|X]; rewrite X in Ei; exact Ei).
  destruct (new_x_value H I n (n_cfg o) o' t x (F x) (G x) o'' x' V Ac En Tk) as (Ex' & o2 & D1 & D2 & D3 & D4 & M).
  pose proof (known_of H I n (F : SR -> NR) G (n_cfg o) o' t (x0, g0) pts V J' Ac Ep Kz) as Kn. rewrite Eg in Kn. cbn [snd] in Kn.
  pose proof (update_out H I n o' g0 (G x) Kn) as U.
  destruct V as (V1 & _ & _ & V4 & _ & _ & _ & _ & _ & _ & V).
  assert (Ev2 : (n_evals o' > 1)%Z) by (destruct (accepted_cases _ Ac) as [X|X]; rewrite X in V; destruct V as (_ & [(_ & V)|(V & _)] & _); [congruence|lia|congruence|lia]).
  rewrite V1 in U. 
  assert (Efl : k_flags (n_cfg o) = flags) by exact Kfl.
  rewrite <- (rule_of_number _ _ Kr) in U. rewrite Efl in U. change NLCG_POWELL with (2 ^ 8)%Z in U. rewrite flag_bit in U by lia.
  change (el H I n (n_d o')) with (elts (n_d o') : list R) in U. fold p in U. change (el H I n g0) with (elts g0 : list R) in U. change (el H I n (G x)) with (elts (G x) : list R) in U. fold g in U.
  split; [exact Eg0|]. split.
  { exists s. refine (eq_trans (f_equal elts Ex) _). refine (eq_trans (axpby_el H I n 1 (- s) x0 (n_d o')) _). apply opp_step. }
  split; [exact Ex'|]. cbv zeta. unfold cg_get_beta, cg_get_restarts, s'. cbn [cg_get_step].
  assert (P' : p' = opposite (elts (n_d o2))) by (unfold p'; rewrite D1; reflexivity).
  rewrite D2, D3, D4, P'.
  destruct U as (o1 & s1 & U1 & U2). destruct Kn as [_ _ K3 _ _ K6 _ _ _].
  assert (St : restarted o' o2 x (F x : NR) (G x) -> opposite (elts (n_d o2)) = opposite g /\ n_beta o2 = 0 /\ n_restarts o2 = (n_restarts o' + 1)%Z /\
    n_alpha o2 = steepest_step (q_delta (the_cgopts opts)) (F x) (elts x) g).
  { intros (R1 & R2 & R3 & R4 & R5 & _). rewrite R1. split; [reflexivity|]. split; [exact R3|]. split.
    - rewrite R5. destruct (Z.gtb_spec (n_evals o') 1); lia.
    - rewrite R4. refine (eq_trans (first_step_value H I n o' x (G x) (F x) _ K3) _); [rewrite V1; exact Kf|]. rewrite V1, Kd. reflexivity. }
  destruct (conjugate (Z.land flags 255) (Z.testbit flags 8) p (elts g0) g) as [[beta q]|].
  2:{ apply St. destruct M as [(o3 & dtg & _ & M2 & _)|M]; [|exact M]. rewrite U1 in M2. injection M2 as -> ->. discriminate. }
  destruct U2 as (-> & U2 & U3).
  assert (Ld : length (elts (n_d o1) : list R) = n) by apply el_length. assert (Lg : length g = n) by apply el_length.
  pose proof (sufficient_bool n (q_epsilon (the_cgopts opts)) (elts (n_d o1)) g Ld Lg) as Sb.
  change (el H I n (n_d o1)) with (elts (n_d o1) : list R) in U3. rewrite U3 in Sb.
  assert (Ed : forall dtg : NR, dtg = (- vdot (n_d o1) (G x))%num -> (dtg : R) = - ip (elts (n_d o1)) g).
  { intros dtg ->. change (- (vdot (n_d o1) (G x) : R) = - ip (elts (n_d o1)) g). rewrite vdot_el. reflexivity. }
  assert (Eb : forall dtg : NR, (dtg : R) = - ip (elts (n_d o1)) g ->
    ((k_epsilon (n_cfg o) >? nZ 0) && (dtg >? - k_epsilon (n_cfg o) * vnorm2 (n_d o1) * n_gnorm o'))%num =
    Rlt_bool 0 (q_epsilon (the_cgopts opts)) && Rlt_bool (- q_epsilon (the_cgopts opts) * sqrt (ip (elts (n_d o1)) (elts (n_d o1))) * sqrt (ip g g)) (- ip (elts (n_d o1)) g)).
  { intros dtg Hd. rewrite Ke. pose proof (norm2_el H I n (n_d o1)) as Nd. unfold nrm in Nd. change (num NR) with R in *. rewrite Hd, K3, Nd. reflexivity. }
  destruct M as [(o3 & dtg & _ & M2 & M3 & M4 & M5 & M6 & M7 & M8 & M9 & M10)|M].
  - rewrite U1 in M2. injection M2 as <-. left. rewrite V1 in M10. specialize (Ed dtg M3). rewrite V1, (Eb dtg Ed) in M5.
    split; [apply Sb; split; [|exact M5]; rewrite <- Ed; change (Rlt_bool dtg 0 = true) in M4; destruct (Rlt_bool_spec dtg 0); [assumption|discriminate]|].
    split; [rewrite M6; exact U3|]. split; [rewrite M7; exact U2|]. split; [exact M9|]. rewrite M10, Efl.
    change NLCG_SHANNO_PHUA with (2 ^ 9)%Z. rewrite flag_bit by lia. destruct (Z.testbit flags 9); [|reflexivity].
    change ((n_alpha o' : R) * ((n_dtg0 o' : R) / (dtg : R)) = n_alpha o' * (ip p (elts g0) / ip q g)). change (num NR) with R in *. rewrite Ed. refine (f_equal2 (fun a b : R => n_alpha o' * (a / b)) K6 _). rewrite <- U3, ip_opp. reflexivity.
  - right. split; [|apply St, M]. destruct M as (_ & _ & _ & _ & _ & M). rewrite V1 in M. intros Su. apply Sb in Su. destruct Su as [Su1 Su2].
    destruct M as [M|[(o3 & M)|(o3 & dtg & M1 & M2 & M3)]]; [lia|congruence|]. rewrite U1 in M1. injection M1 as <-. specialize (Ed dtg M2). rewrite (Eb dtg Ed) in M3.
    destruct M3 as [M3|M3]; [|congruence]. change (Rlt_bool dtg 0 = false) in M3. destruct (Rlt_bool_spec dtg 0); [discriminate|]. lra.
Qed.

(** The first line search: steepest descent, not counted as a restart. *)
Theorem C29_first opts lnsrch (o o' o'' : cg SR) cs rs x' :
  new_cg opts lnsrch o -> crun o cs = Some (o', rs) -> evaluates (F : SR -> NR) G None cs rs ->
  accepted (cg_get_task o') = true -> t_points (ctally cs rs) = [] ->
  let x := t_x (ctally cs rs) in
  cg_iterate o' x (F x : NR) (G x) = Some (o'', x') -> cg_get_task o'' = COMPUTE_FG ->
  let p' := opposite (elts (n_d o'')) in
  let s' := cg_get_step (Some o'') : R in
  let g := elts (G x) in
  elts x' = lin 1 (elts x) s' p' /\ p' = opposite g /\ cg_get_beta o'' = 0 /\ cg_get_restarts o'' = cg_get_restarts o' /\
  s' = steepest_step (q_delta (the_cgopts opts)) (F x) (elts x) g.
Proof.
  intros Hn Rn Ev Ac Ep x Ei Tk p' s' g. unfold cg_get_task in *.
  destruct (run_invs _ _ _ _ _ _ Hn Rn Ev) as (V & J); [intros X; rewrite X in Ac; discriminate|].
  destruct (new_cg_ok opts lnsrch o Hn) as (_ & Hck & Kd & Ke & _ & _ & _ & _ & Kf & Kz & Kfl & Kr).
  set (t := ctally cs rs) in *.
  assert (Eg : t_g t = G x) by (unfold Jc in J; destruct (accepted_cases _ Ac) as [X|X]; rewrite X in J; apply J).
  assert (En : cg_new_x o' x (F x : NR) (G x) = Some (o'', x')) by (unfold cg_iterate in Ei; destruct (accepted_cases _ Ac) as [X|X]; rewrite X in Ei; exact Ei).
  destruct (new_x_value H I n (n_cfg o) o' t x (F x) (G x) o'' x' V Ac En Tk) as (Ex' & o2 & D1 & D2 & D3 & D4 & M).
  destruct V as (V1 & _ & _ & V4 & _ & _ & _ & _ & _ & _ & V).
  assert (W : (n_evals o' = 1)%Z /\ n_gnorm o' = vnorm2 (t_g t)).
  { destruct (accepted_cases _ Ac) as [X|X]; rewrite X in V; destruct V as (_ & [(V & _)|(_ & q & qs & V & _)] & Vg & _); try congruence; split; [lia|exact Vg|lia|exact Vg]. }
  destruct W as (W1 & W2). destruct M as [(o3 & dtg & M & _)|(R1 & R2 & R3 & R4 & R5 & _)]; [lia|].
  split; [exact Ex'|]. unfold p', s', cg_get_beta, cg_get_restarts. cbn [cg_get_step]. rewrite D1, D2, D3, D4, R1, R3, R4, R5, W1.
  split; [reflexivity|]. split; [reflexivity|]. split; [reflexivity|].
  refine (eq_trans (first_step_value H I n o' x (G x) (F x) _ _) _); [rewrite V1; exact Kf| |rewrite V1, Kd; reflexivity].
  rewrite W2, Eg. exact (norm2_el H I n (G x)).
Qed.

(** ** C52: progress

    In exact arithmetic, an iteration requested after NEW_X always proposes a new trial point: it never ends with an error, for
    every caller (any values and any vectors may be supplied).  The options stpmin and stpmax must be on both sides of 1. *)
Theorem C52_progress opts lnsrch (o o' : cg SR) cs rs x (f : R) g o'' x' :
  new_cg opts lnsrch o -> (q_stpmin (the_cgopts opts) : R) <= 1 <= (q_stpmax (the_cgopts opts) : R) ->
  crun o cs = Some (o', rs) -> cg_get_task o' = NEW_X -> cg_iterate o' x (f : NR) g = Some (o'', x') -> cg_get_task o'' = COMPUTE_FG.
Proof.
  intros Hn Hm Rn Et E. destruct (new_cg_ok opts lnsrch o Hn) as (V0 & Hck & Kd & _ & Kg & Ka & K1 & K2 & Kf & _).
  destruct (crun_ok (n_cfg o) o tally0 cs V0) as (o1 & rs1 & R1 & _ & V). rewrite Rn in R1. injection R1 as <- <-.
  unfold cg_get_task in *. unfold cg_iterate in E. rewrite Et in E.
  assert (K : step_ok H I o') by (eapply run_bounds_cg; [exact V0| |exact Rn]; unfold step_ok; rewrite (new_task _ _ _ Hn); exact Logic.I).
  unfold cg_check_options in Hck. destruct (_ || _) eqn:Eo in Hck; [discriminate|]. clear Hck.
  repeat match goal with Q : _ || _ = false |- _ => apply orb_false_elim in Q; destruct Q end. simpl in *. rb.
  assert (Gp : 0 < (n_gnorm o' : R)).
  { destruct V as (_ & _ & _ & _ & _ & _ & _ & _ & _ & _ & V). rewrite Et in V. destruct V as (_ & _ & _ & V).
    assert (X : nle (n_gnorm o') (cmax3 (nZ 0) (k_gatol (n_cfg o)) (k_grtol (n_cfg o) * t_ginit (count_calls false None tally0 cs rs))%num) = false).
    { match goal with |- ?b = false => destruct b eqn:Eq; [|reflexivity] end. destruct V as [_ V]. specialize (V eq_refl). discriminate. }
    unfold cmax3 in X. simpl in X.
    repeat match type of X with context[if Rle_bool ?a ?b then _ else _] => destruct (Rle_bool_spec a b) end; rb; simpl in *; lra. }
  refine (starts H I (n_cfg o) o' _ x f g o'' x' V Et K Kf _ _ _ _ Gp E); rewrite ?Kd, ?K1, ?K2; try lra.
  intros z. refine (eq_ind_r (fun r : R => 0 <= r) (sqrt_pos _) (norm2_R H I (elts z))).
Qed.
End Exact.
Print Assumptions C26_nlcg_slope_exact.
Print Assumptions C28_decrease.
Print Assumptions C29_direction.
Print Assumptions C29_first.
Print Assumptions C52_progress.

(** ** C29: the formula of Perry & Shanno is that of the memoryless BFGS method: the direction is the opposite of the product of the
    gradient by the BFGS update of the scaled identity with the pair (s, y), up to the scale of the step, s = alpha*p. *)
Theorem C29_perry_shanno n (powell : bool) (alpha : R) (p g0 g : list R) beta q :
  length p = n -> length g0 = n -> length g = n -> 0 < alpha ->
  let s := map (Rmult alpha) p in let y := lin 1 g (-1) g0 in
  0 < ip s y -> conjugate 7 powell p g0 g = Some (beta, q) ->
  lbfgs_direction [(s, y)] g = map (Rmult (- alpha)) q.
Proof.
  intros Lp Lg0 Lg Ha s y Hsy E. assert (Ly : length y = n) by (apply lin_length; auto).
  assert (Ism : forall a u v, ip (map (Rmult a) u) v = a * ip u v).
  { intros a u. unfold ip. induction u as [|b u IH]; intros [|d v]; unfold map2 in *; simpl; try ring. rewrite IH. ring. }
  assert (Es : ip s y = alpha * ip p y) by apply Ism. assert (Hpy : 0 < ip p y) by nra.
  assert (Hyy : 0 < ip y y). { destruct (Req_dec (ip y y) 0) as [Z|Z]; [|pose proof (ip_pos y); lra]. exfalso. pose proof (yy_zero n y p Ly Lp Z). lra. }
  unfold conjugate in E. fold y in E. destruct (Req_EM_T (ip p y) 0); [lra|]. injection E as <- <-.
  unfold lbfgs_direction. cbn [filter]. unfold curved. cbn [fst snd]. destruct (Rlt_dec 0 (ip s y)) as [Hc|Hc]; [clear Hc|contradiction]. cbn [initial_scale lbfgs_product]. unfold bfgs_update.
  assert (Esg : ip s g = alpha * ip p g) by apply Ism.
  set (r := 1 / ip s y * ip s g). assert (Er : r = ip p g / ip p y) by (unfold r; rewrite Es, Esg; field; lra).
  set (u := lin 1 g (- r) y). set (w := map (Rmult (ip s y / ip y y)) u).
  assert (Eyw : ip y w = alpha * (ip p y / ip y y) * (ip g y - r * ip y y)).
  { rewrite ip_sym. unfold w. rewrite Ism. unfold u. rewrite (ip_lin n) by auto. rewrite Es. field. lra. }
  rewrite Eyw. set (k := 1 / ip s y * _). assert (Ek : k = ip g y / ip y y - r) by (unfold k; rewrite Es; field; lra).
  apply list_eq_nth_error. intros i. unfold w, u, s, lin. repeat (rewrite nth_error_map || rewrite map2_nth_error).
  destruct (nth_error g i) as [a|], (nth_error y i) as [b|], (nth_error p i) as [d|]; simpl; auto. f_equal. fold s. rewrite Ek, Er, Es. field. lra.
Qed.
Print Assumptions C29_perry_shanno.
Example C29_perry_shanno_example : let p := [1; 0] in let g0 := [-1; 2] in let g := [1; 1] in
  exists b q, conjugate 7 false p g0 g = Some (b, q) /\ q <> [0; 0] /\ 0 < ip (map (Rmult (1/2)) p) (lin 1 g (-1) g0).
Proof.
  cbv zeta. unfold conjugate. assert (E : ip [1; 0] (lin 1 [1; 1] (-1) [-1; 2]) = 2) by (unfold ip, lin, map2; simpl; ring).
  destruct (Req_EM_T _ 0) as [Z|Z]; [lra|]. eexists _, _. split; [reflexivity|]. split.
  - rewrite E. unfold ip, lin, map2. simpl. intros X. injection X as X1 X2. lra.
  - unfold ip, lin, map2. simpl. lra.
Qed.

(** ** C30: the minimal function value given in the options is ignored

    F(x) = x^2 from x = 1 with the options fmin_given = TRUE and fmin = -1: the first step of a line search should be
    2 (fmin - f)/<d,g> = 2 (-1 - 1)/(-4) = 1; it is 1/2, that computed when fmin is not given. *)
Definition fm_opts (given : bool) : cgopts NumD := mkCgOpts (nQ 5 100) (nZ 0) (nQ 1 1000000) (nZ 0) (nQ 1 (10 ^ 20)) (nZ (10 ^ 20)) (nZ (-1)) 1 given.
Definition SD1 := list_space (cast_id NumD) 1.
Definition one_D : SD1 := exist _ [nZ 1 : NumD] eq_refl.
Definition sqD_f (x : SD1) : NumD := vdot x x.
Definition sqD_g (x : SD1) : SD1 := vscale (nZ 2) x.
(** The step proposed for the first line search, after the first evaluation. *)
Definition first_proposed (opts : cgopts NumD) : option NumD :=
  match new_nlcg (S := SD1) (Some opts) None with
  | Some o => match crun o (cdrive_from sqD_f sqD_g 2 o one_D) with Some (o', _) => Some (cg_get_step (Some o')) | None => None end
  | None => None end.
Theorem C30_fmin_refuted : q_fmin_given (fm_opts true) = true /\ cg_check_options (Some (fm_opts true)) = SUCCESS /\
  (q_fmin (fm_opts true) <? sqD_f one_D)%num = true /\
  exists s, first_proposed (fm_opts true) = Some s /\ (s =? nQ 1 2)%num = true /\
    (s =? nZ 2 * (q_fmin (fm_opts true) - sqD_f one_D) / - vdot (sqD_g one_D) (sqD_g one_D))%num = false.
Proof.
  split; [reflexivity|]. split; [vm_compute; reflexivity|]. split; [vm_compute; reflexivity|].
  destruct (is_some_ex (first_proposed (fm_opts true))) as (s & E); [vm_compute; reflexivity|]. exists s. split; [exact E|].
  assert (X : match first_proposed (fm_opts true) with Some s => (s =? nQ 1 2)%num &&
    negb (s =? nZ 2 * (q_fmin (fm_opts true) - sqD_f one_D) / - vdot (sqD_g one_D) (sqD_g one_D))%num | None => false end = true) by (vm_compute; reflexivity).
  rewrite E in X. apply andb_prop in X. destruct X as [X1 X2]. split; [exact X1|]. apply negb_true_iff in X2. exact X2.
Qed.
Print Assumptions C30_fmin_refuted.

(** ** Examples in exact arithmetic *)
Section Examples.
Notation NR := (NumR 100 200).
Notation SR := (list_space (cast_id NR)).
(** The function F(x) = x of one variable, the rule of Fletcher & Reeves. *)
Definition lin_opts : cgopts NR := mkCgOpts (1/20 : NR) (0 : NR) (1/1000000 : NR) (0 : NR) (1/1000 : NR) (1000 : NR) (0 : NR) 1 false.
Definition id_f (x : SR 1) : R := match (elts x : list R) with a :: _ => a | [] => 0 end.
Definition id_g (x : SR 1) : SR 1 := exist (fun l : list NR => length l = 1%nat) [1 : NR] eq_refl.
Definition pt (a : R) : SR 1 := exist (fun l : list NR => length l = 1%nat) [a : NR] eq_refl.

Lemma lin_new (l : ls NR) : usable l -> exists o : cg (SR 1), new_cg (Some lin_opts) (Some l) o /\ n_ls o = l.
Proof.
  intros Hl. unfold new_cg, new_nlcg.
  assert (cg_check_options (Some lin_opts) = SUCCESS) as ->.
  { unfold cg_check_options, lin_opts, non_finite. simpl. repeat (first [rewrite Rlt_bool_false by lra|rewrite Rle_bool_false by lra]). reflexivity. }
  cbn. eexists. split; [split; [reflexivity|intros l' [= <-]; exact Hl]|reflexivity].
Qed.
Lemma pt_eq (x : SR 1) a : (elts x : list R) = [a] -> x = pt a.
Proof. intros E. apply elts_eq. exact E. Qed.
Lemma id_norm (x : SR 1) : (vnorm2 (id_g x) : R) = 1.
Proof. refine (eq_trans (norm2_R 100 200 _) _). unfold id_g. cbn [elts proj1_sig map]. replace (rsum _) with (1 * 1) by (unfold rsum; simpl; ring). apply sqrt_square. lra. Qed.

Lemma far_from (z : R) : z = 1 -> forall a b : NR, (a : R) = 1 -> (b : R) = z -> nle a (cmax3 (nZ 0) (0%R : NR) (nmul ((1/1000000)%R : NR) b)) = false.
Proof.
  intros -> a b Ha Hb. unfold cmax3. simpl. change (num NR) with R in *. rewrite Ha, Hb.
  rewrite (Rle_bool_true 0 (1 / 1000000 * 1)), Rle_bool_false by lra. reflexivity.
Qed.

(** Three calls: the line search is in progress; the step is 1/20 along -1, then accepted; the next direction is -2. *)
Example C29_example : exists (l : ls NR) (o o1 o2 o3 o4 : cg (SR 1)) x2 x4 rs3,
  new_cg (Some lin_opts) (Some l) o /\ monotone_search l /\
  let cs1 := [VStart (pt 0); VIterate (pt 0) (id_f (pt 0) : NR) (id_g (pt 0))] in
  let rs1 := [(COMPUTE_FG, pt 0); (NEW_X, pt 0)] in
  crun o cs1 = Some (o1, rs1) /\ evaluates (id_f : SR 1 -> NR) id_g None cs1 rs1 /\ t_points (ctally cs1 rs1) = [] /\
  cg_iterate o1 (pt 0) (id_f (pt 0) : NR) (id_g (pt 0)) = Some (o2, x2) /\ cg_get_task o2 = COMPUTE_FG /\ (elts x2 : list R) = [- (1/20)] /\
  let cs3 := cs1 ++ [VIterate (pt 0) (id_f (pt 0) : NR) (id_g (pt 0)); VIterate x2 (id_f x2 : NR) (id_g x2)] in
  crun o cs3 = Some (o3, rs3) /\ evaluates (id_f : SR 1 -> NR) id_g None cs3 rs3 /\ cg_get_task o3 = NEW_X /\
  t_points (ctally cs3 rs3) = [(pt 0, id_g (pt 0))] /\ t_x (ctally cs3 rs3) = x2 /\
  cg_iterate o3 x2 (id_f x2 : NR) (id_g x2) = Some (o4, x4) /\ cg_get_task o4 = COMPUTE_FG /\
  opposite (elts (n_d o3)) = [-1] /\ exists beta q, conjugate 1 false [-1] [1] [1] = Some (beta, q) /\ q = [-2] /\ sufficient 0 q [1].
Proof.
  destruct (bt_real_example 100 200 (1/10000) (1/10) 1 0 1000) as (l & _ & _ & El & _); try lra.
  assert (Hu : usable l) by (exists l, [], []; split; [left; exists (1/10000), (1/10); exact El|reflexivity]).
  destruct (lin_new l Hu) as (o & Hn & Eol).
  assert (Hm : monotone_search l) by (exists l, [], []; split; [reflexivity|left; exists (1/10000), (1/10); exact El]).
  destruct (new_cg_ok _ _ _ Hn) as (V0 & _ & Kd & Ke & Kg & Ka & K1 & K2 & Kf & _). cbn in Kd, Ke, Kg, Ka, K1, K2. unfold the_cgopts in *. cbn in Kd, Ke, Kg, Ka, K1, K2.
  set (c1 := VIterate (pt 0) (id_f (pt 0) : NR) (id_g (pt 0))). set (cs1 := [VStart (pt 0); c1]). set (rs1 := [(COMPUTE_FG, pt 0); (NEW_X, pt 0)]).
  (* first evaluation *)
  set (oA := nsuccess (nset_counts o 0 0 0) COMPUTE_FG).
  assert (EA : cdo o (VStart (pt 0)) = Some (oA, (COMPUTE_FG, pt 0))) by reflexivity.
  set (oB := nset_counts oA 1 (n_iters oA) (n_restarts oA)).
  set (o1 := cg_accept oB (id_g (pt 0))).
  assert (Ei1 : cg_iterate oA (pt 0) (id_f (pt 0) : NR) (id_g (pt 0)) = Some (o1, pt 0)) by (unfold cg_iterate; exact (f_equal Some (check_first oA (pt 0) (id_f (pt 0) : NR) (id_g (pt 0)) eq_refl))).
  assert (G1 : n_gnorm o1 = vnorm2 (id_g (pt 0))) by reflexivity.
  assert (T1 : n_task o1 = NEW_X).
  { destruct (accept_frame oB (id_g (pt 0))) as (_ & _ & _ & _ & _ & _ & _ & _ & A9 & _ & _ & A12 & _ & _ & _ & _ & A17 & A18). fold o1 in A9, A12, A17, A18.
    destruct (accepted_cases _ A17) as [X|X]; [exact X|exfalso]. destruct A18 as [A18 _]. specialize (A18 X). rewrite A9, A12 in A18. change (n_cfg oB) with (n_cfg o) in A18. change (n_evals oB) with 1%Z in A18. rewrite Ka, Kg in A18.
    change (1 <=? 1)%Z with true in A18. cbv iota in A18. rewrite (far_from 1 eq_refl _ _ (id_norm (pt 0)) (id_norm (pt 0))) in A18. discriminate. }
  assert (N1 : n_evals o1 = 1%Z) by reflexivity. assert (Lo : n_ls o1 = n_ls o) by reflexivity. clearbody o1.
  assert (R1 : crun o cs1 = Some (o1, rs1)). { unfold cs1, rs1, c1. cbn [crun]. rewrite EA. cbn [cdo]. rewrite Ei1. unfold cg_get_task. rewrite T1. reflexivity. }
  assert (Ev1 : evaluates (id_f : SR 1 -> NR) id_g None cs1 rs1). { unfold cs1, rs1, c1. cbn [evaluates]. split; [intros p [= <-]; reflexivity|auto]. }
  assert (Tp1 : t_points (ctally cs1 rs1) = []) by reflexivity.
  (* start of the line search *)
  destruct (C27_protocol _ _ _ _ o cs1 Hn) as (o1' & rs1' & R1' & _ & _ & _ & _ & _ & _ & _ & P). rewrite R1 in R1'. injection R1' as <- <-.
  destruct (P (pt 0) (id_f (pt 0) : NR) (id_g (pt 0))) as (o2 & x2 & Ei2 & _). clear P.
  assert (T2 : cg_get_task o2 = COMPUTE_FG) by (eapply (C52_progress 100 200 1); [exact Hn| |exact R1|exact T1|exact Ei2]; cbn; lra).
  destruct (C29_first 100 200 1 id_f id_g _ _ o o1 o2 cs1 rs1 x2 Hn R1 Ev1 ltac:(unfold cg_get_task; rewrite T1; reflexivity) Tp1 Ei2 T2) as (X2 & X3 & _ & _ & X5).
  change (t_x (ctally cs1 rs1)) with (pt 0) in *. cbn [the_cgopts lin_opts q_delta] in X5.
  assert (Ipg : ip [1] [1] = 1) by (unfold ip, map2; simpl; ring). assert (Ip0 : ip [0] [0] = 0) by (unfold ip, map2; simpl; ring).
  assert (S2 : (cg_get_step (Some o2) : R) = 1/20).
  { refine (eq_trans X5 _). unfold steepest_step. change (id_f (pt 0)) with 0. destruct (Req_EM_T 0 0) as [_|Z]; [|contradiction]. cbn [elts pt id_g proj1_sig].
    change (ip [0 : NR] [0 : NR]) with (ip [0] [0]). change (ip [1 : NR] [1 : NR]) with (ip [1] [1]). rewrite Ip0, Ipg, sqrt_0, sqrt_1. destruct (Req_EM_T 0 0) as [_|Z]; [|contradiction]. simpl. field. }
  cbn [cg_get_step] in S2.
  assert (E2 : (elts x2 : list R) = [- (1/20)]).
  { refine (eq_trans X2 _). rewrite X3. cbn [cg_get_step]. change (num NR) with R in *. rewrite S2. unfold lin, opposite, map2. simpl. f_equal. ring. }
  (* the state of the line search *)
  assert (V1 : cinv (n_cfg o) o1 (ctally cs1 rs1)) by (destruct (crun_ok (n_cfg o) o tally0 cs1 V0) as (o1' & rs1' & Q & _ & V); rewrite R1 in Q; injection Q as <- <-; exact V).
  pose proof V1 as (W1 & W2 & _ & W4 & _ & _ & _ & W8 & W9 & _). rewrite <- W1 in W8, W9.
  assert (En2 : cg_new_x o1 (pt 0) (id_f (pt 0) : NR) (id_g (pt 0)) = Some (o2, x2)) by (unfold cg_iterate in Ei2; rewrite T1 in Ei2; exact Ei2).
  destruct (new_x_form o1 (pt 0) (id_f (pt 0) : NR) (id_g (pt 0)) W8 W9 W2) as (oS & lS & At & M & Es & _ & E'). rewrite En2 in E'.
  assert (Ls : l_task lS = LS_SEARCH /\ n_ls o2 = lS /\ n_alpha o2 = n_alpha oS /\ n_d o2 = n_d oS /\ n_evals o2 = n_evals oS).
  { unfold cg_get_task in T2. destruct (l_task lS); unfold cg_trial in E'; injection E' as -> ->; try discriminate T2. repeat split. }
  destruct Ls as (Ts & L1 & L2 & L3 & L4).
  assert (Ev : n_evals oS = n_evals o1) by apply At.
  assert (Ds : n_d oS = id_g (pt 0) /\ (n_dtg oS : R) = -1).
  { destruct M as [(z1 & z2 & Z & _)|[(Z1 & Z2 & _)|(Z & _)]]; [lia| |change (Rlt_bool 0 0 = true) in Z; destruct (Rlt_bool_spec 0 0); [lra|discriminate]].
    split; [exact Z1|]. refine (eq_trans Z2 _). rewrite G1. change (- (vnorm2 (id_g (pt 0)) : R) * (vnorm2 (id_g (pt 0)) : R) = -1). rewrite id_norm. ring. }
  destruct Ds as (Ds & Dt).
  destruct (start_cases (n_ls o1) (id_f (pt 0) : NR) (n_dtg oS) (n_alpha oS) (k_stpmin (n_cfg o1) * n_alpha oS)%num (k_stpmax (n_cfg o1) * n_alpha oS)%num W2) as (lS' & Es' & _ & Q).
  rewrite Es in Es'. injection Es' as <-. rewrite L2 in S2. simpl in Q. rewrite W1, K1, K2 in Q. change (num NR) with R in *. rewrite S2, Dt in Q.
  rewrite !Rlt_bool_false in Q by lra. rewrite Rle_bool_false in Q by lra. destruct Q as (_ & _ & Q3 & Q4 & Q5 & Q6 & Q7).
  assert (Pm : params lS = params l). { rewrite (start_params _ _ _ _ _ _ _ Es). rewrite Lo, Eol. reflexivity. }
  assert (Mb : exists am, l_method lS = Backtrack (N := NR) (1/10000) am).
  { unfold new_backtrack in El. destruct (_ || _) in El; [discriminate|]. injection El as <-. unfold params in Pm. destruct (l_method lS); simpl in Pm; try discriminate. injection Pm as -> ->. eauto. }
  destruct Mb as (am & Mb).
  assert (F2 : id_f x2 = - (1/20)) by (unfold id_f; change (num NR) with R in *; rewrite E2; reflexivity).
  (* the step is accepted *)
  assert (Dg : (- vdot (n_d o2) (id_g x2))%num = (-1 : R)).
  { rewrite L3, Ds. refine (eq_trans (f_equal Ropp (dot_R 100 200 [1] [1])) _). unfold map2, rsum. simpl. ring. }
  pose proof (check_search o2 x2 (id_f x2 : NR) (id_g x2) ltac:(rewrite L4, Ev, N1; lia)) as C. cbv zeta in C.
  pose proof (iterate_accepts lS (n_alpha oS) (id_f x2 : NR) (- vdot (n_d o2) (id_g x2))%num Ts) as Acc.
  assert (Y1 : neq (n_alpha oS) (l_stp lS) = true) by (simpl; change (num NR) with R in *; rewrite Q3, S2; apply Req_bool_true; reflexivity).
  assert (Y2 : accepts lS (n_alpha oS) (id_f x2 : NR) (- vdot (n_d o2) (id_g x2))%num = true).
  { unfold accepts. rewrite Mb. simpl. change (num NR) with R in *. rewrite Q6, Q7, F2, S2. apply Rle_bool_true. change (id_f (pt 0)) with 0. lra. }
  assert (Y3 : nle (n_alpha oS) (l_stpmin lS) = false) by (simpl; change (num NR) with R in *; rewrite Q4, S2; apply Rle_bool_false; lra).
  assert (Y4 : nle (l_stpmax lS) (n_alpha oS) = false) by (simpl; change (num NR) with R in *; rewrite Q5, S2; apply Rle_bool_false; lra).
  specialize (Acc Y1 Y2 Y3 Y4). rewrite L1, L2 in C. destruct (ls_iterate lS (n_alpha oS) (id_f x2 : NR) (- vdot (n_d o2) (id_g x2))%num) as [l3 s3]. destruct Acc as (A1 & _ & ->). rewrite A1 in C.
  set (oo := nset_ls (nset_dtg (nset_counts o2 _ _ _) _ _) _ _) in C. set (o3 := cg_accept oo (id_g x2)) in C.
  assert (Ei3 : cg_iterate o2 x2 (id_f x2 : NR) (id_g x2) = Some (o3, x2)) by (unfold cg_iterate; unfold cg_get_task in T2; rewrite T2, C; reflexivity).
  destruct (accept_frame oo (id_g x2)) as (_ & _ & _ & _ & D3 & _ & _ & _ & _ & _ & _ & _ & _ & _ & _ & _ & Ac3 & _). fold o3 in D3, Ac3.
  set (cs3 := cs1 ++ [c1; VIterate x2 (id_f x2 : NR) (id_g x2)]). set (rs3 := rs1 ++ [(COMPUTE_FG, x2); (n_task o3, x2)]).
  assert (R3 : crun o cs3 = Some (o3, rs3)).
  { unfold cs3, rs3, cs1, rs1, c1. cbn [crun app]. rewrite EA. cbn [cdo]. rewrite Ei1. cbn [crun cdo]. rewrite Ei2. cbn [crun cdo]. rewrite Ei3. unfold cg_get_task in *. rewrite T1, T2. reflexivity. }
  assert (Tl : ctally cs3 rs3 = mkTally (n_task o3) 2 2 x2 (id_g x2) (vnorm2 (id_g (pt 0))) [(pt 0, id_g (pt 0))] (id_f (pt 0)) (id_g (pt 0))).
  { unfold ctally, cs3, rs3, cs1, rs1, c1. cbn [count_calls app tally_step t_task accepted]. rewrite Ac3. reflexivity. }
  assert (T3 : n_task o3 = NEW_X).
  { destruct (C28_convergence _ (OrdR 100 200) _ _ _ o cs3 o3 rs3 (real_is_num _ _ _) (fun z _ => real_is_num _ _ z) Hn R3 Ac3) as (_ & Cv).
    unfold cg_get_task in Cv. destruct (accepted_cases _ Ac3) as [X|X]; [exact X|exfalso]. destruct Cv as [Cv _]. specialize (Cv X). rewrite Tl in Cv. cbn [t_g t_ginit the_cgopts lin_opts q_gatol q_grtol] in Cv.
    pose proof (id_norm x2) as N2. pose proof (id_norm (pt 0)) as N0.
    destruct Cv as [Cv|[Cv|Cv]]; apply Rle_bool_true_iff in Cv.
    - change ((vnorm2 (id_g x2) : R) <= 0) in Cv. rewrite N2 in Cv. lra.
    - rewrite N2 in Cv. lra.
    - change ((vnorm2 (id_g x2) : R) <= (1/1000000) * (vnorm2 (id_g (pt 0)) : R)) in Cv. rewrite N2, N0 in Cv. lra. }
  destruct (C27_protocol _ _ _ _ o cs3 Hn) as (o3' & rs3' & R3' & _ & _ & _ & _ & _ & _ & _ & P). rewrite R3 in R3'. injection R3' as <- <-.
  destruct (P x2 (id_f x2 : NR) (id_g x2)) as (o4 & x4 & Ei4 & _).
  exists l, o, o1, o2, o3, o4, x2, x4, rs3. split; [exact Hn|]. split; [exact Hm|]. cbv zeta. fold c1. fold cs1. fold rs1.
  split; [exact R1|]. split; [exact Ev1|]. split; [exact Tp1|]. split; [exact Ei2|]. split; [exact T2|]. split; [exact E2|]. fold cs3.
  split; [exact R3|]. split.
  { unfold cs3, rs3, cs1, rs1, c1. cbn [evaluates app]. repeat split; intros p [= <-]; reflexivity. }
  split; [exact T3|]. rewrite Tl. split; [reflexivity|]. split; [reflexivity|]. split; [exact Ei4|].
  split; [eapply (C52_progress 100 200 1); [exact Hn| |exact R3|exact T3|exact Ei4]; cbn; lra|].
  split. { rewrite D3. change (n_d oo) with (n_d o2). rewrite L3, Ds. unfold opposite. simpl. f_equal. }
  unfold conjugate. rewrite Ipg. replace (1 / 1) with 1 by lra. destruct (Req_EM_T 1 0) as [Z|Z]; [lra|]. eexists _, _. split; [reflexivity|]. 
  assert (Eq : lin (-1) [1] 1 [-1] = [-2]) by (unfold lin, map2; simpl; f_equal; ring). split; [exact Eq|]. rewrite Eq. unfold sufficient, ip, map2. simpl. lra.
Qed.
End Examples.
