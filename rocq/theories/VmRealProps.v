(** * Properties of the quasi-Newton optimizer driven by an objective function (C22, C23, C26) *)
From Coq Require Import List ZArith Bool Arith Lia Reals Lra Sorted.
From Flocq Require Import Core.
From Verif Require Import Num NumFacts OrdFacts ListFacts VecModel VecProofs Base LsModel LsSpec LsProofs LsOrd LsReal LsDescent
  BoxSpec BoxProofs BoxRProofs OptSpace VmModel VmSpec VmProofs VmProps VmRealSpec VmReal.
Import ListNotations.
Local Open Scope R_scope.

(** The hypotheses about the caller can be met by an arbitrarily long sequence of calls, for every problem. *)
Lemma drive_evaluates {N : Num} {S : Space N} (F : S -> N) (G : S -> S) cfg k : cfg_ok cfg -> box_works (c_box cfg) ->
  forall (o : vm S) t x, vinv cfg o t -> exists o' rs, vrun o (drive F G k o x) = Some (o', rs) /\ evaluates F G (Some x) (drive F G k o x) rs /\ length rs = k.
Proof.
  intros K W. induction k as [|k IH]; intros o t x V; cbn [drive].
  - exists o, []. repeat split.
  - destruct (vdo_ok cfg o t (VIterate x (F x) (G x)) K W V) as (o1 & x1 & E & V1). unfold vdo in E.
    cbn [vrun vdo]. destruct (vm_iterate o x (F x) (G x)) as [[o2 x2]|] eqn:Ei; [|discriminate]. injection E as -> _ ->.
    destruct (IH o1 _ x1 V1) as (o' & rs & R & Ev & L). rewrite R. exists o', ((vm_get_task o1, x1) :: rs). split; [reflexivity|].
    cbn [evaluates length]. split; [|congruence]. split; [intros p [= ->]; reflexivity|]. auto.
Qed.
Lemma drive_exists {N : Num} {S : Space N} (F : S -> N) (G : S -> S) opts size lnsrch (box : option (Convex S)) o k x :
  new_optimizer opts size lnsrch box o -> box_works box ->
  exists o' rs, vrun o (drive_from F G k o x) = Some (o', rs) /\ evaluates F G None (drive_from F G k o x) rs /\ length rs = Datatypes.S k.
Proof.
  intros Hn W. destruct (new_ok opts size lnsrch box o Hn) as (V0 & K & Eb & _). rewrite <- Eb in W.
  destruct (vdo_ok (v_cfg o) o tally0 (VStart x) K W V0) as (o1 & x1 & E & V1). unfold vdo in E. unfold drive_from.
  cbn [vrun vdo]. destruct (vm_start o x) as [o2 x2] eqn:Es. injection E as -> _ ->.
  destruct (drive_evaluates F G (v_cfg o) k K W o1 _ x1 V1) as (o' & rs & R & Ev & L). rewrite R. exists o', ((vm_get_task o1, x1) :: rs).
  split; [reflexivity|]. cbn [evaluates length]. auto.
Qed.

Section Exact.
Variables (H I : R) (HH : 0 < H) (n : nat).
Notation NR := (NumR H I).
Notation SR := (list_space (cast_id NR) n).
Variables (F : SR -> R) (G : SR -> SR) (bnds : option (bounds NR NR n)).
Notation box := (the_box (cast_id NR) bnds).

Lemma start_J opts size lnsrch (o : vm SR) : new_optimizer opts size lnsrch box o -> v_task o = ERROR.
Proof.
  intros (E & _). unfold new_vmlmb in E. repeat (match type of E with context[if ?b then None else _] => destruct b; [discriminate|] end).
  match type of E with (match ?e with Some _ => _ | None => None end) = _ => destruct e as [l|]; [|discriminate] end.
  injection E as <-. reflexivity.
Qed.

(** ** C23: the objective function is only evaluated at feasible points

    For every number of variables, bounds with lower <= upper (or none), objective function and gradient, options, line search,
    starting point and sequence of calls, whenever the caller is asked to evaluate the function (and whenever a point is
    accepted) the variables are inside the bounds.  Exact arithmetic ([0 < H]: DBL_MAX is positive). *)
Theorem C23_feasible_partial opts size lnsrch (o o' : vm SR) cs rs :
  new_optimizer opts size lnsrch box o -> ordered (cast_id NR) bnds ->
  vrun o cs = Some (o', rs) -> evaluates F G None cs rs ->
  forall r x, In (r, x) rs -> r = COMPUTE_FG \/ r = NEW_X \/ r = FINAL_X -> within (cast_id NR) bnds x.
Proof.
  intros Hn Ho Rn Ev r x Hi Hr. destruct (new_ok opts size lnsrch box o Hn) as (V0 & K & Eb & _).
  assert (J0 : Jf H I n F G bnds o tally0 None) by (unfold Jf; rewrite (start_J _ _ _ _ Hn); exact Logic.I).
  destruct (J_run H I n F G bnds HH Ho (v_cfg o) cs K Eb o tally0 None o' rs V0 J0 Ev Rn) as (_ & _ & Fa & _).
  rewrite Forall_forall in Fa. apply (Fa (r, x) Hi). cbn [fst]. destruct Hr as [-> |[-> | ->]]; auto.
Qed.

(** ** C26: the slope of the line searches (exact arithmetic)

    Each time a line search is in progress, its initial directional derivative is strictly negative and it is the derivative at 0
    of the objective along the search path: the proposed variables are the projection of [x0 - stp*d] for a direction [d], where
    [x0 - s*d] is feasible for small [s], and the derivative is [-<d, G x0>]. *)
Theorem C26_slope_exact opts size lnsrch (o o' : vm SR) cs rs x0 pts g0 :
  new_optimizer opts size lnsrch box o -> ordered (cast_id NR) bnds ->
  vrun o cs = Some (o', rs) -> evaluates F G None cs rs ->
  vm_get_task o' = COMPUTE_FG -> t_points (count_calls (uses_blmvm opts box) box tally0 cs rs) = (x0, g0) :: pts ->
  exists (x : SR) (d : list R) (stp smin : R), option_map snd (hd_error (rev rs)) = Some x /\ length d = n /\ 0 <= stp /\ 0 < smin /\
    l_finit (v_ls o') = F x0 /\
    (l_ginit (v_ls o') : R) < 0 /\ (l_ginit (v_ls o') : R) = - rsum (map2 Rmult d (elts (G x0))) /\
    match bnds with
    | Some b => is_projection (cast_id NR) (lower b) (upper b) (moved false stp (elts x0) d : list NR) (elts x) /\
                forall s, 0 <= s <= smin -> feasible (cast_id NR) (lower b) (upper b) (moved false s (elts x0) d : list NR)
    | None => elts x = moved false stp (elts x0) d
    end.
Proof.
  intros Hn Ho Rn Ev Et Ep. destruct (new_ok opts size lnsrch box o Hn) as (V0 & K & Eb & Em & _).
  assert (J0 : Jf H I n F G bnds o tally0 None) by (unfold Jf; rewrite (start_J _ _ _ _ Hn); exact Logic.I).
  destruct (J_run H I n F G bnds HH Ho (v_cfg o) cs K Eb o tally0 None o' rs V0 J0 Ev Rn) as (V & J & _).
  rewrite Em, Eb in V, J. set (t := count_calls _ _ _ _ _) in *. unfold vm_get_task in Et.
  assert (Jp : Jf H I n F G bnds o' t (option_map snd (hd_error (rev rs)))).
  { destruct cs; [|exact J]. exfalso. injection Rn as <- <-. rewrite (start_J _ _ _ _ Hn) in Et. discriminate. }
  pose proof V as (Ec & _ & _ & _ & _ & _ & _ & _ & _ & V'). rewrite Et in V'.
  destruct V' as [(_ & _ & V')|(_ & _ & p & pts' & Vp & _ & _ & Vs)]; [congruence|]. rewrite Ep in Vp. injection Vp as <- <-.
  assert (Eb' : c_box (v_cfg o') = box) by (rewrite Ec; exact Eb).
  destruct (search_slope H I n F G bnds HH Ho o' t (x0, g0) pts _ Eb' Vs Et Ep Jp) as (x & d & s & smin & Q1 & Q2 & Q3 & Q4 & Qf & Q5 & Q6 & Q7).
  exists x, d, s, smin. repeat (split; [assumption|]). split; [|auto]. refine (eq_trans _ Qf). apply Vs.
Qed.

Lemma search_monotone opts size lnsrch (o : vm SR) : new_optimizer opts size lnsrch box o -> (forall l, lnsrch = Some l -> monotone_search l) ->
  monotone H I (v_ls o) /\ 0 < armijo_tol H I (v_ls o).
Proof.
  intros (E & _) Hm. unfold new_vmlmb in E. repeat (match type of E with context[if ?b then None else _] => destruct b; [discriminate|] end).
    match type of E with (match ?e with Some _ => _ | None => None end) = _ => destruct e as [l|] eqn:El; [|discriminate] end.
    injection E as <-. cbn [v_ls].
    assert (B : forall ftol amin (l : ls NR), new_backtrack true ftol amin = Some l -> monotone H I l /\ 0 < armijo_tol H I l).
    { intros ftol amin l0. unfold new_backtrack. destruct (_ || _) eqn:Eo; [discriminate|]. injection 1 as <-. unfold monotone, armijo_tol. cbn [l_method].
      simpl in Eo. apply orb_false_elim in Eo. destruct Eo as [Eo _]. apply orb_false_elim in Eo. destruct Eo as [Eo _]. apply orb_false_elim in Eo. destruct Eo as [Eo _].
      rb. simpl. auto. }
    assert (Cs : forall (ftol gtol xtol : R) (l : ls NR), 0 < ftol -> new_csrch (N := NR) true ftol gtol xtol = Some l -> monotone H I l /\ 0 < armijo_tol H I l).
    { intros ftol gtol xtol l0 Hf. unfold new_csrch. destruct (_ || _) eqn:Eo; [discriminate|]. injection 1 as <-. unfold monotone, armijo_tol. cbn. split; [lra|exact Hf]. }
    destruct lnsrch as [l'|].
    - injection El as ->. destruct (Hm l eq_refl) as (l0 & cs0 & rs0 & R0 & L).
      pose proof (run_params _ _ _ _ R0) as P.
      assert (M0 : monotone H I l0 /\ 0 < armijo_tol H I l0) by (destruct L as [(? & ? & L)|(? & ? & ? & L1 & L)]; eauto).
      destruct M0 as [M0 M1]. destruct (params_monotone H I _ _ P M0) as [M2 M3]. rewrite M3. auto.
    - destruct box; [eapply B; eauto|]. eapply Cs; [|exact El]. simpl. lra.
Qed.

(** ** C22: the objective function decreases

    With a monotone line search (the default ones, backtracking or the one of More and Thuente with a strictly positive
    tolerance), the values of the objective function at the accepted points since the last start are strictly decreasing, for
    every function [F] and whatever the supposed gradient [G] is ([values]: most recent first). *)
Theorem C22_decrease_partial opts size lnsrch (o o' : vm SR) cs rs :
  new_optimizer opts size lnsrch box o -> ordered (cast_id NR) bnds ->
  (forall l, lnsrch = Some l -> monotone_search l) ->
  vrun o cs = Some (o', rs) -> evaluates F G None cs rs ->
  Sorted Rlt (values (N := NR) ERROR [] cs rs).
Proof.
  intros Hn Ho Hm Rn Ev. destruct (new_ok opts size lnsrch box o Hn) as (V0 & K & Eb & _).
  assert (J0 : Jf H I n F G bnds o tally0 None) by (unfold Jf; rewrite (start_J _ _ _ _ Hn); exact Logic.I).
  destruct (J_run H I n F G bnds HH Ho (v_cfg o) cs K Eb o tally0 None o' rs V0 J0 Ev Rn) as (_ & _ & _ & D).
  apply (D []). unfold Jd. rewrite (start_J _ _ _ _ Hn).
  pose proof (search_monotone _ _ _ _ Hn Hm) as M.
  destruct M as [M1 M2]. repeat split; auto.
Qed.

(** ** C51: progress

    Without bounds and in exact arithmetic, an iteration requested after NEW_X always proposes a new trial point: it never ends
    with an error, for every caller.  The options stpmin and stpmax must be on both sides of 1. *)
Theorem C51_progress_partial opts size lnsrch (o o' : vm SR) cs rs x f g o'' x' :
  new_optimizer opts size lnsrch None o -> (o_stpmin (the_opts opts) : R) <= 1 <= (o_stpmax (the_opts opts) : R) ->
  vrun o cs = Some (o', rs) -> vm_get_task o' = NEW_X -> vm_iterate o' x f g = Some (o'', x') -> vm_get_task o'' = COMPUTE_FG.
Proof.
  intros Hn Hm Rn Et E. destruct (new_ok opts size lnsrch None o Hn) as (V0 & K & Eb & Em & _ & _ & Hck & _).
  assert (W : box_works (c_box (v_cfg o))) by (rewrite Eb; apply no_box_works).
  destruct (vrun_ok (v_cfg o) o tally0 cs K W V0) as (o1 & rs1 & R1 & _ & V). rewrite Rn in R1. injection R1 as <- <-.
  destruct V as (Ec & _ & Il & _ & _ & _ & _ & _ & _ & V). unfold vm_get_task in *. unfold vm_iterate in E. rewrite Et in E, V.
  destruct V as (_ & _ & _ & V).
  assert (Gp : 0 < (v_gnorm o' : R)).
  { assert (X : nle (v_gnorm o') (vmax3 (nZ 0) (c_gatol (v_cfg o)) (c_grtol (v_cfg o) * t_ginit (count_calls (is_blmvm (c_method (v_cfg o))) (c_box (v_cfg o)) tally0 cs rs))%num) = false).
    { match goal with |- ?b = false => destruct b eqn:Eq; [|reflexivity] end. destruct V as [_ V]. specialize (V eq_refl). discriminate. }
    unfold vmax3, OPK_MAX in X. simpl in X.
    repeat match type of X with context[if Rle_bool ?a ?b then _ else _] => destruct (Rle_bool_spec a b) | context[if Rlt_bool ?a ?b then _ else _] => destruct (Rlt_bool_spec a b) end; rb; simpl in *; lra. }
  assert (Co : (c_delta (v_cfg o) : R) = o_delta (the_opts opts) /\ (c_stpmin (v_cfg o) : R) = o_stpmin (the_opts opts) /\ (c_stpmax (v_cfg o) : R) = o_stpmax (the_opts opts)).
  { destruct Hn as (Hn & _). unfold new_vmlmb in Hn. fold (the_opts opts) in Hn. repeat (match type of Hn with context[if ?b then None else _] => destruct b; [discriminate|] end).
    match type of Hn with (match ?e with Some _ => _ | None => None end) = _ => destruct e as [l|]; [|discriminate] end. injection Hn as <-. repeat split. }
  destruct Co as (Co1 & Co2 & Co3). unfold vm_check_options in Hck. destruct (_ || _) eqn:Eo in Hck; [discriminate|]. clear Hck.
  repeat match goal with Q : _ || _ = false |- _ => apply orb_false_elim in Q; destruct Q end. simpl in *. rb.
  refine (progress H I SR o' x f g o'' x' _ Il Gp _ _ _ _ E); try rewrite Ec; auto; try lra.
  intros z. refine (eq_ind_r (fun r : R => 0 <= r) (sqrt_pos _) (norm2_R H I (elts z))).
Qed.
End Exact.
Print Assumptions C23_feasible_partial.
Print Assumptions C26_slope_exact.
Print Assumptions C22_decrease_partial.
Print Assumptions C51_progress_partial.

(** ** Examples in exact arithmetic *)
Section Examples.
Notation NR := (NumR 100 200).
Notation SR := (list_space (cast_id NR)).
Definition sq_f {n : nat} (x : SR n) : R := rsum (map2 Rmult (elts x) (elts x)).
Definition sq_g {n : nat} (x : SR n) : SR n := vscale (2 : NR) x.
Definition one_x : SR 1 := exist _ [1] eq_refl.
Definition far_x : SR 2 := exist _ [9; -7] eq_refl.
(** two variables, the first one not larger than 3, the second one between -1 and 5 *)
Definition sq_bounds : bounds NR NR 2 := mkBounds (D := NR) (E := NR) (n := 2) (BVector ([-10; -1] : list NR)) (BVector ([3; 5] : list NR)) eq_refl eq_refl.
Lemma sq_ordered : ordered (cast_id NR) (Some sq_bounds).
Proof.
  split; [reflexivity|]. split; [reflexivity|]. split; [intros i a _; apply real_is_num|]. split; [intros i a _; apply real_is_num|].
  intros i a b Hi. destruct i as [|[|i]]; [| |lia]; simpl; injection 1 as <-; injection 1 as <-; apply Rle_bool_true; lra.
Qed.

Lemma new_default {n : nat} (b : option (bounds NR NR n)) : (1 <= n)%nat -> exists o : vm (SR n), new_optimizer None (Z.of_nat n) None (the_box (cast_id NR) b) o.
Proof.
  intros Hn. unfold new_optimizer. unfold new_vmlmb.
  assert (vm_check_options (Some (vm_default_options (N := NR))) = SUCCESS) as ->.
  { unfold vm_check_options, vm_default_options. cbn [o_gatol o_grtol o_delta o_epsilon o_stpmin o_stpmax o_mem].
    unfold non_finite. simpl. change (Z.pos (10 ^ 20)) with 100000000000000000000%Z. change (Z.pow_pos 10 20) with 100000000000000000000%Z. repeat (first [rewrite Rlt_bool_false by (simpl; lra)|rewrite Rle_bool_false by (simpl; lra)]). reflexivity. }
  cbn [ok negb]. assert ((Z.of_nat n <? 1)%Z = false) as -> by (apply Z.ltb_ge; lia). cbn [orb o_mem vm_default_options].
  change (5 <? 1)%Z with false. cbv iota.
  assert (B : exists l, new_backtrack (N := NR) true (nQ 1 10000) (nQ 1 10) = Some l).
  { unfold new_backtrack. simpl. repeat (first [rewrite Rlt_bool_false by (simpl; lra)|rewrite Rle_bool_false by (simpl; lra)]). eexists; reflexivity. }
  assert (Cs : exists l, new_csrch (N := NR) true (nQ 1 10000) (nQ 9 10) (nQ 1 (2 ^ 52)) = Some l).
  { unfold new_csrch. simpl. change (Z.pos (2 ^ 52)) with 4503599627370496%Z. repeat (first [rewrite Rlt_bool_false by (simpl; lra)|rewrite Rle_bool_false by (simpl; lra)]). eexists; reflexivity. }
  destruct b as [b|]; cbn [the_box].
  - destruct B as (l & ->). eexists. split; [reflexivity|discriminate].
  - destruct Cs as (l & ->). eexists. split; [reflexivity|discriminate].
Qed.

(** C22 and C23: an infeasible starting point (9, -7), as many calls as wanted. *)
Example C23_example (k : nat) : exists (o o' : vm (SR 2)) cs rs,
  new_optimizer None 2 None (the_box (cast_id NR) (Some sq_bounds)) o /\ ordered (cast_id NR) (Some sq_bounds) /\
  vrun o cs = Some (o', rs) /\ evaluates sq_f sq_g None cs rs /\ length rs = Datatypes.S k /\
  hd_error cs = Some (VStart far_x) /\ (forall l, None = Some l -> monotone_search (H := 100) (I := 200) l).
Proof.
  destruct (new_default (Some sq_bounds)) as (o & Hn); [lia|]. simpl Z.of_nat in Hn.
  destruct (drive_exists sq_f sq_g None 2 None _ o k far_x Hn (list_box_works _ _ _ _ _ _)) as (o' & rs & R & Ev & L).
  exists o, o', (drive_from sq_f sq_g k o far_x), rs. repeat (split; [first [exact Hn|exact sq_ordered|exact R|exact Ev|exact L|reflexivity]|]). discriminate.
Qed.

(** C26 and C51: a line search is in progress after the third call. *)
Example C26_example : exists (o o1 o' : vm (SR 1)) cs rs x0 g0 c r,
  new_optimizer None 1 None None o /\ vrun o cs = Some (o1, rs) /\ vm_get_task o1 = NEW_X /\
  vrun o (cs ++ [c]) = Some (o', rs ++ [r]) /\ evaluates sq_f sq_g None (cs ++ [c]) (rs ++ [r]) /\ vm_get_task o' = COMPUTE_FG /\
  t_points (count_calls (uses_blmvm (N := NR) (S := SR 1) None None) None tally0 (cs ++ [c]) (rs ++ [r])) = [(x0, g0)].
Proof.
  destruct (new_default (n := 1) None) as (o & Hn); [lia|]. simpl Z.of_nat in Hn. cbn [the_box] in Hn.
  destruct (drive_exists sq_f sq_g None 1 None _ o 1 one_x Hn (no_box_works _)) as (o1 & rs & R1 & Ev & L).
  assert (Sr : exists o0, vm_start o one_x = (o0, one_x) /\ v_task o0 = COMPUTE_FG).
  { unfold vm_start. destruct (new_ok _ _ _ _ _ Hn) as (_ & _ & Eb & _). cbn [v_cfg set_lb set_counts]. rewrite Eb. eexists. split; reflexivity. }
  destruct Sr as (o0 & Es & E0).
  unfold drive_from in R1, Ev. rewrite Es in R1, Ev. cbn [drive] in R1, Ev.
  cbn [vrun vdo] in R1. rewrite Es in R1. destruct (vm_iterate o0 one_x (sq_f one_x) (sq_g one_x)) as [[o2 x2]|] eqn:E1; [|discriminate].
  injection R1 as <- <-. cbn [evaluates] in Ev.
  set (cs := [VStart one_x; VIterate one_x (sq_f one_x) (sq_g one_x)]). set (rs := [(vm_get_task o0, one_x); (vm_get_task o2, x2)]).
  assert (Rn : vrun o cs = Some (o2, rs)). { unfold cs, rs. cbn [vrun vdo]. rewrite Es, E1. reflexivity. }
  pose proof (C20_protocol NR (SR 1) None 1 None None o [VStart one_x] Hn (no_box_works _)) as (oa & ra & Ra & _ & P).
  cbn [vrun vdo] in Ra. rewrite Es in Ra. injection Ra as <- <-. destruct P as (_ & _ & _ & _ & _ & _ & P). destruct (P one_x (sq_f one_x) (sq_g one_x)) as (ob & xb & Eb & _ & _ & _ & Q).
  rewrite E1 in Eb. injection Eb as <- <-. cbn [count_calls tally_step t_task vm_get_task t_evals] in Q. unfold vm_get_task in Q. rewrite E0 in Q. destruct Q as (_ & _ & _ & Ac). specialize (Ac eq_refl).
  assert (Tt : count_calls (uses_blmvm (N := NR) (S := SR 1) None None) None tally0 cs rs = mkTally (v_task o2) 1 1 one_x (sq_g one_x) (vnorm2 (sq_g one_x)) [] (nZ 0) vzeros).
  { unfold cs, rs. cbn [count_calls tally_step t_task]. unfold vm_get_task. rewrite E0. rewrite Ac. reflexivity. }
  pose proof (C21_convergence NR (OrdR 100 200) (SR 1) None 1 None None o cs o2 rs (real_is_num _ _ _) (fun z _ => real_is_num _ _ z) Hn (no_box_works _) Rn) as Cv.
  cbv zeta in Cv. destruct (Cv Ac) as (Eg & Cf). rewrite Tt in Eg, Cf. cbn [t_x t_g t_ginit pgnorm] in Eg, Cf.
  assert (Ng : (vnorm2 (sq_g one_x) : R) = 2).
  { refine (eq_trans (norm2_R 100 200 _) _). unfold sq_g. assert (Ex : (elts (vscale (s := SR 1) (2 : NR) one_x) : list R) = [2 * 1]) by exact (l_scale_R 100 200 1 2 [1] eq_refl).
    replace (rsum (map (fun a => a * a) (elts (vscale (s := SR 1) (2 : NR) one_x)))) with (2 * 2); [apply sqrt_square; lra|].
    refine (eq_ind_r (fun l : list R => 2 * 2 = rsum (map (fun a => a * a) l)) _ Ex). simpl. lra. }
  assert (T2 : vm_get_task o2 = NEW_X).
  { unfold vm_get_task in *. destruct (v_task o2); try discriminate Ac; [reflexivity|]. exfalso.
    destruct Cf as [Cf _]. specialize (Cf eq_refl). rewrite Eg in Cf.
    assert (Q : forall z : R, nle (vnorm2 (sq_g one_x) : NR) (z : NR) = true -> 2 <= z)
      by (intros z Hz; refine (eq_ind _ (fun y => y <= z) _ _ Ng); apply Rle_bool_true_iff; exact Hz).
    destruct Cf as [Cf|[Cf|Cf]]; apply Q in Cf; [simpl in Cf; lra|simpl in Cf; lra|].
    change (2 <= 1 / 1000000 * (vnorm2 (sq_g one_x) : R)) in Cf. rewrite Ng in Cf. lra. }
  assert (Ex2 : x2 = one_x). { unfold vm_iterate in E1. rewrite E0 in E1. 
    destruct (vdo_ok (v_cfg o) o tally0 (VStart one_x)) as (oc & xc & Ec & Vc); try apply (new_ok _ _ _ _ _ Hn); [rewrite (proj1 (proj2 (proj2 (new_ok _ _ _ _ _ Hn)))); apply no_box_works|].
    unfold vdo in Ec. rewrite Es in Ec. injection Ec as <- _ <-.
    assert (W : box_works (c_box (v_cfg o))) by (rewrite (proj1 (proj2 (proj2 (new_ok _ _ _ _ _ Hn)))); apply no_box_works).
    pose proof (check_ok _ _ _ one_x (sq_f one_x : NR) (sq_g one_x) (proj1 (proj2 (new_ok _ _ _ _ _ Hn))) W Vc E0) as (od & xd & Ed & _ & Z0 & _).
    rewrite E1 in Ed. injection Ed as <- <-. apply Z0. reflexivity. }
  subst x2.
  destruct (C20_protocol NR (SR 1) None 1 None None o (cs ++ [VIterate one_x (sq_f one_x) (sq_g one_x)]) Hn (no_box_works _)) as (o3 & r3 & R3 & L3 & _).
  assert (E3 : exists x3, vm_iterate o2 one_x (sq_f one_x) (sq_g one_x) = Some (o3, x3) /\ r3 = rs ++ [(vm_get_task o3, x3)]).
  { unfold cs in R3. cbn [app vrun vdo] in R3. rewrite Es, E1 in R3. destruct (vm_iterate o2 one_x (sq_f one_x) (sq_g one_x)) as [[oe xe]|]; [|discriminate].
    injection R3 as <- <-. exists xe. split; reflexivity. }
  destruct E3 as (x3 & E3 & ->).
  assert (T3 : vm_get_task o3 = COMPUTE_FG).
  { refine (C51_progress_partial 100 200 1 None 1 None o o2 cs rs one_x (sq_f one_x) (sq_g one_x) o3 x3 Hn _ Rn T2 E3).
    unfold the_opts, vm_default_options. simpl. change (Z.pos (10 ^ 20)) with 100000000000000000000%Z. change (Z.pow_pos 10 20) with 100000000000000000000%Z. lra. }
  eexists o, o2, o3, cs, rs, one_x, (sq_g one_x), (VIterate one_x (sq_f one_x) (sq_g one_x)), (vm_get_task o3, x3).
  split; [exact Hn|]. split; [exact Rn|]. split; [exact T2|]. split; [exact R3|]. split.
  - unfold cs, rs. cbn [app evaluates]. repeat split; try (intros p [= <-]; reflexivity).
  - split; [exact T3|]. unfold cs, rs. cbn [app count_calls tally_step t_task]. unfold vm_get_task in *. rewrite E0, Ac. cbn [t_task]. rewrite T2. reflexivity.
Qed.
End Examples.

(** ** Binary64 *)
Section Double.
Definition S1 := list_space (cast_id NumD) 1.
Definition pt1 (a : NumD) : S1 := exist _ [a] eq_refl.
Definition at1 (f : NumD -> NumD) (x : S1) : NumD := match elts x with [a] => f a | _ => nZ 0 end.

(** C23 fails by one rounding: F(x) = 10^6 - 25 x, x <= 7, starting at 0; the step is limited to 0.28 and the variables are not
    projected: x = 25*0.28 > 7. *)
Definition lin_f := at1 (fun a => nZ 1000000 - nZ 25 * a)%num.
Definition lin_g (x : S1) : S1 := pt1 (nZ (-25)).
Definition le7 : option (bounds NumD NumD 1) := Some (mkBounds BNone (BScalar (nZ 7)) Logic.I Logic.I).
Definition bad_reply (r : vreply S1) : bool := match fst r, elts (snd r) with COMPUTE_FG, [a] => negb (nle a (nZ 7)) | _, _ => false end.
Theorem C23_double_refuted : exists (o o' : vm S1) cs rs a,
  new_optimizer None 1 None (the_box (cast_id NumD) le7) o /\ vrun o cs = Some (o', rs) /\ evaluates lin_f lin_g None cs rs /\
  In (COMPUTE_FG, pt1 a) rs /\ (a <=? nZ 7)%num = false.
Proof.
  destruct (is_some_ex (new_vmlmb (S := S1) None 1 None (the_box (cast_id NumD) le7))) as (o & E); [vm_compute; reflexivity|].
  assert (Hn : new_optimizer None 1 None (the_box (cast_id NumD) le7) o) by (split; [exact E|discriminate]).
  destruct (drive_exists lin_f lin_g None 1 None _ o 2 (pt1 (nZ 0)) Hn (list_box_works _ _ _ _ _ _)) as (o' & rs & R & Ev & L).
  assert (X : match new_vmlmb (S := S1) None 1 None (the_box (cast_id NumD) le7) with
    | Some o => match vrun o (drive_from lin_f lin_g 2 o (pt1 (nZ 0))) with Some (_, rs) => existsb bad_reply rs | None => false end | None => false end = true)
    by (vm_compute; reflexivity).
  rewrite E, R in X. apply existsb_exists in X. destruct X as ([r x] & Hi & B). unfold bad_reply in B. cbn [fst snd] in B.
  destruct r; try discriminate B. destruct x as [l Hl]. simpl in B. destruct l as [|a [|]]; try discriminate B.
  exists o, o', (drive_from lin_f lin_g 2 o (pt1 (nZ 0))), rs, a. split; [exact Hn|]. split; [exact R|]. split; [exact Ev|]. split.
  - assert (pt1 a = exist _ [a] Hl) as -> by (apply elts_eq; reflexivity). exact Hi.
  - apply negb_true_iff in B. exact B.
Qed.

(** C22: the decrease may not be strict, even for a smooth function: F(x) = 1 + 10^-20 x^2 with the default (backtracking) line
    search and wide bounds. *)
Definition flat_f := at1 (fun a => nZ 1 + nQ 1 (10 ^ 20) * a * a)%num.
Definition flat_g (x : S1) : S1 := pt1 (at1 (fun a => nQ 2 (10 ^ 20) * a)%num x).
Definition wide : option (bounds NumD NumD 1) := Some (mkBounds (BScalar (nZ (-10 ^ 30))) (BScalar (nZ (10 ^ 30))) Logic.I Logic.I).
Theorem C22_double_refuted : exists (o o' : vm S1) cs rs,
  new_optimizer None 1 None (the_box (cast_id NumD) wide) o /\ vrun o cs = Some (o', rs) /\ evaluates flat_f flat_g None cs rs /\
  exists f1 f0, values ERROR [] cs rs = [f1; f0] /\ (f1 =? f0)%num = true /\ (f1 <? f0)%num = false.
Proof.
  destruct (is_some_ex (new_vmlmb (S := S1) None 1 None (the_box (cast_id NumD) wide))) as (o & E); [vm_compute; reflexivity|].
  assert (Hn : new_optimizer None 1 None (the_box (cast_id NumD) wide) o) by (split; [exact E|discriminate]).
  destruct (drive_exists flat_f flat_g None 1 None _ o 21 (pt1 (nZ 1)) Hn (list_box_works _ _ _ _ _ _)) as (o' & rs & R & Ev & L).
  assert (X : match new_vmlmb (S := S1) None 1 None (the_box (cast_id NumD) wide) with
    | Some o => match vrun o (drive_from flat_f flat_g 21 o (pt1 (nZ 1))) with
      | Some (_, rs) => match values (N := NumD) ERROR [] (drive_from flat_f flat_g 21 o (pt1 (nZ 1))) rs with [f1; f0] => neq f1 f0 && negb (nlt f1 f0) | _ => false end
      | None => false end | None => false end = true)
    by (vm_compute; reflexivity).
  rewrite E, R in X. exists o, o', (drive_from flat_f flat_g 21 o (pt1 (nZ 1))), rs. split; [exact Hn|]. split; [exact R|]. split; [exact Ev|].
  destruct (values ERROR [] _ rs) as [|f1 [|f0 [|]]]; try discriminate X. exists f1, f0. split; [reflexivity|].
  apply andb_prop in X. destruct X as [X1 X2]. split; [exact X1|]. apply negb_true_iff in X2. exact X2.
Qed.

(** C51: the options accept any 0 <= stpmin < stpmax but the first line search cannot be started if 1 is not in between. *)
Definition bad_steps : vmopts NumD := mkVmOpts (nQ 5 100) (nZ 0) (nQ 1 1000000) (nZ 0) (nZ 2) (nZ 3) 5 false true.
Theorem C51_steps_refuted : vm_check_options (Some bad_steps) = SUCCESS /\ exists (o o' : vm S1) cs rs x f g o'' x',
  new_optimizer (Some bad_steps) 1 None None o /\ vrun o cs = Some (o', rs) /\ vm_get_task o' = NEW_X /\
  vm_iterate o' x f g = Some (o'', x') /\ vm_get_task o'' = ERROR.
Proof.
  split; [vm_compute; reflexivity|].
  destruct (is_some_ex (new_vmlmb (S := S1) (Some bad_steps) 1 None None)) as (o & E); [vm_compute; reflexivity|].
  assert (Hn : new_optimizer (S := S1) (Some bad_steps) 1 None None o) by (split; [exact E|discriminate]).
  destruct (C20_protocol _ _ _ _ _ _ o (drive_from flat_f flat_g 1 o (pt1 (nZ 1))) Hn (no_box_works _)) as (o' & rs & R & _ & _ & _ & _ & _ & _ & _ & P).
  destruct (P (pt1 (nZ 1)) (flat_f (pt1 (nZ 1))) (flat_g (pt1 (nZ 1)))) as (o'' & x' & Ei & _).
  assert (X : match new_vmlmb (S := S1) (Some bad_steps) 1 None None with
    | Some o => match vrun o (drive_from flat_f flat_g 1 o (pt1 (nZ 1))) with
      | Some (o', _) => (task_code (vm_get_task o') =? 2)%Z && match vm_iterate o' (pt1 (nZ 1)) (flat_f (pt1 (nZ 1))) (flat_g (pt1 (nZ 1))) with Some (o'', _) => (task_code (vm_get_task o'') =? -1)%Z | None => false end
      | None => false end | None => false end = true)
    by (vm_compute; reflexivity).
  rewrite E, R, Ei in X. apply andb_prop in X. destruct X as [X1 X2].
  exists o, o', (drive_from flat_f flat_g 1 o (pt1 (nZ 1))), rs, (pt1 (nZ 1)), (flat_f (pt1 (nZ 1))), (flat_g (pt1 (nZ 1))), o'', x'.
  split; [exact Hn|]. split; [exact R|]. split; [destruct (vm_get_task o'); try discriminate X1; reflexivity|]. split; [exact Ei|].
  destruct (vm_get_task o''); try discriminate X2; reflexivity.
Qed.
End Double.
Print Assumptions C23_double_refuted.
Print Assumptions C22_double_refuted.
Print Assumptions C51_steps_refuted.

(** C23, any arithmetic with IEEE comparisons: the variables are inside the bounds after a start, for every starting point without NaN. *)
Theorem C23_start_partial (D E : Num) (c : Cast D E) (O : OrdLaws E) n (b : bounds D E n) (o o' : vm (list_space c n)) opts size lnsrch cs rs x r x' :
  new_optimizer opts size lnsrch (the_box c (Some b)) o -> ordered c (Some b) ->
  vrun o (cs ++ [VStart x]) = Some (o', rs ++ [(r, x')]) -> Forall is_num (elts x) -> within c (Some b) x' /\ r = COMPUTE_FG.
Proof.
  intros Hn Ho R Hx. destruct (new_ok _ _ _ _ o Hn) as (V0 & K & Eb & _).
  assert (W : box_works (c_box (v_cfg o))) by (rewrite Eb; apply list_box_works).
  assert (Ap : forall (o1 : vm (list_space c n)) t rs1, vinv (v_cfg o) o1 t -> vrun o1 (cs ++ [VStart x]) = Some (o', rs1 ++ [(r, x')]) ->
     exists o2, vinv (v_cfg o) o2 (count_calls (is_blmvm (c_method (v_cfg o))) (c_box (v_cfg o)) t cs rs1) /\ vdo o2 (VStart x) = Some (o', (r, x'))).
  { clear R. induction cs as [|cl cs IH]; intros o1 t rs1 V1 R.
    - cbn [app] in R. cbn [vrun] in R. destruct (vdo o1 (VStart x)) as [[o2 r2]|] eqn:Ed; [|discriminate]. injection R as <- R.
      destruct rs1 as [|r1 rs1]; [injection R as ->; exists o1; split; [exact V1|exact Ed]|].
      destruct rs1; discriminate.
    - cbn [app vrun] in R. destruct (vdo_ok (v_cfg o) o1 t cl K W V1) as (o2 & x2 & E2 & V2). rewrite E2 in R.
      destruct (vrun o2 (cs ++ [VStart x])) as [[o3 rs3]|] eqn:E3; [|discriminate]. injection R as <- R.
      destruct rs1 as [|r1 rs1].
      + exfalso. cbn [app] in R. injection R as _ _ ->. destruct cs as [|c2 cs]; cbn [app vrun] in E3.
        * destruct (vdo o2 (VStart x)) as [[? ?]|]; discriminate E3.
        * destruct (vdo o2 c2) as [[o4 ?]|]; [|discriminate]. destruct (vrun o4 (cs ++ [VStart x])) as [[? ?]|]; discriminate E3.
      + injection R as <- ->. exact (IH o2 _ rs1 V2 E3). }
  destruct (Ap o tally0 rs V0 R) as (o2 & V2 & E2). assert (Ec : v_cfg o2 = v_cfg o) by apply V2.
  unfold vdo, vm_start in E2. cbn [v_cfg set_lb set_counts] in E2. rewrite Ec, Eb in E2. cbn [the_box projvar list_box ok] in E2. injection E2 as <- <- <-.
  split; [|reflexivity]. unfold within. cbn [elts proj1_sig]. destruct x as [x Lx]. cbn [elts proj1_sig] in *.
  apply (project_variables_spec c O (lower b) (upper b) x); [rewrite Lx; exact Ho|]. intros i xi Hi. rewrite Forall_forall in Hx. apply Hx. eapply nth_error_In; eauto.
Qed.
Print Assumptions C23_start_partial.

(** C26, any arithmetic: a line search in progress never has a directional derivative >= 0 (a NaN is not excluded); the function
    value at the start of the search is the one given for the point [x0]. *)
Theorem C26_slope_any (N : Num) (S : Space N) opts size lnsrch (box : option (Convex S)) o cs o' rs :
  new_optimizer opts size lnsrch box o -> box_works box -> vrun o cs = Some (o', rs) ->
  let t := count_calls (uses_blmvm opts box) box tally0 cs rs in
  vm_get_task o' = COMPUTE_FG -> (1 <= t_evals t)%Z ->
  (nZ 0 <=? l_ginit (v_ls o'))%num = false /\ l_finit (v_ls o') = t_f0 t.
Proof.
  intros Hn W R t Et Ht. destruct (new_ok opts size lnsrch box o Hn) as (V0 & K & Eb & Em & _).
  rewrite <- Eb in W. destruct (vrun_ok (v_cfg o) o tally0 cs K W V0) as (o1 & rs1 & R1 & _ & V).
  rewrite R in R1. injection R1 as <- <-. rewrite Em, Eb in V. fold t in V.
  destruct V as (_ & _ & _ & _ & _ & _ & _ & _ & _ & V). unfold vm_get_task in Et. rewrite Et in V.
  destruct V as [(V & _)|(_ & _ & p & pts & _ & _ & _ & (_ & _ & V1 & V2 & _))]; [lia|]. auto.
Qed.
Print Assumptions C26_slope_any.
