(** * The conjugate gradient optimizer in exact arithmetic: decrease, published formulas *)
From Coq Require Import List ZArith Bool Arith Lia Reals Lra Sorted.
From Flocq Require Import Core.
From Verif Require Import Num NumFacts OrdFacts ListFacts VecModel VecProofs Base LsModel LsSpec LsProofs LsOrd LsReal LsDescent
  OptSpace VmModel VmSpec VmProofs VmRealSpec VmReal LbfgsSpec LbfgsReal LbfgsProofs LbfgsRun CgModel CgSpec CgProofs CgReal CgFormSpec.
Import ListNotations.
Local Open Scope R_scope.

Section Real.
Variables H I : R.
Notation NR := (NumR H I).
Notation c := (cast_id NR).
Variable n : nat.
Notation SR := (list_space c n).
Notation el := (el H I n).
Notation el_length := (el_length H I n).
Variables (F : SR -> NR) (G : SR -> SR).

(** ** Decrease *)
Definition Jdc (o : cg SR) (t : tally SR) (vs : list R) : Prop :=
  monotone H I (n_ls o) /\ 0 < armijo_tol H I (n_ls o) /\ Sorted Rlt vs /\
  match n_task o with
  | COMPUTE_FG => (t_points t = [] /\ vs = []) \/
      exists p pts, t_points t = p :: pts /\ hd_error vs = Some (F (fst p)) /\ ls_good H I (fun s => F (ctrial o (fst p) s)) (n_ls o)
  | NEW_X | FINAL_X => hd_error vs = Some (F (t_x t))
  | _ => True
  end.

Lemma ctrial_zero (o : cg SR) (x : SR) : ctrial o x (0 : R) = x.
Proof.
  apply (el_eq H I n). refine (eq_trans (axpby_moved H I n (el x) (el (n_d o)) 0 (el_length _) (el_length _)) _). apply moved_0. rewrite !el_length. reflexivity.
Qed.

Lemma Jdc_step cfg (o : cg SR) t prev cl o' r x' vs : cinv cfg o t -> Jc F G o t prev -> cfair F G prev cl -> cdo o cl = Some (o', (r, x')) ->
  Jdc o t vs -> Jdc o' (tally_step false None t cl r) (match cl with VStart _ => [] | VIterate _ f _ => next_values (t_task t) vs f r end).
Proof.
  intros V J Hf E D. destruct (Jc_step F G cfg o t prev cl o' r x' V J Hf E) as (-> & V1 & J1 & Ls). destruct D as (D1 & D2 & D3 & D4).
  destruct cl as [x|x f g].
  - cbn [cdo cg_start] in E. injection E as <- _ <-. split; [exact D1|]. split; [exact D2|]. split; [constructor|]. left. auto.
  - destruct Hf as (Hx & -> & ->). destruct Ls as (P & Ls). destruct (params_monotone H I _ _ P D1) as [M1 M2].
    assert (Et : n_task o = t_task t) by apply V. 
    unfold Jdc. rewrite M2. split; [exact M1|]. split; [exact D2|].
    pose proof V as (_ & _ & _ & V4 & _ & _ & _ & _ & _ & _ & V0). rewrite <- Et.
    assert (NX : accepted (n_task o) = true -> cg_new_x o x (F x) (G x) = Some (o', x') ->
      Sorted Rlt (next_values (n_task o) vs (F x) (n_task o')) /\
      match n_task o' with
      | COMPUTE_FG => (t_points (tally_step false None t (VIterate x (F x) (G x)) (n_task o')) = [] /\ next_values (n_task o) vs (F x) (n_task o') = []) \/
         exists p pts, t_points (tally_step false None t (VIterate x (F x) (G x)) (n_task o')) = p :: pts /\ hd_error (next_values (n_task o) vs (F x) (n_task o')) = Some (F (fst p)) /\
           ls_good H I (fun s => F (ctrial o' (fst p) s)) (n_ls o')
      | NEW_X | FINAL_X => hd_error (next_values (n_task o) vs (F x) (n_task o')) = Some (F (t_x (tally_step false None t (VIterate x (F x) (G x)) (n_task o'))))
      | _ => True
      end).
    { intros Ac En.
      assert (NV : next_values (n_task o) vs (F x) (n_task o') = vs) by (unfold next_values; destruct (accepted_cases _ Ac) as [X|X]; rewrite X; reflexivity).
      rewrite NV. split; [exact D3|].
      assert (Pv : prev = Some (t_x t)) by (unfold Jc in J; destruct (accepted_cases _ Ac) as [X|X]; rewrite X in J; apply J).
      assert (Hd : hd_error vs = Some (F (t_x t))) by (destruct (accepted_cases _ Ac) as [X|X]; rewrite X in D4; exact D4).
      specialize (Hx _ Pv).
      destruct (new_x_ok cfg o t x (F x) (G x) V Ac) as (o2 & x2 & E2 & _ & Tk & _). rewrite En in E2. injection E2 as <- <-.
      destruct Tk as [Tk|Tk]; rewrite Tk; [|exact Logic.I]. right.
      exists (x, G x), (t_points t). split; [cbn [tally_step]; rewrite <- Et; destruct (accepted_cases _ Ac) as [X|X]; rewrite X; reflexivity|].
      cbn [fst]. split; [rewrite Hx; exact Hd|].
      assert (Ls' : l_task (n_ls o') = LS_SEARCH /\ exists dtg s s1 s2, ls_start (n_ls o) (F x) dtg s s1 s2 = Some (n_ls o')).
      { destruct (accepted_cases _ Ac) as [X|X]; rewrite X in Ls; destruct (Ls Tk) as (L1 & _ & L2); auto. }
      destruct Ls' as (L1 & dtg & s & s1 & s2 & L2). refine (good_start H I _ _ _ _ _ _ _ _ D1 _ L2 L1). cbv beta. rewrite ctrial_zero. reflexivity. }
    cbn [cdo] in E. unfold cg_iterate in E. destruct (n_task o) eqn:Eo.
    + injection E as <- _. split; [exact D3|]. rewrite Eo. exact Logic.I.
    + contradiction.
    + (* evaluation *)
      pose proof (check_ok cfg o t x (F x) (G x) V Eo) as C. destruct (cg_check o x (F x) (G x)) as [o2 x2]. injection E as -> _ ->. destruct C as (_ & _ & C0 & C1).
      unfold Jc in J. rewrite Eo in J. rewrite V4 in Ls.
      assert (Q : t_points t = [] /\ t_evals t = 0%Z /\ vs = [] \/ exists p pts, t_points t = p :: pts /\ prev = Some (ctrial o (fst p) (n_alpha o)) /\ (1 <= t_evals t)%Z /\
        t_f0 t = F (fst p) /\ l_finit (n_ls o) = t_f0 t /\ l_task (n_ls o) = LS_SEARCH /\ l_stp (n_ls o) = n_alpha o /\ hd_error vs = Some (F (fst p)) /\ ls_good H I (fun s => F (ctrial o (fst p) s)) (n_ls o)).
      { destruct V0 as [(W1 & W2 & W3)|((W1 & W2) & (p & pts & W3 & W4) & W5 & W6)].
        - left. split; [exact W3|]. split; [exact W1|]. destruct D4 as [(_ & D4)|(p & pts & D4 & _)]; [exact D4|congruence].
        - right. destruct J as [J|(p' & pts' & Q1 & Q2 & Q3 & Q4 & Q5)]; [congruence|]. rewrite W3 in Q1. injection Q1 as <- <-.
          destruct D4 as [(D4 & _)|(p' & pts' & D4 & D5 & D6)]; [congruence|]. rewrite W3 in D4. injection D4 as <- <-.
          exists p, pts. repeat (split; [assumption|]). split; [apply W4|]. auto 10. }
      destruct Q as [(Q1 & Q2 & ->)|(p & pts & Q1 & Q2 & Q3 & Q4 & Q5 & Q6 & Q7 & Q8 & Q9)].
      * specialize (C0 Q2). unfold next_values. rewrite C0. split; [repeat constructor|].
        destruct (accepted_cases _ C0) as [X|X]; rewrite X; cbn [tally_step]; rewrite <- Et; reflexivity.
      * destruct (Ls Q3) as (L1 & L2 & dtg & s' & L3 & L4 & L5). specialize (Hx _ Q2).
        assert (Fx : F x = (fun s => F (ctrial o (fst p) s)) (l_stp (n_ls o))) by (cbv beta; rewrite Q7, <- Hx; reflexivity).
        rewrite <- Q7 in L3. rewrite Fx in L3. destruct (good_iterate H I _ _ _ _ _ Q9 Q6 L3) as (Gs & _ & _ & _ & _ & Gc & Gw).
        destruct (accepted (n_task o')) eqn:Ac.
        -- unfold next_values. rewrite Ac. split.
           ++ constructor; [exact D3|]. destruct vs as [|v vs]; [constructor|]. constructor. injection Q8 as ->.
              assert (Gi : l_ginit (n_ls o) < 0) by apply Q9.
              refine (eq_ind _ (fun z : R => F x < z) _ _ (eq_trans Q5 Q4)). refine (eq_ind_r (fun z : R => z < l_finit (n_ls o)) _ Fx).
              destruct (L5 eq_refl) as [C3|(C3 & C5)].
              ** destruct (Gc C3) as (Ps & Q). change (num NR) with R in *. pose proof (Rmult_lt_0_compat _ _ D2 Ps). nra.
              ** apply (Gw C3 C5). exact D2.
           ++ destruct (accepted_cases _ Ac) as [X|X]; rewrite X; cbn [tally_step]; rewrite <- Et; reflexivity.
        -- unfold next_values. rewrite Ac. split; [exact D3|]. destruct (n_task o') eqn:Eo'; try discriminate; try exact Logic.I.
           right. exists p, pts. split; [cbn [tally_step]; rewrite <- Et; exact Q1|]. split; [exact Q8|]. destruct (L4 eq_refl) as (L6 & L7). specialize (Gs L6).
           assert (Tp : forall s, ctrial o' (fst p) s = ctrial o (fst p) s) by (intros s; unfold ctrial; rewrite L1; reflexivity).
           destruct Gs as (g1 & g2 & g3 & g4 & g5 & g6). split; [exact g1|]. rewrite Tp. split; [exact g2|]. split; [exact g3|]. split; [exact g4|]. split; [exact g5|].
           destruct (l_method (n_ls o')); auto. unfold cs_good in *. rewrite Tp. exact g6.
    + destruct (cg_new_x o x (F x) (G x)) as [[o2 x2]|] eqn:En; [|discriminate]. injection E as -> _ ->. apply NX; auto.
    + destruct (cg_new_x o x (F x) (G x)) as [[o2 x2]|] eqn:En; [|discriminate]. injection E as -> _ ->. apply NX; auto.
    + contradiction.
Qed.

Lemma Jdc_run cfg cs : forall (o : cg SR) t prev o' rs vs, cinv cfg o t -> Jc F G o t prev -> evaluates F G prev cs rs -> crun o cs = Some (o', rs) ->
  Jdc o t vs -> Jdc o' (count_calls false None t cs rs) (values (N := NR) (t_task t) vs cs rs).
Proof.
  induction cs as [|cl cs IH]; intros o t prev o' rs vs V J Ev E D.
  - injection E as <- <-. exact D.
  - cbn [crun] in E. destruct (cdo o cl) as [[o1 [r x1]]|] eqn:E1; [|discriminate]. destruct (crun o1 cs) as [[o2 rs2]|] eqn:E2; [|discriminate]. injection E as <- <-.
    assert (Hf : cfair F G prev cl /\ evaluates F G (Some x1) cs rs2).
    { destruct cl; cbn [evaluates] in Ev; [split; [exact Logic.I|exact Ev]|]. destruct Ev as (Q1 & Q2 & Q3 & Q4). repeat split; auto. }
    destruct Hf as [Hf Ev1].
    destruct (Jc_step F G cfg o t prev cl o1 r x1 V J Hf E1) as (Er & V1 & J1 & _).
    pose proof (Jdc_step cfg o t prev cl o1 r x1 vs V J Hf E1 D) as D1.
    specialize (IH o1 _ (Some x1) o2 rs2 _ V1 J1 Ev1 E2 D1). rewrite step_task in IH. cbn [count_calls]. destruct cl; exact IH.
Qed.

(** ** Published formulas *)
Notation ip_lin := (ip_lin n).
Lemma opp_length d : length d = n -> length (opposite d) = n.
Proof. unfold opposite. rewrite map_length. auto. Qed.
Lemma ip_opp (d y : list R) : ip (opposite d) y = - ip d y.
Proof. unfold ip, opposite. revert y. induction d as [|u d IH]; intros [|v y]; unfold map2 in *; simpl; try ring. rewrite IH. ring. Qed.
Lemma axpby_el (a b : R) (u v : SR) : el (vaxpby (a : NR) u (b : NR) v) = lin a (el u) b (el v).
Proof. exact (l_axpby_R H I n a b (el u) (el v) (el_length _) (el_length _)). Qed.
Lemma axpbypcz_el (a b e : R) (u v w : SR) : el (vaxpbypcz (a : NR) u (b : NR) v (e : NR) w) = lin 1 (lin a (el u) b (el v)) e (el w).
Proof.
  refine (eq_trans (lc3_R H I a (el u) b (el v) e (el w) n (el_length _) (el_length _) (el_length _)) _).
  apply list_eq_nth_error. intros i. unfold lin, map3. rewrite !map2_nth_error, combine_nth_error.
  destruct (nth_error (el u) i), (nth_error (el v) i), (nth_error (el w) i); auto. f_equal. simpl. ring.
Qed.
Lemma opp_lin a x b d : opposite (lin a x b d) = lin (- a) x b (opposite d).
Proof.
  apply list_eq_nth_error. intros i. unfold opposite, lin. rewrite nth_error_map, !map2_nth_error, nth_error_map.
  destruct (nth_error x i), (nth_error d i); simpl; auto. f_equal. ring.
Qed.
Lemma opp_lin2 a x b d e y : opposite (lin 1 (lin a x b d) e y) = lin 1 (lin (- a) x b (opposite d)) (- e) y.
Proof.
  apply list_eq_nth_error. intros i. unfold opposite, lin. rewrite nth_error_map, !map2_nth_error, nth_error_map.
  destruct (nth_error x i), (nth_error d i), (nth_error y i); simpl; auto. f_equal. ring.
Qed.

Definition clip (powell : bool) (beta : R) : R := if powell then Rmax beta 0 else beta.
Definition along (p g : list R) (beta : R) : option (R * list R) := if Req_EM_T beta 0 then None else Some (beta, lin (-1) g beta p).
(** The outcome of an update. *)
Definition outcome (r : option (cg SR * bool)) (e : option (R * list R)) : Prop :=
  exists o1 s, r = Some (o1, s) /\ match e with Some (b, q) => s = true /\ (n_beta o1 : R) = b /\ opposite (el (n_d o1)) = q | None => s = false end.

Lemma update0_out (o : cg SR) (g : SR) (beta : R) : outcome (Some (update0 o g beta)) (along (opposite (el (n_d o))) (el g) beta).
Proof.
  unfold outcome, update0, along. change (neq (beta : NR) (nZ 0)) with (Req_bool beta 0).
  destruct (Req_bool_spec beta 0) as [E|E], (Req_EM_T beta 0) as [E'|E']; try contradiction; try (contradiction E; fail).
  - eexists _, _. split; [reflexivity|reflexivity].
  - eexists _, _. split; [reflexivity|]. split; [reflexivity|]. split; [reflexivity|]. cbn [n_d nset_d]. rewrite axpby_el, opp_lin. reflexivity.
Qed.
Lemma update1_out (o : cg SR) (g : SR) (beta : R) :
  outcome (Some (update1 o g beta)) (along (opposite (el (n_d o))) (el g) (clip (has_flag (k_flags (n_cfg o)) NLCG_POWELL) beta)).
Proof.
  unfold update1. cbv zeta. change (nlt (beta : NR) (nZ 0)) with (Rlt_bool beta 0).
  assert (E : (if has_flag (k_flags (n_cfg o)) NLCG_POWELL && Rlt_bool beta 0 then nZ 0 else (beta : NR)) = clip (has_flag (k_flags (n_cfg o)) NLCG_POWELL) beta).
  { unfold clip. destruct (has_flag _ _); [|reflexivity]. unfold Rmax. destruct (Rlt_bool_spec beta 0), (Rle_dec beta 0); simpl; try reflexivity; try lra. }
  rewrite E. apply update0_out.
Qed.

(** The values known by the optimizer when it computes a direction from an accepted point. *)
Record known (o : cg SR) (g0 g : SR) : Prop := {
  kn_g0 : needs_g0 (k_rule (n_cfg o)) = true -> n_g0 o = Some g0;
  kn_y : needs_g0 (k_rule (n_cfg o)) = true -> n_y o <> None;
  kn_gnorm : (n_gnorm o : R) = sqrt (ip (el g) (el g));
  kn_g0norm : (n_g0norm o : R) = sqrt (ip (el g0) (el g0));
  kn_g0pos : 0 < ip (el g0) (el g0);
  kn_dtg0 : (n_dtg0 o : R) = ip (opposite (el (n_d o))) (el g0);
  kn_dtg0neg : (n_dtg0 o : R) < 0;
  kn_dtg : (n_dtg o : R) = ip (opposite (el (n_d o))) (el g);
  kn_hz : k_hz_orig (n_cfg o) = false
}.

Definition rule_number (r : rule) : Z :=
  match r with FLETCHER_REEVES => 1 | HESTENES_STIEFEL => 2 | POLAK_RIBIERE_POLYAK => 3 | FLETCHER => 4 | LIU_STOREY => 5 | DAI_YUAN => 6 | PERRY_SHANNO => 7 | HAGER_ZHANG => 8 end%Z.
Lemma rule_of_number fl r : rule_of fl = Some r -> Z.land fl 255 = rule_number r.
Proof.
  unfold rule_of. generalize (Z.land fl 255). intros z. destruct z as [|z|z]; try discriminate.
  do 4 (destruct z as [z|z|]; try discriminate; try (injection 1 as <-; reflexivity)).
Qed.

Lemma outcome_ext r e e' : e = e' -> outcome r e -> outcome r e'. Proof. intros ->. auto. Qed.
Lemma sq_sqrt a : 0 <= a -> sqrt a * sqrt a = a. Proof. apply sqrt_sqrt. Qed.
Lemma yy_zero (y p : list R) : length y = n -> length p = n -> ip y y = 0 -> ip p y = 0.
Proof. intros Hy Hp E. apply (ip_zero n) in E; [|exact Hy]. subst y. apply (ip_zeros n). exact Hp. Qed.

Lemma zero_clip (powell : bool) (p g : list R) :
  (if Req_EM_T (if powell then Rmax 0 0 else 0) 0 then None else Some (if powell then Rmax 0 0 else 0, lin (-1) g (if powell then Rmax 0 0 else 0) p)) = None.
Proof. assert (E : (if powell then Rmax 0 0 else 0) = 0) by (destruct powell; [apply Rmax_left; lra|reflexivity]). rewrite E. destruct (Req_EM_T 0 0); [reflexivity|contradiction]. Qed.

Lemma update_out (o : cg SR) g0 g : known o g0 g ->
  outcome (cg_update o g) (conjugate (rule_number (k_rule (n_cfg o))) (has_flag (k_flags (n_cfg o)) NLCG_POWELL) (opposite (el (n_d o))) (el g0) (el g)).
Proof.
  intros [K1 K2 K3 K4 K5 K6 K7 K8 K9].
  set (p := opposite (el (n_d o))) in *. set (y := lin 1 (el g) (-1) (el g0)).
  assert (Lp : length p = n) by (apply opp_length, el_length). assert (Ly : length y = n) by (apply lin_length; apply el_length).
  assert (Lg : length (el g) = n) by apply el_length.
  set (yv := vaxpby (nZ 1 : NR) g (nZ (-1) : NR) g0 : SR).
  assert (Ey : el yv = y) by (unfold yv; exact (axpby_el 1 (-1) g g0)).
  assert (Fy : needs_g0 (k_rule (n_cfg o)) = true -> form_y o g = Some (nset_y o yv, yv)).
  { intros X. unfold form_y. rewrite (K1 X). specialize (K2 X). destruct (n_y o); [reflexivity|congruence]. }
  assert (Egy : (vdot g yv : R) = ip (el g) y) by (rewrite vdot_el, Ey; reflexivity).
  assert (Edy : (- vdot (n_d o) yv : R) = ip p y) by (unfold p; rewrite ip_opp, vdot_el, Ey; reflexivity).
  assert (Eyy : (vdot yv yv : R) = ip y y) by (rewrite vdot_el, Ey; reflexivity).
  assert (Enn : (vnorm2 yv : R) * (vnorm2 yv : R) = ip y y) by (rewrite norm2_el, Ey; unfold nrm; apply sq_sqrt, ip_pos).
  assert (Sg : (n_gnorm o : R) * (n_gnorm o : R) = ip (el g) (el g)) by (rewrite K3; apply sq_sqrt, ip_pos).
  assert (Sg0 : (n_g0norm o : R) * (n_g0norm o : R) = ip (el g0) (el g0)) by (rewrite K4; apply sq_sqrt, ip_pos).
  assert (Ng0 : (n_g0norm o : R) <> 0) by (intros X; rewrite X in Sg0; lra).
  change (num NR) with R in *.
  unfold cg_update. destruct (k_rule (n_cfg o)) eqn:Er; cbn [rule_number needs_g0] in *.
  - (* FR *) unfold update_Fletcher_Reeves. cbv zeta. refine (outcome_ext _ _ _ _ (update0_out o g _)). unfold conjugate. fold p. unfold along. 
    replace ((n_gnorm o / n_g0norm o * (n_gnorm o / n_g0norm o))%num : R) with (ip (el g) (el g) / ip (el g0) (el g0)); [reflexivity|].
    simpl. rewrite <- Sg, <- Sg0. field. exact Ng0.
  - (* HS *) unfold update_Hestenes_Stiefel. rewrite (Fy eq_refl). cbv zeta. refine (outcome_ext _ _ _ _ (update1_out (nset_y o yv) g _)).
    cbn [n_d n_cfg nset_y]. fold p. unfold conjugate. fold y. unfold clip, along. change (neq (- vdot (n_d o) yv)%num (nZ 0 : NR)) with (Req_bool (- vdot (n_d o) yv) 0).
    change (ndiv (vdot g yv) (nopp (vdot (n_d o) yv))) with ((vdot g yv : R) / (- vdot (n_d o) yv : R)). change (num NR) with R in *. rewrite Edy, Egy.
    destruct (Req_bool_spec (ip p y) 0) as [E|E], (Req_EM_T (ip p y) 0) as [E'|E']; try contradiction; cbn [negb]; [|reflexivity].
    change (nZ 0 : NR) with 0. apply zero_clip.
  - (* PRP *) unfold update_Polak_Ribiere_Polyak. rewrite (Fy eq_refl). cbv zeta. refine (outcome_ext _ _ _ _ (update1_out (nset_y o yv) g _)).
    cbn [n_d n_cfg nset_y n_g0norm]. fold p. unfold conjugate. fold y. unfold clip, along.
    replace ((vdot g yv / n_g0norm o / n_g0norm o)%num : R) with (ip (el g) y / ip (el g0) (el g0)); [reflexivity|].
    simpl. change (num NR) with R in *. rewrite <- Sg0, <- Egy. simpl. field. exact Ng0.
  - (* CD *) unfold update_Fletcher. cbv zeta. refine (outcome_ext _ _ _ _ (update0_out o g _)). unfold conjugate. fold p. unfold along.
    replace ((- n_gnorm o * (n_gnorm o / n_dtg0 o))%num : R) with (- ip (el g) (el g) / ip p (el g0)); [reflexivity|].
    simpl. change (num NR) with R in *. rewrite <- Sg, <- K6. field. lra.
  - (* LS *) unfold update_Liu_Storey. rewrite (Fy eq_refl). cbv zeta. refine (outcome_ext _ _ _ _ (update1_out (nset_y o yv) g _)).
    cbn [n_d n_cfg nset_y n_dtg0]. fold p. unfold conjugate. fold y. unfold clip, along.
    replace ((- vdot g yv / n_dtg0 o)%num : R) with (- ip (el g) y / ip p (el g0)); [reflexivity|].
    change (- ip (el g) y / ip p (el g0) = - (vdot g yv : R) / (n_dtg0 o : R)). change (num NR) with R in *. rewrite <- Egy, <- K6. reflexivity.
  - (* DY *) unfold update_Dai_Yuan. rewrite (Fy eq_refl). cbv zeta. refine (outcome_ext _ _ _ _ (update1_out (nset_y o yv) g _)).
    cbn [n_d n_cfg nset_y n_gnorm]. fold p. unfold conjugate. fold y. unfold clip, along. change (neq (- vdot (n_d o) yv)%num (nZ 0 : NR)) with (Req_bool (- vdot (n_d o) yv) 0).
    change (nmul (n_gnorm o) (ndiv (n_gnorm o) (nopp (vdot (n_d o) yv)))) with ((n_gnorm o : R) * ((n_gnorm o : R) / (- vdot (n_d o) yv : R))). change (num NR) with R in *. rewrite Edy.
    destruct (Req_bool_spec (ip p y) 0) as [E|E], (Req_EM_T (ip p y) 0) as [E'|E']; try contradiction; cbn [negb]; [change (nZ 0 : NR) with 0; apply zero_clip|].
    replace (n_gnorm o * (n_gnorm o / ip p y)) with (ip (el g) (el g) / ip p y); [reflexivity|]. rewrite <- Sg. field. exact E.
  - (* PS *) unfold update_Perry_Shanno. rewrite (Fy eq_refl). cbv zeta. unfold conjugate. fold y.
    change (nle (vdot yv yv) (nZ 0 : NR)) with (Rle_bool (vdot yv yv) 0). change (neq (- vdot (n_d (nset_y o yv)) yv)%num (nZ 0 : NR)) with (Req_bool (- vdot (n_d o) yv) 0).
    change (num NR) with R in *. rewrite Edy, Eyy.
    destruct (Rle_bool_spec (ip y y) 0) as [C|C].
    { assert (Z : ip y y = 0) by (pose proof (ip_pos y); lra). pose proof (yy_zero y p Ly Lp Z) as Z2.
      destruct (Req_EM_T (ip p y) 0); [|contradiction]. eexists _, _. split; reflexivity. }
    destruct (Req_bool_spec (ip p y) 0) as [E|E], (Req_EM_T (ip p y) 0) as [E'|E']; try contradiction; [eexists _, _; split; reflexivity|].
    eexists _, _. split; [reflexivity|]. split; [reflexivity|].
    cbn [n_d n_beta nset_d nset_y n_dtg]. 
    set (c1 := ((- vdot (n_d o) yv) / (ip y y : NR))%num : R). set (c2 := (vdot g yv / (ip y y : NR) - nZ 2 * n_dtg o / (- vdot (n_d o) yv))%num : R). set (c3 := (- n_dtg o / (ip y y : NR))%num : R).
    assert (C1 : c1 = ip p y / ip y y) by (unfold c1; change ((- (vdot (n_d o) yv : R)) / ip y y = ip p y / ip y y); change (num NR) with R in *; rewrite Edy; reflexivity).
    assert (C2 : c2 = ip (el g) y / ip y y - 2 * ip p (el g) / ip p y).
    { unfold c2. change ((vdot g yv : R) / ip y y - 2 * (n_dtg o : R) / (- (vdot (n_d o) yv : R)) = ip (el g) y / ip y y - 2 * ip p (el g) / ip p y).
      change (num NR) with R in *. rewrite Edy, Egy, K8. reflexivity. }
    assert (C3 : c3 = - (ip p (el g) / ip y y)).
    { unfold c3. change (- (n_dtg o : R) / ip y y = - (ip p (el g) / ip y y)). change (num NR) with R in *. rewrite K8. field. lra. }
    split.
    + change (c2 / c1 = ip (el g) y / ip p y - 2 * (ip y y / ip p y) * (ip p (el g) / ip p y)). rewrite C1, C2. field. lra.
    + refine (eq_trans (f_equal opposite (axpbypcz_el c1 c2 c3 g (n_d o) yv)) _). rewrite opp_lin2, Ey, C1, C2, C3, Ropp_involutive. reflexivity.
  - (* HZ *) unfold update_Hager_Zhang. rewrite (Fy eq_refl). cbv zeta. unfold conjugate. fold y. cbn [n_cfg nset_y]. rewrite K9.
    change (neq (- vdot (n_d (nset_y o yv)) yv)%num (nZ 0 : NR)) with (Req_bool (- vdot (n_d o) yv) 0).
    assert (Ed : Req_bool (- vdot (n_d o) yv) 0 = Req_bool (ip p y) 0) by (change (num NR) with R in *; rewrite Edy; reflexivity). rewrite Ed.
    destruct (Req_bool_spec (ip p y) 0) as [E|E], (Req_EM_T (ip p y) 0) as [E'|E']; try contradiction; cbn [negb].
    + refine (outcome_ext _ _ _ _ (update1_out (nset_y o yv) g 0)). unfold along, clip. apply zero_clip.
    + refine (outcome_ext _ _ _ _ (update1_out (nset_y o yv) g _)). cbn [n_d n_cfg nset_y n_dtg]. fold p. unfold along, clip.
      match goal with |- context [Rmax ?b 0] => assert (Eb : b = ip (lin 1 y (- (2 * (ip y y / ip p y))) p) (el g) / ip p y) end.
      { change (((vdot yv g : R) - 2 * ((vnorm2 yv : R) / (- (vdot (n_d o) yv : R))) * (vnorm2 yv : R) * (n_dtg o : R)) / (- (vdot (n_d o) yv : R)) = ip (lin 1 y (- (2 * (ip y y / ip p y))) p) (el g) / ip p y).
        assert (Eyg : (vdot yv g : R) = ip y (el g)) by (rewrite vdot_el, Ey; reflexivity).
        change (num NR) with R in *. rewrite Edy, Eyg, K8, (ip_lin _ _ y p (el g) Ly Lp Lg). f_equal. rewrite <- Enn. field. exact E. }
      rewrite Eb. reflexivity.
Qed.

(** ** The direction of the next search *)
Definition cflags (opts : option (cgopts NR)) : Z := if (q_flags (the_cgopts opts) =? 0)%Z then 771 else q_flags (the_cgopts opts).

Lemma flag_bit fl k : (0 <= k)%Z -> has_flag fl (2 ^ k) = Z.testbit fl k.
Proof.
  intros Hk. unfold has_flag. assert (E : Z.land fl (2 ^ k) = if Z.testbit fl k then (2 ^ k)%Z else 0%Z).
  { apply Z.bits_inj'. intros i Hi. rewrite Z.land_spec, Z.pow2_bits_eqb by lia. destruct (Z.eqb_spec k i) as [<-|Hn].
    - rewrite andb_true_r. destruct (Z.testbit fl k); [rewrite Z.pow2_bits_true by lia; reflexivity|rewrite Z.bits_0; reflexivity].
    - rewrite andb_false_r. destruct (Z.testbit fl k); [rewrite Z.pow2_bits_false by lia; reflexivity|rewrite Z.bits_0; reflexivity]. }
  rewrite E. destruct (Z.testbit fl k); [apply Z.eqb_refl|]. apply Z.eqb_neq. pose proof (Z.pow_pos_nonneg 2 k). lia.
Qed.

Lemma csaved_slope (o : cg SR) t p : csaved o t p -> (n_g0norm o : R) = vnorm2 (snd p) ->
  (n_dtg0 o : R) = ip (opposite (el (n_d o))) (el (snd p)) /\ (n_dtg0 o : R) < 0.
Proof.
  intros (_ & _ & _ & _ & C5 & _ & _ & C8) Hn. split.
  - destruct C8 as [C8|[(C8 & C9)|C8]].
    + refine (eq_trans C8 _). rewrite ip_opp, <- vdot_el. reflexivity.
    + refine (eq_trans C9 _). change (- (n_g0norm o : R) * (n_g0norm o : R) = ip (opposite (el (n_d o))) (el (snd p))). rewrite ip_opp, C8, Hn, norm2_el.
      rewrite <- Ropp_mult_distr_l. f_equal. unfold nrm. apply sq_sqrt, ip_pos.
    + exfalso. change (Rlt_bool 0 0 = true) in C8. destruct (Rlt_bool_spec 0 0); [lra|discriminate].
  - change (Rle_bool 0 (n_dtg0 o) = false) in C5. destruct (Rle_bool_spec 0 (n_dtg0 o)); [discriminate|assumption].
Qed.

Lemma ip_pos_of (u v : list R) : length u = n -> length v = n -> ip u v <> 0 -> 0 < ip v v.
Proof. intros Hu Hv Hne. destruct (Req_dec (ip v v) 0) as [E|E]; [|pose proof (ip_pos v); lra]. contradiction Hne. apply yy_zero; auto. Qed.

Lemma known_of cfg (o : cg SR) t p pts : cinv cfg o t -> Jc F G o t (Some (t_x t)) -> accepted (n_task o) = true -> t_points t = p :: pts -> k_hz_orig cfg = false ->
  known o (snd p) (t_g t).
Proof.
  intros V J Ac Ep Hz. destruct V as (V1 & _ & _ & _ & _ & _ & _ & V8 & V9 & _ & V).
  assert (W : csaved o t p /\ n_dtg o = (- vdot (n_d o) (t_g t))%num /\ n_gnorm o = vnorm2 (t_g t)).
  { destruct (accepted_cases _ Ac) as [X|X]; rewrite X in V; destruct V as (_ & [(_ & Q)|(_ & p' & pts' & Q1 & Q2 & Q3)] & Q4 & _); try congruence;
      rewrite Ep in Q1; injection Q1 as <- <-; auto. }
  destruct W as (W1 & W2 & W3).
  assert (W4 : n_g0norm o = vnorm2 (snd p)).
  { unfold Jc in J. destruct (accepted_cases _ Ac) as [X|X]; rewrite X in J; destruct J as (_ & _ & [J|(p' & pts' & s & J1 & J2 & J3 & _)]); try congruence; rewrite Ep in J1; injection J1 as <- <-; exact J3. }
  destruct (csaved_slope o t p W1 W4) as (S1 & S2). destruct W1 as (_ & C2 & _).
  rewrite V1 in C2. constructor.
  - rewrite V1. intros X. rewrite X in C2. exact C2.
  - rewrite V1. intros X. unfold opt_needs in V9. rewrite X in V9. exact V9.
  - rewrite W3. exact (norm2_el H I n (t_g t)).
  - rewrite W4. exact (norm2_el H I n (snd p)).
  - apply (ip_pos_of (opposite (el (n_d o)))); [apply opp_length, el_length|apply el_length|]. lra.
  - exact S1.
  - exact S2.
  - rewrite W2, ip_opp, <- vdot_el. reflexivity.
  - rewrite V1. exact Hz.
Qed.

Lemma first_step_value (o : cg SR) (x g : SR) (f : R) : k_fmin_given (n_cfg o) = false -> (n_gnorm o : R) = sqrt (ip (el g) (el g)) ->
  (first_step o x f : R) = steepest_step (k_delta (n_cfg o)) f (el x) (el g).
Proof.
  intros Hf Hg. unfold first_step, steepest_step. rewrite Hf. cbn [andb]. change (neq (f : NR) (nZ 0)) with (Req_bool f 0).
  destruct (Req_bool_spec f 0) as [E|E], (Req_EM_T f 0) as [E'|E']; try contradiction; cbn [negb].
  - change (nlt (nZ 0) (vnorm2 x)) with (Rlt_bool 0 (vnorm2 x)). pose proof (norm2_el H I n x) as Nx. unfold nrm in Nx. change (num NR) with R in *. rewrite Nx.
    pose proof (sqrt_pos (ip (el x) (el x))). destruct (Rlt_bool_spec 0 (sqrt (ip (el x) (el x)))) as [C|C], (Req_EM_T (sqrt (ip (el x) (el x))) 0) as [C'|C']; try lra.
    + change ((k_delta (n_cfg o) : R) * sqrt (ip (el x) (el x)) / (n_gnorm o : R) = k_delta (n_cfg o) * sqrt (ip (el x) (el x)) / sqrt (ip (el g) (el g))). change (num NR) with R in *. rewrite Hg. reflexivity.
    + change ((k_delta (n_cfg o) : R) / (n_gnorm o : R) = k_delta (n_cfg o) / sqrt (ip (el g) (el g))). change (num NR) with R in *. rewrite Hg. reflexivity.
  - change (2 * Rabs (f / (- (n_gnorm o : R) * (n_gnorm o : R))) = 2 * Rabs (f / ip (el g) (el g))). f_equal.
    assert (Sg : (n_gnorm o : R) * (n_gnorm o : R) = ip (el g) (el g)) by (rewrite Hg; apply sq_sqrt, ip_pos). change (num NR) with R in *.
    rewrite <- Ropp_mult_distr_l, Sg. unfold Rdiv. rewrite Rinv_opp, <- Ropp_mult_distr_r, Rabs_Ropp. reflexivity.
Qed.

Lemma sufficient_bool eps (d g : list R) : length d = n -> length g = n ->
  sufficient eps (opposite d) g <-> (- ip d g < 0 /\ Rlt_bool 0 eps && Rlt_bool (- eps * sqrt (ip d d) * sqrt (ip g g)) (- ip d g) = false).
Proof.
  intros Ld Lg. unfold sufficient. rewrite !ip_opp.
  assert (Edd : - ip d (opposite d) = ip d d) by (rewrite (ip_sym d), ip_opp; ring). rewrite Edd.
  destruct (Rlt_bool_spec 0 eps) as [C|C], (Rlt_bool_spec (- eps * sqrt (ip d d) * sqrt (ip g g)) (- ip d g)) as [C'|C']; cbn [andb];
    (split; intros (A & B); (split; [exact A|])); try reflexivity; try discriminate; try lra.
Qed.

(** The state after a call that starts a line search. *)
Lemma new_x_value cfg (o : cg SR) t x (f : R) (g : SR) o'' x' : cinv cfg o t -> accepted (n_task o) = true ->
  cg_new_x o x (f : NR) g = Some (o'', x') -> n_task o'' = COMPUTE_FG ->
  elts x' = lin 1 (el x) (n_alpha o'') (opposite (el (n_d o''))) /\
  exists o2, n_d o'' = n_d o2 /\ n_beta o'' = n_beta o2 /\ n_alpha o'' = n_alpha o2 /\ n_restarts o'' = n_restarts o2 /\ (updated o o2 g \/ restarted o o2 x f g).
Proof.
  intros (V1 & V2 & V3 & V4 & V5 & V6 & V7 & V8 & V9 & _) At E Tk. rewrite <- V1 in V8, V9.
  destruct (new_x_form o x (f : NR) g V8 V9 V2) as (o2 & l & (A1 & A2 & A3 & A4 & A5 & A6 & A7 & A8 & A9 & A10 & A11 & A12) & M & Es & Il & E').
  rewrite E in E'. assert (M' : updated o o2 g \/ restarted o o2 x f g).
  { destruct M as [M|[M|(M & _)]]; [auto|auto|]. exfalso. change (Rlt_bool 0 0 = true) in M. destruct (Rlt_bool_spec 0 0); [lra|discriminate]. }
  destruct (l_task l); unfold cg_trial in E'; injection E' as -> ->; try discriminate Tk.
  cbn [n_d n_beta n_alpha n_restarts nsuccess nset_task nset_ls]. split.
  - rewrite A3. refine (eq_trans (axpby_el 1 (- n_alpha o2) x (n_d o2)) _). unfold lin, opposite. apply list_eq_nth_error. intros i. rewrite !map2_nth_error, nth_error_map.
    destruct (nth_error (el x) i), (nth_error (el (n_d o2)) i); simpl; auto. f_equal. simpl. ring.
  - exists o2. cbn [n_x0 n_d]. auto 10.
Qed.
End Real.
