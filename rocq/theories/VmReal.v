(** * The quasi-Newton optimizer in exact arithmetic: feasibility, descent *)
From Coq Require Import List ZArith Bool Arith Lia Reals Lra Sorted.
From Flocq Require Import Core.
From Verif Require Import Num NumFacts OrdFacts ListFacts VecModel VecProofs Base LsModel LsSpec LsProofs LsOrd LsReal LsDescent
  BoxSpec BoxProofs BoxRProofs OptSpace VmModel VmSpec VmProofs VmRealSpec.
Import ListNotations.
Local Open Scope R_scope.

Section Lists.
Variables H I : R.
Notation NR := (NumR H I).
Notation c := (cast_id NR).

Lemma real_is_num (z : R) : is_num (z : NR).
Proof. unfold is_num. simpl. apply Req_bool_true. reflexivity. Qed.

(** The free variables select the projected direction. *)
Lemma free_opt_dir (lo hi : option R) (xi di : R) :
  (free_opt (E := NR) false lo hi xi di : R) * di = dir_opt (E := NR) false lo hi xi di /\
  (free_opt (E := NR) false lo hi xi di = 0 \/ free_opt (E := NR) false lo hi xi di = 1).
Proof.
  unfold free_opt, dir_opt, free_lower, free_upper, free_boxed, dir_lower, dir_upper, dir_boxed.
  destruct lo as [a|], hi as [b|]; simpl;
  repeat match goal with
   | |- context[Rlt_bool ?x ?y] => destruct (Rlt_bool_spec x y)
   | |- context[Rle_bool ?x ?y] => destruct (Rle_bool_spec x y) end; cbn [orb]; (split; [lra|auto]).
Qed.

Lemma free_product lo hi (x g : list R) : length g = length x -> bound_size (length x) lo -> bound_size (length x) hi ->
  map2 Rmult (k_boxfreevar c false lo hi (x : list NR) (g : list NR)) g = k_boxprojdir c false lo hi (x : list NR) (g : list NR).
Proof.
  intros L Hlo Hhi. apply list_eq_nth_error. intros i. rewrite map2_nth_error.
  pose proof (freevar_nth c false lo hi (x : list NR) (g : list NR) i L Hlo Hhi) as E1.
  pose proof (projdir_nth c false lo hi (x : list NR) (g : list NR) i L Hlo Hhi) as E2.
  change (num NR) with R in *. rewrite E1, E2. destruct (nth_error x i) as [xi|], (nth_error g i) as [gi|]; auto.
  f_equal. apply free_opt_dir.
Qed.

Lemma l_axpby_R n (a b : R) (x y : list R) : length x = n -> length y = n ->
  l_axpby c n (a : NR) (x : list NR) (b : NR) (y : list NR) = map2 (fun u v => a * u + b * v) x y.
Proof.
  intros Hx Hy. unfold l_axpby, k_fill, k_scale, k_axpby. simpl. change (num NR) with R. apply list_eq_nth_error. intros i. rewrite map2_nth_error.
  destruct (Nat.lt_ge_cases i n) as [Hi|Hi].
  - destruct (nth_error_Some_ex x i) as (u & Eu); [lia|]. destruct (nth_error_Some_ex y i) as (v & Ev); [lia|]. rewrite Eu, Ev.
    destruct (Req_bool_spec a 0) as [Ea|Ea], (Req_bool_spec b 0) as [Eb|Eb].
    + rewrite nth_error_repeat by lia. f_equal. subst. simpl. rewrite (e_fill_0 H I). change (num NR) with R. ring.
    + rewrite nth_error_map, Ev. simpl. unfold e_scale. simpl. f_equal. subst. change (num NR) with R. ring.
    + rewrite nth_error_map, Eu. simpl. unfold e_scale. simpl. f_equal. subst. change (num NR) with R. ring.
    + rewrite map2_nth_error, Eu, Ev. f_equal. apply (e_axpby_R H I).
  - assert (Eu : nth_error x i = None) by (apply nth_error_None; lia). rewrite Eu.
    apply nth_error_None. destruct (Req_bool _ _), (Req_bool _ _); rewrite ?repeat_length, ?map_length, ?(map2_length _ x y n); auto; lia.
Qed.

Lemma l_scale_R n (a : R) (x : list R) : length x = n -> l_scale c n (a : NR) (x : list NR) = map (Rmult a) x.
Proof.
  intros Hx. unfold l_scale, k_fill, k_scale. simpl. change (num NR) with R. apply list_eq_nth_error. intros i. rewrite nth_error_map.
  destruct (Nat.lt_ge_cases i n) as [Hi|Hi].
  - destruct (nth_error_Some_ex x i) as (u & Eu); [lia|]. rewrite Eu.
    destruct (Req_bool_spec a 1) as [Ea|Ea]; [rewrite Eu; simpl; f_equal; subst; change (num NR) with R; ring|].
    destruct (Req_bool_spec a 0) as [Eb|Eb]; [rewrite nth_error_repeat by lia; simpl; f_equal; subst; rewrite (e_fill_0 H I); change (num NR) with R; ring|].
    rewrite nth_error_map, Eu. reflexivity.
  - assert (Eu : nth_error x i = None) by (apply nth_error_None; lia). rewrite Eu.
    apply nth_error_None. destruct (Req_bool _ _); [lia|]. destruct (Req_bool _ _); rewrite ?repeat_length, ?map_length; lia.
Qed.

Lemma axpby_moved n (x d : list R) (s : R) : length x = n -> length d = n ->
  l_axpby c n (1 : NR) (x : list NR) (- s : NR) (d : list NR) = moved false s x d.
Proof.
  intros Hx Hd. rewrite l_axpby_R by assumption. unfold moved. apply list_eq_nth_error. intros i. rewrite !map2_nth_error.
  destruct (nth_error x i), (nth_error d i); auto. f_equal. unfold sgn. ring.
Qed.
Lemma moved_0 (x d : list R) : length d = length x -> moved false 0 x d = x.
Proof.
  intros L. apply list_eq_nth_error. intros i. unfold moved. rewrite map2_nth_error. destruct (nth_error x i) as [xi|] eqn:E.
  - destruct (nth_error_Some_ex d i) as (di & ->); [apply nth_error_lt in E; lia|]. f_equal. ring.
  - reflexivity.
Qed.

(** The projection of a feasible point is the point itself. *)
Lemma projvar_feasible lo hi (x : list R) : good_box c (length x) lo hi -> feasible c lo hi (x : list NR) ->
  k_boxprojvar c lo hi (x : list NR) = x.
Proof.
  intros Hb Hf. pose proof (project_variables_spec c (OrdR H I) lo hi (x : list NR) Hb (fun _ xi _ => real_is_num xi)) as (L & _ & _ & P).
  apply list_eq_nth_error. intros i. change (num NR) with R in *. destruct (nth_error x i) as [xi|] eqn:E.
  - destruct (nth_error_Some_ex (k_boxprojvar c lo hi (x : list NR)) i) as (pi & Ep); [change (num NR) with R; rewrite L; eapply nth_error_lt; eauto|].
    change (num NR) with R in Ep. rewrite Ep. f_equal. destruct (P i xi pi E Ep) as (Q & _). apply Q. exact (Hf i xi E).
  - apply nth_error_None. rewrite L. apply nth_error_None. exact E.
Qed.
Lemma projvar_good lo hi (x : list R) : good_box c (length x) lo hi -> feasible c lo hi (k_boxprojvar c lo hi (x : list NR)).
Proof. intros Hb. apply (project_variables_spec c (OrdR H I) lo hi (x : list NR) Hb (fun _ xi _ => real_is_num xi)). Qed.

(** A trial point is feasible: projected, or with a step smaller than the limit. *)
Lemma trial_feasible lo hi (x d d0 : list R) (s bs s1 s3 : R) :
  0 < H -> good_box c (length x) lo hi -> length d0 = length x -> feasible c lo hi (x : list NR) ->
  d = k_boxprojdir c false lo hi (x : list NR) (d0 : list NR) ->
  k_boxsteplim c false lo hi (x : list NR) (d : list NR) = (s1, bs, s3) -> 0 <= s ->
  let y := if Rlt_bool bs s then k_boxprojvar c lo hi (moved false s x d : list NR) else moved false s x d in
  feasible c lo hi (y : list NR).
Proof.
  intros HH Hb L Hf Ed Hk Hs. destruct Hb as (Slo & Shi & Hb').
  assert (Ld : length d = length x) by (rewrite Ed; apply (projdir_length c false lo hi (x : list NR) (d0 : list NR)); auto).
  destruct (step_limits_spec' H I false lo hi x d HH Ld Slo Shi Hf s1 bs s3 Hk) as (S1 & S2 & S3 & _ & _ & _ & _ & S4).
  cbv zeta. destruct (Rlt_bool_spec bs s) as [C|C].
  - apply projvar_good. rewrite moved_length by auto. repeat split; auto; apply Hb'.
  - apply S3. rewrite (S4 d0 L Ed). lra.
Qed.

Lemma dot_product_R (w g : list R) : rsum (map3 (fun a b e => a * b * e) w g g) = rsum (map2 Rmult (map2 Rmult w g) g).
Proof.
  f_equal. apply list_eq_nth_error. intros i. unfold map3. rewrite !map2_nth_error, combine_nth_error.
  destruct (nth_error w i), (nth_error g i); reflexivity.
Qed.
End Lists.

(** ** What an iteration does to the line search *)
Section Frame.
Context {N : Num} {S : Space N}.
Implicit Types (o : vm S) (x g : S).

Lemma trial_frame o x o' x' : vm_trial o x = Some (o', x') ->
  v_cfg o' = v_cfg o /\ v_d o' = v_d o /\ v_bsmin o' = v_bsmin o /\ v_ls o' = v_ls o /\ v_stp o' = v_stp o.
Proof.
  unfold vm_trial. destruct (get_x0 o); [|discriminate]. destruct (c_box (v_cfg o)) as [bx|].
  - destruct (nlt _ _).
    + destruct (projvar _ _) as [st y]. destruct (ok st); injection 1 as <- <-; repeat split.
    + injection 1 as <- <-; repeat split.
  - injection 1 as <- <-; repeat split.
Qed.
Lemma accept_frame o x g : v_ls (vm_accept o x g) = v_ls o /\ v_task (vm_accept o x g) <> COMPUTE_FG /\ v_cfg (vm_accept o x g) = v_cfg o.
Proof.
  unfold vm_accept. destruct (match c_box (v_cfg o) with Some _ => _ | None => _ end) as [st w]. destruct (negb _); [repeat split; discriminate|].
  match goal with |- context [let '(gp, gnorm) := ?e in _] => destruct e as [gp gnorm] end. cbn [v_ls v_task vsuccess set_vtask set_gnorm set_w v_cfg]. split; [reflexivity|].
  split; [|reflexivity]. destruct (nle _ _); discriminate.
Qed.

Lemma check_frame o x (f : N) g o' x' : vm_check o x f g = Some (o', x') ->
  v_cfg o' = v_cfg o /\ params (v_ls o') = params (v_ls o) /\
  (v_task o' = COMPUTE_FG -> v_d o' = v_d o /\ v_bsmin o' = v_bsmin o /\
     l_task (v_ls o') = LS_SEARCH /\ exists dtg, ls_iterate (v_ls o) (v_stp o) f dtg = (v_ls o', v_stp o')).
Proof.
  unfold vm_check. cbv zeta. cbn [v_evals set_counts v_ls v_cfg v_stp v_d v_iters v_restarts].
  destruct (v_evals o + 1 >? 1)%Z.
  - match goal with |- context [match ?e with Some dtg => _ | None => None end] => destruct e as [dtg|]; [|discriminate] end.
    pose proof (iterate_params (v_ls o) (v_stp o) f dtg) as P.
    destruct (ls_iterate (v_ls o) (v_stp o) f dtg) as [l stp] eqn:E. cbn [fst] in P.
    set (o2 := set_steps _ stp _).
    assert (A : forall e i r, let o' := vm_accept (set_counts o2 e i r) x g in v_cfg o' = v_cfg o /\ params (v_ls o') = params (v_ls o) /\ v_task o' <> COMPUTE_FG).
    { intros e i r. cbv zeta. destruct (accept_frame (set_counts o2 e i r) x g) as (A1 & A2 & A3). rewrite A1, A3. auto. }
    destruct (l_task l) eqn:El.
    + injection 1 as <- <-. split; [reflexivity|]. split; [exact P|discriminate].
    + intros T. destruct (trial_frame _ _ _ _ T) as (T1 & T2 & T3 & T4 & T5). rewrite T1, T4. split; [reflexivity|]. split; [exact P|]. intros _.
      rewrite T2, T3, T5. split; [reflexivity|]. split; [reflexivity|]. split; [exact El|]. exists dtg. exact E.
    + injection 1 as <- <-. destruct (A (v_evals o2) (v_iters o2 + 1)%Z (v_restarts o2)) as (A1 & A2 & A3). split; [exact A1|]. split; [exact A2|]. intros; contradiction.
    + destruct (is_rounding _); injection 1 as <- <-; [|split; [reflexivity|]; split; [exact P|discriminate]].
      destruct (A (v_evals o2) (v_iters o2 + 1)%Z (v_restarts o2)) as (A1 & A2 & A3). split; [exact A1|]. split; [exact A2|]. intros; contradiction.
  - injection 1 as <- <-. match goal with |- context[vm_accept ?o1 x g] => destruct (accept_frame o1 x g) as (A1 & A2 & A3) end. rewrite A1, A3. split; [reflexivity|]. split; [reflexivity|]. intros; contradiction.
Qed.

(** The line search and the configuration are not changed before the line search is started. *)
Lemma update_frame o x g o' : vm_update o x g = Some o' -> v_ls o' = v_ls o /\ v_cfg o' = v_cfg o.
Proof.
  unfold vm_update. intros U.
  repeat match type of U with
  | match ?e with Some _ => _ | None => None end = _ => destruct e; [|discriminate]
  end. injection U as <-. split; reflexivity.
Qed.
Lemma direction_frame o x g o' r : vm_direction o x g = Some (o', r) -> v_ls o' = v_ls o /\ v_cfg o' = v_cfg o.
Proof.
  unfold vm_direction.
  match goal with |- context [match ?e with Some _ => _ | None => None end] => destruct e as [o1|] eqn:E1; [|discriminate] end.
  assert (X : v_ls o1 = v_ls o /\ v_cfg o1 = v_cfg o).
  { destruct (v_iters o >=? 1)%Z; [eapply update_frame; eauto|]. injection E1 as <-. auto. }
  destruct (vm_apply _ _ _ _ _) as [[[b d] st]|]; [|discriminate].
  destruct (ok st); [|injection 1 as <- <-; exact X].
  match goal with |- context [let '(_, _) := ?e in _] => destruct e as [st' d'] end.
  destruct (negb _); injection 1 as <- <-; exact X.
Qed.
Lemma steepest_frame o x (f : N) g o' dtg : vm_steepest o x f g = (o', dtg) -> v_ls o' = v_ls o /\ v_cfg o' = v_cfg o.
Proof. unfold vm_steepest. destruct (_ >? 0)%Z; injection 1 as <- <-; split; reflexivity. Qed.
Lemma limits_frame o x o' r : vm_limits o x = Some (o', r) -> v_ls o' = v_ls o /\ v_cfg o' = v_cfg o.
Proof.
  unfold vm_limits. destruct (c_box (v_cfg o)) as [bx|]; [|injection 1 as <- <-; split; reflexivity].
  destruct (steplim _ _ _) as [st [[[s1 s2] s3]|]]; [|discriminate]. destruct (negb _); [injection 1 as <- <-; split; reflexivity|].
  destruct (nle _ _); injection 1 as <- <-; split; reflexivity.
Qed.
Lemma save_frame o x (f : N) g o' : vm_save o x f g = Some o' -> v_ls o' = v_ls o /\ v_cfg o' = v_cfg o.
Proof.
  unfold vm_save. intros U. destruct (c_save _); [|injection U as <-; split; reflexivity].
  repeat match type of U with
  | match ?e with Some _ => _ | None => None end = _ => destruct e; [|discriminate]
  end. injection U as <-. split; reflexivity.
Qed.

Lemma new_x_frame o x (f : N) g o' x' : vm_new_x o x f g = Some (o', x') ->
  v_cfg o' = v_cfg o /\ params (v_ls o') = params (v_ls o) /\
  (v_task o' = COMPUTE_FG -> l_task (v_ls o') = LS_SEARCH /\ exists dtg s s1 s2, ls_start (v_ls o) f dtg s s1 s2 = Some (v_ls o')).
Proof.
  unfold vm_new_x. destruct (vm_direction o x g) as [[o1 r1]|] eqn:E1; [|discriminate]. destruct (direction_frame _ _ _ _ _ E1) as [L1 C1].
  destruct r1 as [dtg1|st]; [|injection 1 as <- <-; cbn [v_cfg v_ls vfailure set_vtask v_task]; rewrite L1, C1; repeat split; discriminate].
  destruct (if nlt dtg1 (nZ 0) then _ else _) as [o2 dtg2] eqn:E2.
  assert (X2 : v_ls o2 = v_ls o /\ v_cfg o2 = v_cfg o).
  { destruct (nlt dtg1 _); [injection E2 as <- <-; auto|]. destruct (steepest_frame _ _ _ _ _ _ E2) as [-> ->]. auto. }
  destruct X2 as [L2 C2]. clear E2.
  destruct (vm_limits o2 x) as [[o3 r3]|] eqn:E3; [|discriminate]. destruct (limits_frame _ _ _ _ E3) as [L3 C3].
  destruct r3 as [[smin smax]|st]; [|injection 1 as <- <-; cbn [v_cfg v_ls vfailure set_vtask v_task]; rewrite L3, C3, L2, C2; repeat split; discriminate].
  destruct (vm_save o3 x f g) as [o4|] eqn:E4; [|discriminate]. destruct (save_frame _ _ _ _ _ E4) as [L4 C4].
  destruct (ls_start (v_ls o4) f dtg2 (v_stp o4) smin smax) as [l|] eqn:E5; [|discriminate].
  assert (P := start_params _ _ _ _ _ _ _ E5). rewrite L4, L3, L2 in P, E5.
  destruct (l_task l) eqn:El; try (injection 1 as <- <-; cbn [v_cfg v_ls vfailure set_vtask set_lnsrch v_task]; rewrite C4, C3, C2; split; [reflexivity|]; split; [exact P|discriminate]).
  intros T. destruct (trial_frame _ _ _ _ T) as (T1 & T2 & T3 & T4 & T5). rewrite T1, T4. cbn [v_cfg v_ls set_lnsrch]. rewrite C4, C3, C2.
  split; [reflexivity|]. split; [exact P|]. intros _. split; [exact El|]. exists dtg2, (v_stp o4), smin, smax. exact E5.
Qed.
End Frame.

(** ** Feasibility and direction of the search *)
Section Real.
Variables H I : R.
Notation NR := (NumR H I).
Notation c := (cast_id NR).
Variable n : nat.
Notation SR := (list_space c n).
Variables (F : SR -> NR) (G : SR -> SR).
Variable bnds : option (bounds NR NR n).
Notation box := (the_box c bnds).
Notation within := (within c bnds).
Hypothesis HH : 0 < H.
Hypothesis Hord : ordered c bnds.

Definition el (v : SR) : list R := elts v.
Lemma el_length (v : SR) : length (el v) = n. Proof. exact (proj2_sig v). Qed.
Lemma el_eq (v w : SR) : el v = el w -> v = w. Proof. exact (elts_eq n v w). Qed.

Definition ls_bounded (l : ls NR) : Prop := 0 <= l_stpmin l /\ l_stpmin l <= l_stp l <= l_stpmax l.
Lemma start_bounded (l l' : ls NR) (f0 g0 s s1 s2 : R) : ls_start l f0 g0 s s1 s2 = Some l' -> l_task l' = LS_SEARCH -> ls_bounded l'.
Proof.
  intros S Ht. destruct (start_values _ _ _ _ _ _ _ S Ht) as ((T1 & T2 & T3 & T4 & T5) & (_ & E1 & E2 & E3 & E4 & E5) & _).
  simpl in T1, T2, T3, T4, T5. rb. unfold ls_bounded. change (num NR) with R in *. rewrite E1, E2, E3. change (IZR 0) with 0 in *. lra.
Qed.
Lemma iterate_bounded (l l' : ls NR) (f g s s' : R) : ls_bounded l -> l_task l' = LS_SEARCH -> ls_iterate l s f g = (l', s') -> ls_bounded l'.
Proof.
  intros (B1 & B2) Ht E. pose proof (iterate_cases l s f g) as C. rewrite E in C.
  destruct C as [(_ & -> & _)|[(_ & _ & -> & _)|(_ & _ & El & (S1 & S2 & _) & _ & C)]]; try discriminate.
  destruct (method_iterate l s f g) as [l1 s1]. destruct C as (_ & C). unfold ls_bounded. change (num NR) with R in *. rewrite S1, S2, El. split; [exact B1|].
  destruct C as [(X & -> & _)|[(X & X' & -> & _)|(X & X' & -> & _)]]; simpl in *; rb; lra.
Qed.

(** In the case of bounds the direction is a projected one. *)
Lemma search_direction o t p b : bnds = Some b -> c_box (v_cfg o) = box -> searching o t p ->
  t_x t = fst p -> t_g t = G (fst p) -> t_g0 t = G (fst p) ->
  exists d0 : list R, length d0 = n /\ el (v_d o) = k_boxprojdir c false (lower b) (upper b) (el (fst p) : list NR) (d0 : list NR).
Proof.
  intros Eb Ec (_ & _ & _ & _ & _ & D) Ex Eg Eg0. rewrite Ec, Eb in D. cbn [the_box] in D.
  destruct D as [(_ & d0 & D)|[(_ & D)|D]].
  - exists (el d0). split; [apply el_length|]. simpl in D. injection D as D. unfold el at 1. rewrite <- D. reflexivity.
  - exists (el (G (fst p))). split; [apply el_length|]. rewrite Ex, Eg, Eg0 in D.
    assert (el (v_d o) = map2 Rmult (k_boxfreevar c false (lower b) (upper b) (el (fst p) : list NR) (el (G (fst p)) : list NR)) (el (G (fst p)))) as ->.
    { unfold el at 1. rewrite D. destruct (is_blmvm _); reflexivity. }
    apply (free_product H I); rewrite !el_length; [reflexivity|apply (lower_size b)|apply (upper_size b)].
  - simpl in D. rb. lra.
Qed.

Lemma trial_within o t p (s : R) : c_box (v_cfg o) = box -> searching o t p ->
  t_x t = fst p -> t_g t = G (fst p) -> t_g0 t = G (fst p) -> within (fst p) -> 0 <= s -> within (trial_point o (fst p) s).
Proof.
  intros Ec Hs Ex Eg Eg0 Hw H0. unfold VmRealSpec.within in *. destruct bnds as [b|] eqn:Eb; [|exact Logic.I].
  destruct (search_direction o t p b Eb) as (d0 & L & D); auto; try (rewrite Eb; auto).
  destruct Hs as (_ & _ & _ & _ & Lim & _). unfold limits_of in Lim. rewrite Ec in Lim. cbn [the_box] in Lim.
  destruct Lim as (s1 & s3 & Lim). simpl in Lim. injection Lim as Lim.
  unfold trial_point. rewrite Ec. cbn [the_box].
  simpl in Hord.
  pose proof (trial_feasible H I (lower b) (upper b) (el (fst p)) (el (v_d o)) d0 s (v_bsmin o) s1 s3 HH) as T.
  assert (E : elts (if nlt (v_bsmin o) (s : NR)
      then snd (projvar (list_box c n (lower b) (upper b) (lower_size b) (upper_size b)) (vaxpby (nZ 1) (fst p) (- (s : NR))%num (v_d o)))
      else vaxpby (nZ 1) (fst p) (- (s : NR))%num (v_d o)) =
    (if Rlt_bool (v_bsmin o) s then k_boxprojvar c (lower b) (upper b) (moved false s (el (fst p)) (el (v_d o)) : list NR) else moved false s (el (fst p)) (el (v_d o)))).
  { assert (A : elts (vaxpby (nZ 1) (fst p) (- (s : NR))%num (v_d o)) = moved false s (el (fst p)) (el (v_d o))).
    { exact (axpby_moved H I n (el (fst p)) (el (v_d o)) s (el_length _) (el_length _)). }
    change (nlt (v_bsmin o) (s : NR)) with (Rlt_bool (v_bsmin o) s). destruct (Rlt_bool (v_bsmin o) s); [|exact A].
    cbn [snd projvar list_box]. unfold elts at 1. cbn [proj1_sig]. rewrite A. reflexivity. }
  refine (eq_ind_r (fun l : list NR => feasible c (lower b) (upper b) l) _ E). apply T; auto; rewrite el_length; auto.
Qed.

(** The path starts at the accepted point. *)
Lemma trial_zero (o : vm SR) (p : SR * SR) : c_box (v_cfg o) = box -> within (fst p) -> trial_point o (fst p) (0 : R) = fst p.
Proof.
  intros Ec Hw. apply el_eq. unfold trial_point. rewrite Ec.
  assert (A : elts (vaxpby (nZ 1) (fst p) (- (0 : NR))%num (v_d o)) = el (fst p)).
  { refine (eq_trans (axpby_moved H I n (el (fst p)) (el (v_d o)) 0 (el_length _) (el_length _)) _). apply moved_0. rewrite !el_length. reflexivity. }
  unfold VmRealSpec.within in Hw. destruct bnds as [b|] eqn:Eb; cbn [the_box]; [|exact A].
  destruct (nlt _ _); [|exact A]. cbn [snd projvar list_box]. unfold el at 1, elts at 1. cbn [proj1_sig]. rewrite A.
  simpl in Hord. apply (projvar_feasible H I); [rewrite el_length; exact Hord|exact Hw].
Qed.

Definition Jf (o : vm SR) (t : tally SR) (prev : option SR) : Prop :=
  match v_task o with
  | COMPUTE_FG => exists x, prev = Some x /\ within x /\
      (t_points t = [] \/ exists p pts, t_points t = p :: pts /\ within (fst p) /\ t_f0 t = F (fst p) /\ t_g0 t = G (fst p) /\
         t_x t = fst p /\ t_g t = G (fst p) /\ x = trial_point o (fst p) (v_stp o) /\ ls_bounded (v_ls o))
  | NEW_X | FINAL_X => prev = Some (t_x t) /\ within (t_x t) /\ t_g t = G (t_x t)
  | _ => True
  end.
Definition Jd (o : vm SR) (t : tally SR) (vs : list R) : Prop :=
  monotone H I (v_ls o) /\ 0 < armijo_tol H I (v_ls o) /\ Sorted Rlt vs /\
  match v_task o with
  | COMPUTE_FG => (t_points t = [] /\ vs = []) \/
      exists p pts, t_points t = p :: pts /\ hd_error vs = Some (F (fst p)) /\ ls_good H I (fun s => F (trial_point o (fst p) s)) (v_ls o)
  | NEW_X | FINAL_X => hd_error vs = Some (F (t_x t))
  | _ => True
  end.

Definition next_values (t : task) (acc : list R) (f : R) (r : task) : list R :=
  match t with COMPUTE_FG => if accepted r then f :: acc else acc | _ => acc end.

(** What the caller does. *)
Definition fair (prev : option SR) (cl : vcall SR) : Prop :=
  match cl with VStart _ => True | VIterate x f g => (forall p, prev = Some p -> x = p) /\ f = F x /\ g = G x end.

Lemma trial_same (o o' : vm SR) x s : v_cfg o' = v_cfg o -> v_d o' = v_d o -> v_bsmin o' = v_bsmin o -> trial_point o' x s = trial_point o x s.
Proof. intros E1 E2 E3. unfold trial_point. rewrite E1, E2, E3. reflexivity. Qed.

Lemma J_step cfg (o : vm SR) t prev cl o' r x' : cfg_ok cfg -> box_works (c_box cfg) -> c_box cfg = box ->
  vinv cfg o t -> Jf o t prev -> fair prev cl -> vdo o cl = Some (o', (r, x')) ->
  let t' := tally_step (is_blmvm (c_method cfg)) (c_box cfg) t cl r in
  r = v_task o' /\ vinv cfg o' t' /\ Jf o' t' (Some x') /\
  forall vs, Jd o t vs -> Jd o' t' (match cl with VStart _ => [] | VIterate _ f _ => next_values (t_task t) vs f r end).
Proof.
  intros K W Eb V J Hf E. destruct (vdo_ok cfg o t cl K W V) as (o1 & x1 & E1 & V1). rewrite E in E1. injection E1 as <- -> ->.
  intros t'. split; [reflexivity|]. split; [exact V1|].
  assert (Ec' : v_cfg o' = cfg) by apply V1.
  assert (Ec : v_cfg o = cfg) by apply V.
  destruct cl as [x|x f g].
  - (* start *)
    unfold vdo in E. destruct (vm_start o x) as [o2 x2] eqn:Es. injection E as -> _ ->. unfold vm_start in Es. cbn [v_cfg set_lb set_counts] in Es. rewrite Ec, Eb in Es.
    assert (X : v_task o' = COMPUTE_FG /\ v_ls o' = v_ls o /\ within x1).
    { unfold VmRealSpec.within. destruct bnds as [b|] eqn:Ebb; cbn [the_box] in Es.
      - cbn [projvar list_box ok] in Es. injection Es as <- <-. split; [reflexivity|]. split; [reflexivity|].
        apply (projvar_good H I). rewrite el_length. exact Hord.
      - injection Es as <- <-. split; [reflexivity|]. split; [reflexivity|exact Logic.I]. }
    destruct X as (X1 & X2 & X3). unfold Jf, Jd. rewrite X1. split.
    + exists x1. split; [reflexivity|]. split; [exact X3|]. left. reflexivity.
    + intros vs (D1 & D2 & _). rewrite X2. split; [exact D1|]. split; [exact D2|]. split; [constructor|]. left. split; reflexivity.
  - destruct Hf as (Hx & -> & ->). unfold vdo in E.
    destruct (vm_iterate o x (F x) (G x)) as [[o2 x2]|] eqn:Ei; [|discriminate]. injection E as -> _ ->. rename Ei into E. unfold vm_iterate in E.
    assert (Et : v_task o = t_task t) by apply V.
    assert (NX : accepted (v_task o) = true -> vm_new_x o x (F x) (G x) = Some (o', x1) ->
      Jf o' t' (Some x1) /\ forall vs, Jd o t vs -> Jd o' t' (next_values (t_task t) vs (F x) (v_task o'))).
    { clear E. intros Ac E. destruct (new_x_ok cfg o t x (F x) (G x) K W V Ac) as (o2 & x2 & E2 & _ & Tk & C1 & _). rewrite E in E2. injection E2 as <- <-.
      destruct (new_x_frame _ _ _ _ _ _ E) as (_ & P & Fr).
      assert (Jp : prev = Some (t_x t) /\ within (t_x t) /\ t_g t = G (t_x t)) by (unfold Jf in J; destruct (v_task o); try discriminate; exact J).
      destruct Jp as (-> & J1 & J2). specialize (Hx _ eq_refl). subst x.
      assert (ET : t' = mkTally (v_task o') (t_evals t) (t_accepted t) (t_x t) (t_g t) (t_ginit t)
        ((t_x t, if is_blmvm (c_method cfg) then pgrad (c_box cfg) (t_x t) (t_g t) else G (t_x t)) :: t_points t) (F (t_x t)) (G (t_x t))).
      { unfold t', tally_step. rewrite <- Et. destruct (v_task o); try discriminate; reflexivity. }
      assert (NV : forall vs f r, next_values (t_task t) vs f r = vs) by (intros; rewrite <- Et; destruct (v_task o); try discriminate; reflexivity).
      assert (D0 : forall vs, Jd o t vs -> monotone H I (v_ls o') /\ 0 < armijo_tol H I (v_ls o') /\ Sorted Rlt vs /\ hd_error vs = Some (F (t_x t)) /\ monotone H I (v_ls o)).
      { intros vs (D1 & D2 & D3 & D4). destruct (params_monotone H I _ _ P D1) as [M1 M2]. rewrite M2. repeat (split; [assumption|]). split; [|assumption].
        destruct (v_task o); try discriminate; exact D4. }
      destruct Tk as [Tk|Tk].
      - destruct (C1 Tk) as (Ex & _). destruct (Fr Tk) as (F1 & dtg & s & s1 & s2 & F2).
        assert (B' : ls_bounded (v_ls o')) by (eapply start_bounded; eauto).
        destruct V1 as (_ & _ & _ & _ & _ & _ & _ & _ & _ & V1). rewrite Tk in V1.
        destruct V1 as [(_ & _ & V1)|(_ & _ & p' & pts' & Vp & _ & _ & Vs)].
        { exfalso. rewrite <- Tk in V1. fold t' in V1. rewrite ET in V1. discriminate. }
        rewrite <- Tk in Vp, Vs. fold t' in Vp, Vs. rewrite ET in Vp. cbn [t_points] in Vp. injection Vp as <- <-.
        assert (Sb : v_stp o' = l_stp (v_ls o')) by (symmetry; apply Vs).
        split.
        + unfold Jf. rewrite Tk. exists x1. split; [reflexivity|]. split.
          * rewrite Ex. refine (trial_within o' t' _ (v_stp o') _ Vs _ _ _ _ _); try (rewrite ET; cbn [t_x t_g t_g0 fst]; auto); auto; [rewrite Ec'; exact Eb|].
            rewrite Sb. destruct B' as (B1 & B2 & B3). lra.
          * right. eexists _, _. split; [rewrite ET; reflexivity|]. rewrite ET. cbn [fst t_f0 t_g0 t_x t_g]. repeat (split; [auto; fail|]). exact B'.
        + intros vs D. destruct (D0 vs D) as (M1 & M2 & M3 & M4 & M5). rewrite NV. unfold Jd. rewrite Tk. repeat (split; [assumption|]). right.
          eexists _, _. split; [rewrite ET; reflexivity|]. cbn [fst]. split; [exact M4|].
          refine (good_start H I _ _ _ _ _ _ _ _ M5 _ F2 F1). cbv beta.
          pose proof (trial_zero o' (t_x t, t_x t)) as Z. cbn [fst] in Z. rewrite Z; [reflexivity|rewrite Ec'; exact Eb|exact J1].
      - split; [unfold Jf; rewrite Tk; exact Logic.I|]. intros vs D. destruct (D0 vs D) as (M1 & M2 & M3 & M4 & M5). rewrite NV. unfold Jd. rewrite Tk. auto. }
    destruct (v_task o) eqn:Eo.
    + injection E as <- <-. split.
      * unfold Jf. rewrite Eo. exact Logic.I.
      * intros vs (D1 & D2 & D3 & _). unfold Jd. rewrite Eo. unfold next_values. rewrite <- Et. auto.
    + destruct V as (_ & _ & _ & _ & _ & _ & _ & _ & _ & V). rewrite Eo in V. contradiction.
    + (* evaluation *)
      destruct (check_ok cfg o t x (F x) (G x) K W V Eo) as (o2 & x2 & E2 & _ & C0 & C1 & C2 & _). rewrite E2 in E. injection E as -> ->.
      destruct (check_frame _ _ _ _ _ _ E2) as (_ & P & Fr).
      unfold Jf in J. rewrite Eo in J. destruct J as (xp & -> & J1 & J2). specialize (Hx xp eq_refl). subst xp.
      assert (ET : accepted (v_task o') = true -> t' = mkTally (v_task o') (t_evals t + 1) (t_accepted t + 1) x (G x)
             (if (t_accepted t =? 0)%Z then pgnorm (is_blmvm (c_method cfg)) (c_box cfg) x (G x) else t_ginit t) (t_points t) (t_f0 t) (t_g0 t)).
      { intros A. unfold t', tally_step. rewrite <- Et, A. reflexivity. }
      assert (EN : accepted (v_task o') = false -> t' = mkTally (v_task o') (t_evals t + 1) (t_accepted t) (t_x t) (t_g t) (t_ginit t) (t_points t) (t_f0 t) (t_g0 t)).
      { intros A. unfold t', tally_step. rewrite <- Et, A. reflexivity. }
      assert (PM : forall vs, Jd o t vs -> monotone H I (v_ls o') /\ 0 < armijo_tol H I (v_ls o')).
      { intros vs (D1 & D2 & _). destruct (params_monotone H I _ _ P D1) as [M1 M2]. rewrite M2. auto. }
      destruct (accepted (v_task o')) eqn:A.
      * specialize (ET eq_refl). destruct (C2 eq_refl) as (-> & C3). split.
        -- unfold Jf. rewrite ET. destruct (v_task o'); try discriminate; cbn [t_x t_g]; auto.
        -- intros vs D. destruct (PM vs D) as [M1 M2]. unfold Jd. split; [exact M1|]. split; [exact M2|].
           unfold next_values. rewrite <- Et, A.
           assert (G1 : Sorted Rlt (F x :: vs)).
           { destruct D as (D1 & D2 & D3 & D4). constructor; [exact D3|]. rewrite Eo in D4.
             destruct D4 as [(_ & ->)|(p & pts & Dp & D5 & D6)]; [constructor|].
             destruct J2 as [J2|(p' & pts' & Jp & J3 & J4 & J5 & J6 & J7 & J8 & J9)]; [congruence|]. rewrite Dp in Jp. injection Jp as <- <-.
             destruct vs as [|v vs]; [constructor|]. constructor. injection D5 as ->.
             destruct C3 as (C3 & dtg & C4); [rewrite Dp; discriminate|].
             destruct V as (_ & _ & _ & _ & _ & _ & _ & _ & _ & V). rewrite Eo in V. destruct V as [(_ & _ & V)|(_ & _ & p' & pts' & Vp & _ & _ & Vs)]; [congruence|].
             rewrite Dp in Vp. injection Vp as <- <-. destruct Vs as (S1 & S2 & S3 & _).
             assert (Fx : F x = (fun s => F (trial_point o (fst p) s)) (l_stp (v_ls o))) by (cbv beta; rewrite S2, <- J8; reflexivity).
             destruct (ls_iterate (v_ls o) (v_stp o) (F x) dtg) as [l' s'] eqn:Li. cbn [fst] in C4. subst l'.
             rewrite <- S2 in Li. rewrite Fx in Li. destruct (good_iterate H I _ _ _ _ _ D6 S1 Li) as (_ & _ & _ & _ & _ & Gc & Gw).
             destruct D6 as (_ & _ & Gi & _). refine (eq_ind _ (fun z : R => F x < z) _ _ (eq_trans S3 J4)). refine (eq_ind_r (fun z : R => z < l_finit (v_ls o)) _ Fx).
             destruct C3 as [C3|(C3 & C5)].
             - destruct (Gc C3) as (Ps & Q). change (num NR) with R in *. pose proof (Rmult_lt_0_compat _ _ D2 Ps). nra.
             - apply (Gw C3 C5). exact D2. }
           split; [exact G1|]. rewrite ET. destruct (v_task o'); try discriminate; reflexivity.
      * specialize (EN eq_refl). destruct (v_task o') eqn:Eo'; try discriminate.
        -- split; [unfold Jf; rewrite Eo'; exact Logic.I|]. intros vs D. destruct (PM vs D) as [M1 M2]. unfold Jd. rewrite Eo'. unfold next_values. rewrite <- Et. cbn [accepted].
           destruct D as (_ & _ & D3 & _). auto.
        -- destruct V1 as (_ & _ & _ & _ & _ & _ & _ & _ & _ & V1). rewrite Eo' in V1. contradiction.
        -- destruct (Fr eq_refl) as (F1 & F2 & F3 & dtg & F4). specialize (C1 eq_refl).
           destruct J2 as [J2|(p & pts & Jp & J3 & J4 & J5 & J6 & J7 & J8 & J9)]; [rewrite J2 in C1; contradiction|]. rewrite Jp in C1.
           destruct V1 as (_ & _ & _ & _ & _ & _ & _ & _ & _ & V1). rewrite Eo' in V1.
           destruct V1 as [(_ & _ & V1)|(_ & _ & p' & pts' & Vp & _ & _ & Vs)].
           { exfalso. fold t' in V1. rewrite EN in V1. cbn [t_points] in V1. congruence. }
           fold t' in Vp, Vs. rewrite EN in Vp. cbn [t_points] in Vp. rewrite Jp in Vp. injection Vp as <- <-.
           assert (B' : ls_bounded (v_ls o')) by (eapply iterate_bounded; eauto).
           assert (Sb : v_stp o' = l_stp (v_ls o')) by (symmetry; apply Vs).
           split.
           ++ unfold Jf. rewrite Eo'. exists x1. split; [reflexivity|]. split.
              ** rewrite C1. apply (trial_within o' t' p (v_stp o')); try (rewrite EN; cbn [t_x t_g t_g0]; assumption); auto; [rewrite Ec'; exact Eb|]. 
                 rewrite Sb. destruct B' as (B1 & B2 & B3). lra.
              ** right. exists p, pts. rewrite EN. cbn [t_points t_f0 t_g0 t_x t_g]. repeat (split; [assumption|]). exact B'.
           ++ intros vs D. destruct (PM vs D) as [M1 M2]. unfold Jd. rewrite Eo'. unfold next_values. rewrite <- Et. cbn [accepted].
              destruct D as (D1 & D2 & D3 & D4). split; [exact M1|]. split; [exact M2|]. split; [exact D3|]. right. exists p, pts. rewrite EN. cbn [t_points].
              split; [exact Jp|]. rewrite Eo in D4. destruct D4 as [(D4 & _)|(p' & pts' & Dp & D5 & D6)]; [congruence|]. rewrite Jp in Dp. injection Dp as <- <-.
              split; [exact D5|].
              destruct V as (_ & _ & _ & _ & _ & _ & _ & _ & _ & V). rewrite Eo in V. destruct V as [(_ & _ & V)|(_ & _ & p' & pts' & Vp & _ & _ & Vs')]; [congruence|].
              rewrite Jp in Vp. injection Vp as <- <-. destruct Vs' as (S1 & S2 & S3 & _).
              assert (Fx : F x = (fun s => F (trial_point o (fst p) s)) (l_stp (v_ls o))) by (cbv beta; rewrite S2, <- J8; reflexivity).
              rewrite <- S2 in F4. rewrite Fx in F4. destruct (good_iterate H I _ _ _ _ _ D6 S1 F4) as (Gs & _). specialize (Gs F3).
              assert (Tp : forall s, trial_point o' (fst p) s = trial_point o (fst p) s) by (intros s; apply trial_same; auto; congruence).
              destruct Gs as (g1 & g2 & g3 & g4 & g5 & g6). split; [exact g1|]. rewrite Tp. split; [exact g2|]. split; [exact g3|]. split; [exact g4|]. split; [exact g5|].
              destruct (l_method (v_ls o')); auto. unfold cs_good in *. rewrite Tp. exact g6.
        -- destruct V1 as (_ & _ & _ & _ & _ & _ & _ & _ & _ & V1). rewrite Eo' in V1. contradiction.
    + apply NX; auto.
    + apply NX; auto.
    + destruct V as (_ & _ & _ & _ & _ & _ & _ & _ & _ & V). rewrite Eo in V. contradiction.
Qed.

Lemma box_ok : box_works box.
Proof. destruct bnds as [b|]; [|intros b [=]]. intros bb [= <-]. split; [reflexivity|]. intros x d. eexists. reflexivity. Qed.

Definition reply_within (r : vreply SR) : Prop := fst r = COMPUTE_FG \/ accepted (fst r) = true -> within (snd r).

Lemma last_cons {A B : Type} (f : A -> B) (a : A) l : l <> [] -> option_map f (hd_error (rev l)) = option_map f (hd_error (rev (a :: l))).
Proof.
  intros Hl. cbn [rev]. destruct (rev l) as [|q qs] eqn:Eq; [|reflexivity]. exfalso. apply (f_equal (@rev _)) in Eq. rewrite rev_involutive in Eq. auto.
Qed.

Lemma J_run cfg cs : cfg_ok cfg -> c_box cfg = box -> forall (o : vm SR) t prev o' rs,
  vinv cfg o t -> Jf o t prev -> evaluates F G prev cs rs -> vrun o cs = Some (o', rs) ->
  let t' := count_calls (is_blmvm (c_method cfg)) (c_box cfg) t cs rs in
  vinv cfg o' t' /\ Jf o' t' (match cs with [] => prev | _ => option_map snd (hd_error (rev rs)) end) /\ Forall reply_within rs /\
  forall vs, Jd o t vs -> Jd o' t' (values (N := NR) (t_task t) vs cs rs).
Proof.
  intros K Eb. assert (W : box_works (c_box cfg)) by (rewrite Eb; apply box_ok).
  induction cs as [|cl cs IH]; intros o t prev o' rs V J Ev E.
  - injection E as <- <-. cbn. auto.
  - cbn [vrun] in E. destruct (vdo o cl) as [[o1 [r x1]]|] eqn:E1; [|discriminate]. destruct (vrun o1 cs) as [[o2 rs2]|] eqn:E2; [|discriminate]. injection E as <- <-.
    assert (Hf : fair prev cl /\ evaluates F G (Some x1) cs rs2).
    { destruct cl; cbn [evaluates] in Ev; [split; [exact Logic.I|exact Ev]|]. destruct Ev as (Q1 & Q2 & Q3 & Q4). repeat split; auto. }
    destruct Hf as [Hf Ev1].
    destruct (J_step cfg o t prev cl o1 r x1 K W Eb V J Hf E1) as (Er & V1 & J1 & D1).
    destruct (IH o1 _ (Some x1) o2 rs2 V1 J1 Ev1 E2) as (V2 & J2 & F2 & D2).
    cbn [count_calls]. split; [exact V2|]. split; [|split].
    + assert (Ep : match cs with [] => Some x1 | _ :: _ => option_map snd (hd_error (rev rs2)) end = option_map snd (hd_error (rev ((r, x1) :: rs2)))).
      { destruct cs as [|cl2 cs].
        - injection E2 as _ <-. reflexivity.
        - assert (rs2 <> []) by (cbn [vrun] in E2; destruct (vdo o1 cl2) as [[? ?]|]; [|discriminate]; destruct (vrun _ cs) as [[? ?]|]; [|discriminate]; injection E2 as _ <-; discriminate).
          exact (last_cons snd (r, x1) rs2 H0). }
      refine (eq_ind _ (fun q => Jf o2 _ q) J2 _ Ep).
    + constructor; [|exact F2]. unfold reply_within. cbn [fst snd]. intros A. unfold Jf in J1. rewrite <- Er in J1. 
      destruct r; cbn in A; try (destruct A as [A|A]; discriminate A).
      * destruct J1 as (z & Ez & Hz & _). injection Ez as ->. exact Hz.
      * destruct J1 as (Ez & Hz & _). injection Ez as ->. exact Hz.
      * destruct J1 as (Ez & Hz & _). injection Ez as ->. exact Hz.
    + intros vs D. specialize (D2 _ (D1 vs D)). 
      assert (Et : t_task (tally_step (is_blmvm (c_method cfg)) (c_box cfg) t cl r) = r).
      { destruct cl; [reflexivity|]. unfold tally_step. destruct (t_task t); try reflexivity. destruct (accepted r); reflexivity. }
      rewrite Et in D2. destruct cl; exact D2.
Qed.

(** The slope of the search. *)
Lemma search_slope (o : vm SR) t p pts prev : c_box (v_cfg o) = box -> searching o t p -> v_task o = COMPUTE_FG -> t_points t = p :: pts -> Jf o t prev ->
  exists (x : SR) (d : list R) (s smin : R), prev = Some x /\ length d = n /\ 0 <= s /\ 0 < smin /\ t_f0 t = F (fst p) /\
    (l_ginit (v_ls o) : R) < 0 /\ (l_ginit (v_ls o) : R) = - rsum (map2 Rmult d (el (G (fst p)))) /\
    match bnds with
    | Some b => is_projection c (lower b) (upper b) (moved false s (el (fst p)) d : list NR) (el x) /\
                forall a, 0 <= a <= smin -> feasible c (lower b) (upper b) (moved false a (el (fst p)) d : list NR)
    | None => el x = moved false s (el (fst p)) d
    end.
Proof.
  intros Ec Hs Et Ep J. unfold Jf in J. rewrite Et in J. destruct J as (x & -> & Wx & [J|(p' & pts' & Jp & J3 & J4 & J5 & J6 & J7 & J8 & J9)]); [congruence|].
  rewrite Ep in Jp. injection Jp as <- <-.
  assert (S0 : 0 <= (v_stp o : R)). { destruct Hs as (_ & <- & _). destruct J9. simpl in *. lra. }
  assert (Hg : (l_ginit (v_ls o) : R) < 0).
  { destruct Hs as (_ & _ & _ & Hg & _). simpl in Hg. rb. exact Hg. }
  assert (Ax : el (vaxpby (nZ 1) (fst p) (- v_stp o)%num (v_d o)) = moved false (v_stp o) (el (fst p)) (el (v_d o)))
    by exact (axpby_moved H I n (el (fst p)) (el (v_d o)) (v_stp o) (el_length _) (el_length _)).
  assert (Eg : (l_ginit (v_ls o) : R) = - rsum (map2 Rmult (el (v_d o)) (el (G (fst p))))).
  { destruct Hs as (_ & _ & _ & _ & _ & [(Q & _)|[(Q & D)|Q]]).
    - refine (eq_trans Q _). change (Ropp (vdot (v_d o) (t_g0 t)) = - rsum (map2 Rmult (el (v_d o)) (el (G (fst p))))). f_equal. rewrite J5. apply (dot_R H I).
    - rewrite J6, J7, Ec in Q. rewrite Ec, J6, J7, J5 in D. refine (eq_trans Q _). set (bm := is_blmvm _) in *.
      destruct bnds as [b|] eqn:Eb; cbn [the_box] in *.
      + set (w := k_boxfreevar c false (lower b) (upper b) (el (fst p) : list NR) (el (G (fst p)) : list NR) : list R).
        assert (Ed : el (v_d o) = map2 Rmult w (el (G (fst p)))) by (unfold el at 1; rewrite D; destruct bm; reflexivity).
        assert (W01 : forall i wi, nth_error w i = Some wi -> wi = 0 \/ wi = 1).
        { intros i wi Ew. unfold w in Ew. pose proof (freevar_nth c false (lower b) (upper b) (el (fst p) : list NR) (el (G (fst p)) : list NR) i) as Fn.
          change (num NR) with R in *. rewrite Fn in Ew; [|rewrite !el_length; reflexivity|rewrite el_length; apply (lower_size b)|rewrite el_length; apply (upper_size b)].
          destruct (nth_error (el (fst p)) i) as [xi|]; [|discriminate]. destruct (nth_error (el (G (fst p))) i) as [gi|]; [|discriminate].
          injection Ew as <-. apply free_opt_dir. }
        assert (Sq : rsum (map2 Rmult (map2 Rmult w (el (G (fst p)))) (el (G (fst p)))) = rsum (map (fun a => a * a) (map2 Rmult w (el (G (fst p)))))).
        { f_equal. apply list_eq_nth_error. intros i. rewrite nth_error_map, !map2_nth_error.
          destruct (nth_error w i) as [wi|] eqn:Ew; [|reflexivity]. destruct (nth_error (el (G (fst p))) i); [|reflexivity]. simpl. f_equal.
          destruct (W01 i wi Ew) as [-> | ->]; ring. }
        assert (Pg : (pgnorm bm (Some (list_box c n (lower b) (upper b) (lower_size b) (upper_size b))) (fst p) (G (fst p)) : R) = sqrt (rsum (map (fun a => a * a) (map2 Rmult w (el (G (fst p))))))).
        { destruct bm.
          - refine (eq_trans (norm2_R H I _) _). reflexivity.
          - refine (eq_trans (f_equal sqrt (dot3_R H I w (el (G (fst p))) (el (G (fst p))))) _). f_equal. refine (eq_trans (dot_product_R w (el (G (fst p)))) Sq). }
        change (- (pgnorm bm (Some (list_box c n (lower b) (upper b) (lower_size b) (upper_size b))) (fst p) (G (fst p)) : R) *
                (pgnorm bm (Some (list_box c n (lower b) (upper b) (lower_size b) (upper_size b))) (fst p) (G (fst p)) : R) = - rsum (map2 Rmult (el (v_d o)) (el (G (fst p))))).
        rewrite Pg, Ed, Sq. rewrite Ropp_mult_distr_l_reverse. f_equal. apply sqrt_sqrt. apply sumsq_pos.
      + assert (Pg : (pgnorm bm None (fst p) (G (fst p)) : R) = sqrt (rsum (map (fun a => a * a) (el (G (fst p)))))) by exact (norm2_R H I _).
        change (- (pgnorm bm None (fst p) (G (fst p)) : R) * (pgnorm bm None (fst p) (G (fst p)) : R) = - rsum (map2 Rmult (el (v_d o)) (el (G (fst p))))).
        rewrite Pg. rewrite Ropp_mult_distr_l_reverse. f_equal. rewrite sqrt_sqrt by apply sumsq_pos. rewrite D. symmetry. apply sumsq_dot.
    - simpl in Q. rb. lra. }
  destruct bnds as [b|] eqn:Eb.
  - destruct (search_direction o t p b) as (d0 & L & D); auto; try (rewrite ?Eb; auto; fail).
    destruct Hs as (_ & _ & _ & _ & Lim & _). unfold limits_of in Lim. rewrite Ec in Lim. cbn [the_box] in Lim.
    destruct Lim as (s1 & s3 & Lim). simpl in Lim. injection Lim as Lim.
    unfold VmRealSpec.within in J3. simpl in Hord. destruct Hord as (Slo & Shi & Hb').
    destruct (step_limits_spec' H I false (lower b) (upper b) (el (fst p)) (el (v_d o)) HH) with (smin1 := s1 : R) (smin2 := v_bsmin o : R) (smax := s3 : R)
      as (T1 & T2 & T3 & _ & _ & _ & _ & T4); auto; try (rewrite ?el_length; auto; fail).
    assert (s1 = v_bsmin o) as -> by (apply (T4 d0); [rewrite el_length; exact L|exact D]).
    exists x, (el (v_d o)), (v_stp o), (v_bsmin o). split; [reflexivity|]. split; [apply el_length|]. split; [exact S0|]. split; [exact T2|]. split; [exact J4|]. split; [exact Hg|]. split; [exact Eg|].
    split; [|intros a Ha; apply T3; lra].
    assert (Lm : length (moved false (v_stp o) (el (fst p)) (el (v_d o))) = n) by (rewrite moved_length; rewrite !el_length; reflexivity).
    assert (Ex : el x = k_boxprojvar c (lower b) (upper b) (moved false (v_stp o) (el (fst p)) (el (v_d o)) : list NR)).
    { rewrite J8. unfold trial_point. rewrite Ec. cbn [the_box]. destruct (nlt (v_bsmin o) (v_stp o)) eqn:Ep'.
      - cbn [snd projvar list_box]. unfold el at 1, elts at 1. cbn [proj1_sig]. refine (f_equal (fun l : list NR => k_boxprojvar c (lower b) (upper b) l) _). exact Ax.
      - refine (eq_trans Ax _). symmetry. apply (projvar_feasible H I).
        + rewrite Lm. repeat split; auto; apply Hb'.
        + apply T3. simpl in Ep'. rb. split; [exact S0|exact Ep']. }
    refine (eq_ind_r (fun l : list R => is_projection c (lower b) (upper b) (moved false (v_stp o) (el (fst p)) (el (v_d o)) : list NR) (l : list NR)) _ Ex).
    apply (projvar_moved_is_projection H I); rewrite ?el_length; auto.
  - exists x, (el (v_d o)), (v_stp o), 1. split; [reflexivity|]. split; [apply el_length|]. split; [exact S0|]. split; [lra|]. split; [exact J4|]. split; [exact Hg|]. split; [exact Eg|].
    rewrite J8. unfold trial_point. rewrite Ec. exact Ax.
Qed.
End Real.

(** ** Progress, without bounds *)
Section Progress.
Variables (H I : R) (S : Space (NumR H I)).
Notation NR := (NumR H I).

Lemma update_gnorm (o : vm S) x g o' : vm_update o x g = Some o' -> v_gnorm o' = v_gnorm o.
Proof.
  unfold vm_update. intros U.
  repeat match type of U with
  | match ?e with Some _ => _ | None => None end = _ => destruct e; [|discriminate]
  end. injection U as <-. reflexivity.
Qed.
Lemma direction_gnorm (o : vm S) x g o' r : c_box (v_cfg o) = None -> vm_direction o x g = Some (o', r) -> v_gnorm o' = v_gnorm o /\ exists dtg, r = inl dtg.
Proof.
  intros Eb. unfold vm_direction.
  match goal with |- context [match ?e with Some _ => _ | None => None end] => destruct e as [o1|] eqn:E1; [|discriminate] end.
  assert (X : v_gnorm o1 = v_gnorm o /\ v_cfg o1 = v_cfg o).
  { destruct (v_iters o >=? 1)%Z; [split; [eapply update_gnorm; eauto|eapply update_frame; eauto]|]. injection E1 as <-. auto. }
  destruct X as [X1 X2].
  destruct (vm_apply _ _ _ _ _) as [[[b d] st]|]; [|discriminate].
  destruct (ok st); [|injection 1 as <- <-; split; [exact X1|eauto]].
  cbn [v_cfg set_d set_lb]. rewrite X2, Eb. cbn [ok negb]. injection 1 as <- <-. split; [exact X1|eauto].
Qed.

Lemma progress (o : vm S) x (f : R) g o' x' : c_box (v_cfg o) = None -> ls_inv (v_ls o) -> 0 < (v_gnorm o : R) ->
  0 < (c_delta (v_cfg o) : R) -> 0 <= (c_stpmin (v_cfg o) : R) <= 1 -> 1 <= (c_stpmax (v_cfg o) : R) ->
  (forall z : S, 0 <= (vnorm2 z : R)) ->
  vm_new_x o x (f : NR) g = Some (o', x') -> v_task o' = COMPUTE_FG.
Proof.
  intros Eb Il Hg Hd Hmin Hmax Hn. unfold vm_new_x.
  destruct (vm_direction o x g) as [[o1 r1]|] eqn:E1; [|discriminate]. destruct (direction_frame _ _ _ _ _ E1) as [L1 C1].
  destruct (direction_gnorm _ _ _ _ _ Eb E1) as [G1 (dtg1 & ->)].
  destruct (if nlt dtg1 (nZ 0) then _ else _) as [o2 dtg2] eqn:E2.
  assert (X2 : v_ls o2 = v_ls o /\ v_cfg o2 = v_cfg o /\ 0 < (v_stp o2 : R) /\ (dtg2 : R) < 0).
  { destruct (nlt dtg1 _) eqn:El.
    - injection E2 as <- <-. cbn [v_ls v_cfg v_stp set_steps]. split; [auto|]. split; [auto|]. simpl in El. rb. split; [simpl; lra|exact El].
    - destruct (steepest_frame _ _ _ _ _ _ E2) as [-> ->]. split; [auto|]. split; [auto|]. clear El. unfold vm_steepest in E2.
      set (oo := if (b_mp (v_lb o1) >? 0)%Z then _ else _) in E2. assert (Go : v_gnorm oo = v_gnorm o) by (unfold oo; destruct (_ >? 0)%Z; auto).
      assert (Co : v_cfg oo = v_cfg o) by (unfold oo; destruct (_ >? 0)%Z; auto). clearbody oo. cbn [v_gnorm set_d v_cfg v_stp set_steps] in E2. rewrite Go, Co, Eb in E2.
      injection E2 as <- <-. cbn [v_stp set_steps]. pose proof (Hn x) as Hx. change (num NR) with R in *. simpl.
      set (gn := v_gnorm o : R) in *. change (v_gnorm o) with gn. split; [|nra].
      set (xn := vnorm2 x : R) in *. change (vnorm2 x) with xn. 
      destruct (Req_bool_spec f 0) as [Ef|Ef]; cbn [negb].
      + destruct (Rlt_bool_spec 0 xn).
        * apply Rmult_lt_0_compat; [nra|apply Rinv_0_lt_compat; exact Hg].
        * apply Rmult_lt_0_compat; [exact Hd|apply Rinv_0_lt_compat; exact Hg].
      + assert (f / (- gn * gn) <> 0) by (unfold Rdiv; apply Rmult_integral_contrapositive; split; [exact Ef|apply Rinv_neq_0_compat; nra]).
        apply Rabs_pos_lt in H0. lra. }
  destruct X2 as (L2 & C2 & S2 & D2). clear E2. unfold vm_limits. rewrite C2, Eb.
  destruct (vm_save o2 x f g) as [o3|] eqn:E3; [|discriminate]. destruct (save_frame _ _ _ _ _ E3) as [L3 C3].
  assert (S3 : v_stp o3 = v_stp o2).
  { unfold vm_save in E3. destruct (c_save _); [|injection E3 as <-; reflexivity].
    repeat match type of E3 with match ?e with Some _ => _ | None => None end = _ => destruct e; [|discriminate] end. injection E3 as <-. reflexivity. }
  rewrite L3, L2, S3.
  destruct (start_cases (v_ls o) f dtg2 (v_stp o2) (v_stp o2 * c_stpmin (v_cfg o))%num (v_stp o2 * c_stpmax (v_cfg o))%num Il) as (l & -> & _ & Q).
  simpl in Q. change (num NR) with R in *.
  set (a := v_stp o2 : R) in *. set (m1 := c_stpmin (v_cfg o) : R) in *. set (m2 := c_stpmax (v_cfg o) : R) in *.
  rewrite Rlt_bool_false in Q by nra. rewrite Rlt_bool_false in Q by nra. rewrite Rlt_bool_false in Q by nra. rewrite Rlt_bool_false in Q by nra.
  rewrite Rle_bool_false in Q by nra. destruct Q as (-> & _). unfold vm_trial. cbn [v_cfg set_lnsrch].
  destruct (get_x0 _); [|discriminate]. rewrite C3, C2, Eb. injection 1 as <- <-. reflexivity.
Qed.
End Progress.
