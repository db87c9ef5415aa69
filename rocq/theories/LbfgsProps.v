(** * Properties of the search directions of the quasi-Newton optimizer (C25), exact arithmetic *)
From Coq Require Import List ZArith Bool Arith Lia Reals Lra.
From Flocq Require Import Core.
From Verif Require Import Num NumFacts OrdFacts ListFacts VecModel VecProofs Base LsModel LsSpec LsProofs BoxSpec BoxProofs OptSpace VmModel VmSpec VmProofs VmProps
  VmRealSpec VmReal VmRealProps LbfgsSpec LbfgsReal LbfgsProofs LbfgsRun.
Import ListNotations.
Local Open Scope R_scope.

(** ** C25: the approximation of the inverse of the Hessian *)
Section Operator.
Variable n : nat.

Lemma used_ok prs : Forall (fun p => length (fst p) = n /\ length (snd p) = n) prs ->
  Forall (vecs n) (filter curved prs) /\ Forall (fun p => 0 < ip (fst p) (snd p)) (filter curved prs).
Proof.
  intros Hp. split; apply Forall_forall; intros p Hi; apply filter_In in Hi; destruct Hi as [Hi Hc].
  - rewrite Forall_forall in Hp. exact (Hp p Hi).
  - unfold curved in Hc. destruct (Rlt_dec 0 (ip (fst p) (snd p))); [assumption|discriminate].
Qed.
Lemma scale_pos prs : Forall (fun p => length (fst p) = n /\ length (snd p) = n) prs -> 0 < initial_scale (filter curved prs).
Proof.
  intros Hp. destruct (used_ok prs Hp) as [Hv Hc]. destruct (filter curved prs) as [|[s y] l]; [simpl; lra|]. simpl.
  pose proof (Forall_inv Hv) as [L1 L2]. pose proof (Forall_inv Hc) as Hcc. simpl in L1, L2, Hcc.
  apply Rdiv_lt_0_compat; [exact Hcc|]. exact (ip_pos_yy n s y L1 L2 Hcc).
Qed.

(** The direction is a linear function H of the gradient, H is symmetric and positive definite whatever the memorized pairs (so
    that a direction for a non zero gradient is an ascent direction) and the most recent pair of positive curvature satisfies
    the secant equation. *)
Theorem C25_operator prs : Forall (fun p => length (fst p) = n /\ length (snd p) = n) prs ->
  (forall a b u v, length u = n -> length v = n -> lbfgs_direction prs (lin a u b v) = lin a (lbfgs_direction prs u) b (lbfgs_direction prs v)) /\
  (forall u v, length u = n -> length v = n -> ip u (lbfgs_direction prs v) = ip v (lbfgs_direction prs u)) /\
  (forall v, length v = n -> v <> repeat 0 n -> 0 < ip v (lbfgs_direction prs v)) /\
  (forall s y older, filter curved prs = (s, y) :: older -> lbfgs_direction prs y = s).
Proof.
  intros Hp. destruct (used_ok prs Hp) as [Hv Hc]. pose proof (scale_pos prs Hp) as Hg. unfold lbfgs_direction. split; [|split; [|split]].
  - intros a b u v Hu Hv'. apply (product_linear n); auto.
  - intros u v Hu Hv'. apply (product_symmetric n); auto.
  - intros v Hl Hne. destruct (product_positive n _ _ Hg Hv Hc v Hl) as [P1 P2]. destruct (Req_dec (ip v (lbfgs_product (initial_scale (filter curved prs)) (filter curved prs) v)) 0) as [E|E]; [|lra].
    destruct Hne. apply (ip_zero n); auto.
  - intros s y older E. rewrite E in *. apply (product_secant n); [exact (Forall_inv Hv)|exact (Forall_inv_tail Hv)|exact (Forall_inv Hc)].
Qed.
End Operator.
Print Assumptions C25_operator.

Lemma curved_yes p : 0 < ip (fst p) (snd p) -> curved p = true.
Proof. unfold curved. case Rlt_dec; [reflexivity|contradiction]. Qed.
Lemma curved_no p : ip (fst p) (snd p) <= 0 -> curved p = false.
Proof. unfold curved. case Rlt_dec; [lra|reflexivity]. Qed.

(** Two pairs of which one has a negative curvature. *)
Example C25_operator_example : let prs := [([1; 0], [-1; 3]); ([1; 0], [2; 1])] in
  Forall (fun p : list R * list R => length (fst p) = 2%nat /\ length (snd p) = 2%nat) prs /\
  filter curved prs = [([1; 0], [2; 1])] /\ lbfgs_direction prs [2; 1] = [1; 0] /\ lbfgs_direction prs [0; 1] = [-(1/5); 2/5].
Proof.
  intros prs. assert (Ef : filter curved prs = [([1; 0], [2; 1])]).
  { unfold prs. cbn [filter]. rewrite (curved_no ([1; 0], [-1; 3])) by (unfold ip, map2, rsum; simpl; lra). rewrite (curved_yes ([1; 0], [2; 1])) by (unfold ip, map2, rsum; simpl; lra). reflexivity. }
  split; [unfold prs; repeat constructor|]. split; [exact Ef|]. unfold lbfgs_direction. rewrite Ef. unfold initial_scale, lbfgs_product, bfgs_update, ip, lin, map2, rsum. simpl.
  split; repeat (f_equal; try field).
Qed.

(** ** C25: the directions of the optimizer *)
Section Runs.
Variables H I : R.
Notation NR := (NumR H I).
Notation c := (cast_id NR).
Variable n : nat.
Notation SR := (list_space c n).

(** The memorized points, as lists. *)
Definition points (t : tally SR) : list (list R * list R) := map (fun p => (elts (fst p), elts (snd p))) (t_points t).
Definition added_pairs (opts : option (vmopts NR)) (size : Z) (o : vm SR) : nat :=
  Z.to_nat (if (vm_get_iterations o >=? 1)%Z then Z.min (Z.min (o_mem (the_opts opts)) size) (vm_get_mp (Some o) + 1) else vm_get_mp (Some o)).

Lemma iterate_new_x (o : vm SR) x f g : accepted (vm_get_task o) = true -> vm_iterate o x f g = vm_new_x o x f g.
Proof. unfold vm_get_task, vm_iterate. destruct (v_task o); try discriminate; reflexivity. Qed.

Lemma new_epsilon opts size lnsrch bx (o : vm SR) : new_vmlmb opts size lnsrch bx = Some o -> c_epsilon (v_cfg o) = o_epsilon (the_opts opts).
Proof.
  unfold new_vmlmb. fold (the_opts opts). destruct (negb _); [discriminate|]. destruct (_ || _); [discriminate|].
  match goal with |- (match ?e with Some _ => _ | None => None end) = _ -> _ => destruct e as [l|]; [|discriminate] end. injection 1 as <-. reflexivity.
Qed.
Lemma firstn_incl {A} k (l : list A) a : In a (firstn k l) -> In a l.
Proof. revert k. induction l as [|b l IH]; intros [|k]; simpl; try tauto. intros [->|Hi]; [auto|right; eapply IH; eauto]. Qed.
Lemma differences_length pts p : Forall (fun p : list R * list R => length (fst p) = n /\ length (snd p) = n) pts -> In p (differences pts) -> length (fst p) = n /\ length (snd p) = n.
Proof.
  induction pts as [|a pts IH]; intros Hp; [intros []|]. destruct pts as [|b pts]; [intros []|]. pose proof (Forall_inv Hp) as [A1 A2]. pose proof (Forall_inv_tail Hp) as Hp'.
  pose proof (Forall_inv Hp') as [B1 B2]. intros [<-|Hi]; [simpl; split; apply (lin_length n); auto|apply IH; auto].
Qed.

(** Without bounds: the direction is that of the limited memory BFGS approximation built with the differences between the
    successive points (the gradient itself when no memorized pair has a positive curvature), unless the threshold on the angle
    imposes to restart with the gradient. *)
Theorem C25_direction opts size lnsrch (o : vm SR) cs o' rs x f g o'' x' :
  new_optimizer opts size lnsrch None o -> vrun o cs = Some (o', rs) -> accepted (vm_get_task o') = true ->
  vm_iterate o' x f g = Some (o'', x') -> vm_get_task o'' = COMPUTE_FG ->
  let t := count_calls false None tally0 cs rs in
  let prs := firstn (added_pairs opts size o') (differences ((elts x, elts g) :: points t)) in
  let q := lbfgs_direction prs (elts g) in
  let epsilon := o_epsilon (the_opts opts) : R in
  let flat := 0 < epsilon /\ ip q (elts g) < epsilon * sqrt (ip q q) * (vm_get_gnorm (Some o') : R) in
  (flat -> elts (v_d o'') = elts g) /\ (~ flat -> elts (v_d o'') = q) /\
  (exists stp : R, 0 <= stp /\ (elts x' : list R) = lin 1 (elts x) (- stp) (elts (v_d o''))).
Proof.
  intros Hn Rn A E T. destruct (new_ok opts size lnsrch None o Hn) as (V0 & K & Eb & Em & Cm & _).
  assert (Eb0 : c_box (v_cfg o) = the_box c (None : option (bounds NR NR n))) by exact Eb.
  assert (Em' : c_method (v_cfg o) = LBFGS) by (apply K; exact Eb).
  assert (Bm : is_blmvm (c_method (v_cfg o)) = false) by (rewrite Em'; reflexivity).
  destruct (RI_run H I n None (v_cfg o) cs K Eb0 o tally0 o' rs V0 (RI_new H I n opts size lnsrch None o Hn) Rn) as [V Ri].
  rewrite Bm, Eb in V. set (t := count_calls false None tally0 cs rs) in *.
  rewrite iterate_new_x in E by exact A.
  destruct (new_x_value H I n None (v_cfg o) o' t x f g o'' x' K Eb0 V Ri A E) as (_ & D). specialize (D T). cbv zeta in D.
  assert (Ec : v_cfg o' = v_cfg o) by apply V.
  assert (Eg : gsave o' g = g) by (unfold gsave; rewrite Ec, Bm; reflexivity).
  rewrite Eg in D. unfold used_pairs, used_grad, too_flat, project in D. rewrite Ec, Em' in D. cbn [is_vmlmb] in D. rewrite Cm in D. cbv zeta.
  assert (Eps : c_epsilon (v_cfg o) = o_epsilon (the_opts opts)) by (apply (new_epsilon opts size lnsrch None); exact (proj1 Hn)). rewrite Eps in D.
  change (map (hp H I n) ((x, g) :: t_points t)) with ((elts x, elts g) :: points t) in D.
  change (Z.to_nat (if (v_iters o' >=? 1)%Z then Z.min (Z.min (o_mem (the_opts opts)) size) (b_mp (v_lb o') + 1) else b_mp (v_lb o'))) with (added_pairs opts size o') in D.
  set (prs := firstn (added_pairs opts size o') (differences ((elts x, elts g) :: points t))) in *.
  change (el H I n g) with (elts g : list R) in D. change (el H I n (v_d o'')) with (elts (v_d o'') : list R) in D.
  set (q := lbfgs_direction prs (elts g)) in *. unfold nrm in D. change (vm_get_gnorm (Some o')) with (v_gnorm o').
  assert (Lg : length (elts g : list R) = n) by apply (el_length H I n).
  assert (Hp : Forall (fun p : list R * list R => length (fst p) = n /\ length (snd p) = n) prs).
  { unfold prs. apply Forall_forall. intros p Hi. eapply differences_length; [|exact (firstn_incl _ _ _ Hi)]. constructor; [split; apply (el_length H I n)|].
    unfold points. apply Forall_forall. intros p' Hi'. apply in_map_iff in Hi'. destruct Hi' as (p0 & <- & _). split; apply (el_length H I n). }
  split; [|split].
  - intros [F1 F2]. rewrite (Rlt_bool_true 0) in D by exact F1. rewrite (Rlt_bool_true (ip q (elts g))) in D by exact F2. rewrite andb_false_r in D. exact D.
  - intros Nf. assert (Tf : Rlt_bool 0 (o_epsilon (the_opts opts)) && Rlt_bool (ip q (elts g)) (o_epsilon (the_opts opts) * sqrt (ip q q) * v_gnorm o') = false).
    { destruct (Rlt_bool_spec 0 (o_epsilon (the_opts opts) : R)); [|reflexivity]. apply Rlt_bool_false. destruct (Rlt_le_dec (ip q (elts g)) (o_epsilon (the_opts opts) * sqrt (ip q q) * v_gnorm o')); [destruct Nf; split; assumption|assumption]. }
    refine (eq_trans D _). change (num NR) with R in *. rewrite Tf. cbn [negb]. destruct (existsb curved prs) eqn:Ex; cbn [andb].
    + destruct (Rlt_bool_spec 0 (ip q (elts g))) as [C|C]; [reflexivity|].
      destruct (C25_operator n prs Hp) as (_ & _ & P & _). destruct (list_eq_dec Req_EM_T (elts g : list R) (repeat 0 n)) as [Z|Z].
      * unfold q. unfold lbfgs_direction. refine (eq_trans Z _). rewrite Z. symmetry. apply (product_zeros n). exact (proj1 (used_ok n prs Hp)).
      * specialize (P _ Lg Z). fold q in P. rewrite ip_sym in P. exfalso. apply (Rlt_irrefl 0). eapply Rlt_le_trans; [exact P|exact C].
    + unfold q, lbfgs_direction. rewrite existsb_filter in Ex. destruct (filter curved prs); [|discriminate]. simpl.
      symmetry. rewrite (map_ext _ (fun a : R => a)); [apply map_id|]. intros a. ring.
  - assert (W : box_works (c_box (v_cfg o))) by (rewrite Eb; intros b; discriminate).
    destruct (new_x_ok (v_cfg o) o' t x f g K W V A) as (o3 & x3 & E3 & _ & _ & X & V3). rewrite E in E3. injection E3 as <- <-. destruct (X T) as (Ex & _).
    exists (v_stp o''). split.
    + assert (Se : l_stp (v_ls o'') = v_stp o'').
      { destruct V3 as (_ & _ & _ & _ & _ & _ & _ & _ & _ & V3). unfold vm_get_task in T. rewrite T in V3. unfold tally_step in V3.
        assert (Et : accepted (t_task t) = true) by (assert (Y : v_task o' = t_task t) by apply V; rewrite <- Y; exact A).
        destruct (t_task t); try discriminate Et; cbn [t_evals t_points] in V3; destruct V3 as [(_ & _ & V3)|(_ & _ & p & pts & _ & _ & _ & Se & Se2 & _)]; try discriminate V3; exact Se2. }
      destruct (new_x_frame _ _ _ _ _ _ E) as (_ & _ & Fr). destruct (Fr T) as (Ft & dtg & s0 & smin & smax & Es).
      destruct (start_bounded H I (v_ls o') (v_ls o'') f dtg s0 smin smax Es Ft) as (B1 & B2 & _). change (num NR) with R in *. rewrite <- Se. lra.
    + rewrite Ex. unfold trial_point. assert (Ec'' : v_cfg o'' = v_cfg o) by apply V3. rewrite Ec'', Eb.
      exact (l_axpby_R H I n 1 (- v_stp o'') (elts x) (elts (v_d o'')) (el_length H I n x) (el_length H I n (v_d o''))).
Qed.

(** With bounds: [w] is 1 for the variables that are free at the last accepted point, 0 for the others. *)
Definition free_weights (b : bounds NR NR n) (t : tally SR) : list R := k_boxfreevar c false (lower b) (upper b) (elts (t_x t)) (elts (t_g t)).
(** The direction projected by the bounds at the point [x]. *)
Definition projected (b : bounds NR NR n) (x : SR) (d : list R) : list R := k_boxprojdir c false (lower b) (upper b) (elts x) (d : list NR).

(** The algorithm VMLMB (default): everything is restricted to the free variables, then projected. *)
Theorem C25_free_direction opts size lnsrch (b : bounds NR NR n) (o : vm SR) cs o' rs x f g o'' x' :
  new_optimizer opts size lnsrch (the_box c (Some b)) o -> uses_blmvm opts (the_box c (Some b)) = false ->
  vrun o cs = Some (o', rs) -> accepted (vm_get_task o') = true ->
  vm_iterate o' x f g = Some (o'', x') -> vm_get_task o'' = COMPUTE_FG ->
  let t := count_calls false (the_box c (Some b)) tally0 cs rs in
  let w := free_weights b t in
  let prs := map (free_pair w) (firstn (added_pairs opts size o') (differences ((elts x, elts g) :: points t))) in
  let q := projected b x (lbfgs_direction prs (free_part w (elts g))) in
  let epsilon := o_epsilon (the_opts opts) : R in
  let usable := filter curved prs <> [] /\ 0 < ip q (elts g) /\ ~ (0 < epsilon /\ ip q (elts g) < epsilon * sqrt (ip q q) * (vm_get_gnorm (Some o') : R)) in
  (usable -> elts (v_d o'') = q) /\ (~ usable -> elts (v_d o'') = free_part w (elts g)).
Proof.
  intros Hn Bl Rn A E T. destruct (new_ok opts size lnsrch _ o Hn) as (V0 & K & Eb & Em & Cm & _). rewrite Bl in Em.
  assert (Em' : c_method (v_cfg o) = VMLMB) by (unfold cfg_ok in K; rewrite Eb in K; destruct (c_method (v_cfg o)); [pose proof (proj2 K eq_refl); discriminate|reflexivity|discriminate]).
  destruct (RI_run H I n (Some b) (v_cfg o) cs K Eb o tally0 o' rs V0 (RI_new H I n opts size lnsrch _ o Hn) Rn) as [V Ri].
  rewrite Em, Eb in V. set (t := count_calls false (the_box c (Some b)) tally0 cs rs) in *.
  rewrite iterate_new_x in E by exact A.
  destruct (new_x_value H I n (Some b) (v_cfg o) o' t x f g o'' x' K Eb V Ri A E) as (_ & D). specialize (D T). cbv zeta in D.
  assert (Ec : v_cfg o' = v_cfg o) by apply V.
  assert (Eg : gsave o' g = g) by (unfold gsave; rewrite Ec, Em; reflexivity).
  assert (Ew : v_w o' = snd (freevar (list_box c n (lower b) (upper b) (lower_size b) (upper_size b)) (t_x t) (t_g t))).
  { assert (Hw : weights o' (t_x t) (t_g t)).
    { destruct V as (_ & _ & _ & Et & _ & _ & _ & _ & _ & V). unfold vm_get_task in A. destruct (v_task o'); try discriminate A; apply V. }
    apply Hw. rewrite Ec. exact Eb. }
  rewrite Eg in D. unfold used_pairs, used_grad, too_flat, project in D. rewrite Ec, Em', Ew in D. cbn [is_vmlmb] in D. rewrite Cm in D. cbv zeta.
  assert (Eps : c_epsilon (v_cfg o) = o_epsilon (the_opts opts)) by (eapply new_epsilon; exact (proj1 Hn)). rewrite Eps in D.
  change (map (hp H I n) ((x, g) :: t_points t)) with ((elts x, elts g) :: points t) in D.
  change (Z.to_nat (if (v_iters o' >=? 1)%Z then Z.min (Z.min (o_mem (the_opts opts)) size) (b_mp (v_lb o') + 1) else b_mp (v_lb o'))) with (added_pairs opts size o') in D.
  change (el H I n (snd (freevar (list_box c n (lower b) (upper b) (lower_size b) (upper_size b)) (t_x t) (t_g t)))) with (free_weights b t) in D.
  set (w := free_weights b t) in *.
  set (prs := map (free_pair w) (firstn (added_pairs opts size o') (differences ((elts x, elts g) :: points t)))) in *.
  change (el H I n g) with (elts g : list R) in D. change (el H I n (v_d o'')) with (elts (v_d o'') : list R) in D. change (el H I n x) with (elts x : list R) in D.
  change (k_boxprojdir c false (lower b) (upper b) (elts x) (lbfgs_direction prs (free_part w (elts g)))) with (projected b x (lbfgs_direction prs (free_part w (elts g)))) in D.
  set (q := projected b x (lbfgs_direction prs (free_part w (elts g)))) in *. unfold nrm in D. change (vm_get_gnorm (Some o')) with (v_gnorm o').
  change (num NR) with R in *. rewrite existsb_filter in D.
  destruct (filter curved prs) as [|p0 l0]; [split; [intros (X & _); destruct X; reflexivity|intros _; exact D]|]. cbn [andb] in D.
  destruct (Rlt_bool_spec 0 (ip q (elts g))) as [C|C].
  2: { rewrite andb_false_r in D. split; [intros (_ & X & _); exfalso; apply (Rlt_irrefl 0); eapply Rlt_le_trans; [exact X|exact C]|intros _; exact D]. }
  rewrite andb_true_r in D. destruct (Rlt_bool_spec 0 (o_epsilon (the_opts opts) : R)) as [C1|C1]; cbn [andb negb] in D.
  - destruct (Rlt_bool_spec (ip q (elts g)) (o_epsilon (the_opts opts) * sqrt (ip q q) * v_gnorm o')) as [C2|C2]; cbn [negb] in D.
    + split; [intros (_ & _ & X); destruct X; split; assumption|intros _; exact D].
    + split; [intros _; exact D|]. intros X. destruct X. split; [discriminate|]. split; [exact C|]. intros [_ Y]. apply (Rlt_irrefl (ip q (elts g))). eapply Rlt_le_trans; [exact Y|exact C2].
  - split; [intros _; exact D|]. intros X. destruct X. split; [discriminate|]. split; [exact C|]. intros [Y _]. apply (Rlt_irrefl 0). eapply Rlt_le_trans; [exact Y|exact C1].
Qed.

(** The algorithm BLMVM: the pairs are made of the projected gradients, the product is applied to the gradient, then projected. *)
Theorem C25_blmvm_direction opts size lnsrch (b : bounds NR NR n) (o : vm SR) cs o' rs x f g o'' x' :
  new_optimizer opts size lnsrch (the_box c (Some b)) o -> uses_blmvm opts (the_box c (Some b)) = true ->
  vrun o cs = Some (o', rs) -> accepted (vm_get_task o') = true ->
  vm_iterate o' x f g = Some (o'', x') -> vm_get_task o'' = COMPUTE_FG ->
  let t := count_calls true (the_box c (Some b)) tally0 cs rs in
  let pg := free_part (free_weights b t) (elts (t_g t)) in
  let prs := firstn (added_pairs opts size o') (differences ((elts x, pg) :: points t)) in
  let q := projected b x (lbfgs_direction prs (elts g)) in
  let epsilon := o_epsilon (the_opts opts) : R in
  let usable := filter curved prs <> [] /\ 0 < ip q (elts g) /\ ~ (0 < epsilon /\ ip q (elts g) < epsilon * sqrt (ip q q) * (vm_get_gnorm (Some o') : R)) in
  (usable -> elts (v_d o'') = q) /\ (~ usable -> elts (v_d o'') = pg).
Proof.
  intros Hn Bl Rn A E T. destruct (new_ok opts size lnsrch _ o Hn) as (V0 & K & Eb & Em & Cm & _). rewrite Bl in Em.
  assert (Em' : c_method (v_cfg o) = BLMVM) by (destruct (c_method (v_cfg o)); try discriminate; reflexivity).
  destruct (RI_run H I n (Some b) (v_cfg o) cs K Eb o tally0 o' rs V0 (RI_new H I n opts size lnsrch _ o Hn) Rn) as [V Ri].
  rewrite Em, Eb in V. set (t := count_calls true (the_box c (Some b)) tally0 cs rs) in *.
  rewrite iterate_new_x in E by exact A.
  destruct (new_x_value H I n (Some b) (v_cfg o) o' t x f g o'' x' K Eb V Ri A E) as (_ & D). specialize (D T). cbv zeta in D.
  assert (Ec : v_cfg o' = v_cfg o) by apply V.
  assert (Ew : v_gp o' = pgrad (the_box c (Some b)) (t_x t) (t_g t)).
  { assert (Ha : at_accepted o' t).
    { destruct V as (_ & _ & _ & Et & _ & _ & _ & _ & _ & V). unfold vm_get_task in A. destruct (v_task o'); try discriminate A; apply V. }
    destruct Ha as (_ & _ & Ha). rewrite Ec, Eb in Ha. apply Ha. exact Em. }
  assert (Eg : gsave o' g = v_gp o') by (unfold gsave; rewrite Ec, Em; reflexivity).
  rewrite Eg in D. unfold used_pairs, used_grad, too_flat, project in D. rewrite Ec, Em', Ew in D. cbn [is_vmlmb] in D. rewrite Cm in D. cbv zeta.
  assert (Eps : c_epsilon (v_cfg o) = o_epsilon (the_opts opts)) by (eapply new_epsilon; exact (proj1 Hn)). rewrite Eps in D.
  set (pg := free_part (free_weights b t) (elts (t_g t))).
  change (map (hp H I n) ((x, pgrad (the_box c (Some b)) (t_x t) (t_g t)) :: t_points t)) with ((elts x, pg) :: points t) in D.
  change (Z.to_nat (if (v_iters o' >=? 1)%Z then Z.min (Z.min (o_mem (the_opts opts)) size) (b_mp (v_lb o') + 1) else b_mp (v_lb o'))) with (added_pairs opts size o') in D.
  set (prs := firstn (added_pairs opts size o') (differences ((elts x, pg) :: points t))) in *.
  change (el H I n (pgrad (the_box c (Some b)) (t_x t) (t_g t))) with pg in D.
  change (el H I n g) with (elts g : list R) in D. change (el H I n (v_d o'')) with (elts (v_d o'') : list R) in D. change (el H I n x) with (elts x : list R) in D.
  change (k_boxprojdir c false (lower b) (upper b) (elts x) (lbfgs_direction prs (elts g))) with (projected b x (lbfgs_direction prs (elts g))) in D.
  set (q := projected b x (lbfgs_direction prs (elts g))) in *. unfold nrm in D. change (vm_get_gnorm (Some o')) with (v_gnorm o').
  change (num NR) with R in *. rewrite existsb_filter in D.
  destruct (filter curved prs) as [|p0 l0]; [split; [intros (X & _); destruct X; reflexivity|intros _; exact D]|]. cbn [andb] in D.
  destruct (Rlt_bool_spec 0 (ip q (elts g))) as [C|C].
  2: { rewrite andb_false_r in D. split; [intros (_ & X & _); exfalso; apply (Rlt_irrefl 0); eapply Rlt_le_trans; [exact X|exact C]|intros _; exact D]. }
  rewrite andb_true_r in D. destruct (Rlt_bool_spec 0 (o_epsilon (the_opts opts) : R)) as [C1|C1]; cbn [andb negb] in D.
  - destruct (Rlt_bool_spec (ip q (elts g)) (o_epsilon (the_opts opts) * sqrt (ip q q) * v_gnorm o')) as [C2|C2]; cbn [negb] in D.
    + split; [intros (_ & _ & X); destruct X; split; assumption|intros _; exact D].
    + split; [intros _; exact D|]. intros X. destruct X. split; [discriminate|]. split; [exact C|]. intros [_ Y]. apply (Rlt_irrefl (ip q (elts g))). eapply Rlt_le_trans; [exact Y|exact C2].
  - split; [intros _; exact D|]. intros X. destruct X. split; [discriminate|]. split; [exact C|]. intros [Y _]. apply (Rlt_irrefl 0). eapply Rlt_le_trans; [exact Y|exact C1].
Qed.
End Runs.
Print Assumptions C25_direction.
Print Assumptions C25_free_direction.
Print Assumptions C25_blmvm_direction.

(** The hypotheses of the theorems about the directions: [C26_example] ends with such a call (without bounds). *)
Example C25_example : exists (o o1 o' : vm (list_space (cast_id (NumR 100 200)) 1)) cs rs x (f : NumR 100 200) g x',
  new_optimizer None 1 None None o /\ vrun o cs = Some (o1, rs) /\ accepted (vm_get_task o1) = true /\
  vm_iterate o1 x f g = Some (o', x') /\ vm_get_task o' = COMPUTE_FG.
Proof.
  destruct C26_example as (o & o1 & o' & cs & rs & x0 & g0 & cl & r & Hn & R1 & T1 & R2 & Ev & T2 & Tp).
  assert (X : exists x f g x', vm_iterate o1 x f g = Some (o', x')).
  { assert (Ap : forall cs0 (o0 : vm (list_space (cast_id (NumR 100 200)) 1)) oa ra ob rb, vrun o0 cs0 = Some (oa, ra) -> vrun o0 (cs0 ++ [cl]) = Some (ob, rb) -> exists rr, vdo oa cl = Some (ob, rr)).
    { induction cs0 as [|c0 cs0 IH]; intros o0 oa ra ob rb Ha Hb.
      - injection Ha as <- <-. cbn [app vrun] in Hb. destruct (vdo o0 cl) as [[o2 r2]|]; [|discriminate]. injection Hb as <- <-. eauto.
      - cbn [app vrun] in Ha, Hb. destruct (vdo o0 c0) as [[o2 r2]|]; [|discriminate]. destruct (vrun o2 cs0) as [[o3 r3]|] eqn:E3; [|discriminate]. injection Ha as <- <-.
        destruct (vrun o2 (cs0 ++ [cl])) as [[o4 r4]|] eqn:E4; [|discriminate]. injection Hb as <- <-. eapply IH; eauto. }
    destruct (Ap cs o _ _ _ _ R1 R2) as (rr & Hd). destruct cl as [x|x f g].
    - exfalso. unfold vm_get_task in *. unfold vdo in Hd. destruct (vm_start o1 x) as [oo xx] eqn:Es. injection Hd as -> <-.
      assert (Pt : forall a b, count_calls (uses_blmvm (N := NumR 100 200) (S := list_space (cast_id (NumR 100 200)) 1) None None) None tally0 (a ++ [VStart x]) (b ++ [r]) =
        count_calls (uses_blmvm (N := NumR 100 200) (S := list_space (cast_id (NumR 100 200)) 1) None None) None tally0 (a ++ [VStart x]) (b ++ [r])) by reflexivity.
      assert (Q : length cs = length rs).
      { destruct (C20_protocol _ _ None 1 None None o cs Hn) as (oz & rz & Rz & Lz & _); [intros bb; discriminate|]. rewrite R1 in Rz. injection Rz as <- <-. symmetry. exact Lz. }
      assert (Z : forall a b tt, length a = length b -> t_points (count_calls (S := list_space (cast_id (NumR 100 200)) 1) false None tt (a ++ [VStart x]) (b ++ [r])) = []).
      { induction a as [|a0 a IH]; intros [|b0 b] tt L; try discriminate L; [destruct r; reflexivity|]. cbn [app count_calls]. destruct b0. apply IH. injection L. auto. }
      pose proof (Z cs rs tally0 Q) as Zz. change (uses_blmvm None None) with false in Tp. rewrite Zz in Tp. discriminate Tp.
    - unfold vdo in Hd. destruct (vm_iterate o1 x f g) as [[oo xx]|] eqn:Ei; [|discriminate]. injection Hd as -> _. eauto. }
  destruct X as (x & f & g & x' & Ei). exists o, o1, o', cs, rs, x, f, g, x'. split; [exact Hn|]. split; [exact R1|]. split; [rewrite T1; reflexivity|]. split; [exact Ei|exact T2].
Qed.
