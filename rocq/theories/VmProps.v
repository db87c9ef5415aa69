(** * Properties of the quasi-Newton optimizer (C20, C21, C24, C46) *)
From Coq Require Import List ZArith Bool Arith Lia Reals Lra.
From Flocq Require Import Core BinarySingleNaN.
From Verif Require Import Num NumFacts OrdFacts ListFacts VecModel VecProofs Base LsModel LsSpec LsProofs LsOrd BoxSpec BoxProofs OptSpace VmModel VmSpec VmProofs.
Import ListNotations.

(** ** Examples: a quadratic function of two variables, f(x) = (x1 - 3)^2 + 4 (x2 + 1)^2 *)
Definition SD : Space NumD := list_space (cast_id NumD) 2.
Definition pt (a b : NumD) : SD := exist _ [a; b] eq_refl.
Definition ex_x (a b : Z) : SD := pt (nZ a) (nZ b).
Definition ex_f (x : SD) : NumD :=
  match elts x with [a; b] => ((a - nZ 3) * (a - nZ 3) + nZ 4 * ((b + nZ 1) * (b + nZ 1)))%num | _ => nZ 0 end.
Definition ex_g (x : SD) : SD :=
  match elts x with [a; b] => pt (nZ 2 * (a - nZ 3))%num (nZ 8 * (b + nZ 1))%num | _ => ex_x 0 0 end.
Definition ex_box : Convex SD := list_box (cast_id NumD) 2 (BScalar (nZ (-4))) (BScalar (nZ 6)) I I.
(** A caller who gives the function value and the gradient at the variables, [n] times. *)
Fixpoint ex_loop (n : nat) (o : vm SD) (x : SD) : list (vcall SD) :=
  match n with
  | O => []
  | S n => VIterate x (ex_f x) (ex_g x) ::
           match vm_iterate o x (ex_f x) (ex_g x) with Some (o', x') => ex_loop n o' x' | None => [] end
  end.
Definition ex_calls (n : nat) (o : vm SD) (x : SD) : list (vcall SD) :=
  VStart x :: let '(o', x') := vm_start o x in ex_loop n o' x'.
Definition ex_tasks (box : option (Convex SD)) (n : nat) : list Z :=
  match new_vmlmb None 2 None box with
  | Some o => match vrun o (ex_calls n o (ex_x 5 1)) with Some (_, rs) => map (fun r => task_code (fst r)) rs | None => [] end
  | None => []
  end.
Lemma list_box_works {D E : Num} (c : Cast D E) n lo hi Hlo Hhi : box_works (Some (list_box c n lo hi Hlo Hhi)).
Proof. intros b [= <-]. split; [reflexivity|]. intros x d. eexists. reflexivity. Qed.
Lemma no_box_works {D : Num} (S : Space D) : box_works (None : option (Convex S)).
Proof. intros b [=]. Qed.
Definition is_some {A : Type} (a : option A) : bool := match a with Some _ => true | None => false end.
Lemma is_some_ex {A : Type} (a : option A) : is_some a = true -> exists b, a = Some b.
Proof. destruct a; [eauto|discriminate]. Qed.
Example ex_new : exists o : vm SD, new_optimizer None 2 None (Some ex_box) o.
Proof.
  destruct (is_some_ex (new_vmlmb (S := SD) None 2 None (Some ex_box))) as (o & E); [vm_compute; reflexivity|].
  exists o. split; [exact E|discriminate].
Qed.
Example ex_run : ex_tasks (Some ex_box) 19 = [1; 2; 1; 2; 1; 2; 1; 2; 1; 2; 1; 2; 1; 2; 1; 2; 1; 2; 1; 3]%Z.
Proof. vm_compute. reflexivity. Qed.

(** ** C20: protocol and counters

    For every sequence of calls [cs] with arbitrary values (any arithmetic, any vector space and convex set). *)
Theorem C20_protocol (N : Num) (S : Space N) opts size lnsrch (box : option (Convex S)) o cs :
  new_optimizer opts size lnsrch box o -> box_works box ->
  exists o' rs, vrun o cs = Some (o', rs) /\ length rs = length cs /\
  let t := count_calls (uses_blmvm opts box) box tally0 cs rs in
  (* accessors *)
  vm_get_task o' = t_task t /\ In (t_task t) [COMPUTE_FG; NEW_X; FINAL_X; ERROR] /\
  vm_get_evaluations o' = t_evals t /\ vm_get_iterations o' = Z.max 0 (t_accepted t - 1) /\
  (0 <= vm_get_restarts o' <= vm_get_iterations o')%Z /\ (vm_get_iterations o' <= vm_get_evaluations o')%Z /\
  (* one more iteration *)
  forall x f g, exists o'' x', vm_iterate o' x f g = Some (o'', x') /\
    (vm_get_evaluations o' <= vm_get_evaluations o'' <= vm_get_evaluations o' + 1)%Z /\
    (vm_get_iterations o' <= vm_get_iterations o'' <= vm_get_iterations o' + 1)%Z /\
    (vm_get_restarts o' <= vm_get_restarts o'' <= vm_get_restarts o' + 1)%Z /\
    match t_task t with
    | COMPUTE_FG => In (vm_get_task o'') [COMPUTE_FG; NEW_X; FINAL_X; ERROR] /\
        vm_get_evaluations o'' = (vm_get_evaluations o' + 1)%Z /\ vm_get_restarts o'' = vm_get_restarts o' /\
        (t_evals t = 0%Z -> accepted (vm_get_task o'') = true)
    | NEW_X | FINAL_X => In (vm_get_task o'') [COMPUTE_FG; ERROR] /\
        vm_get_evaluations o'' = vm_get_evaluations o' /\ vm_get_iterations o'' = vm_get_iterations o'
    | _ => o'' = o' /\ x' = x
    end.
Proof.
  intros Hn W. destruct (new_ok opts size lnsrch box o Hn) as (V0 & K & Eb & Em & _).
  rewrite <- Em, <- Eb. rewrite <- Eb in W. clear Em Eb. set (cfg := v_cfg o) in *.
  destruct (vrun_ok cfg o tally0 cs K W V0) as (o' & rs & R & L & V).
  exists o', rs. split; [exact R|]. split; [exact L|]. cbv zeta. set (t := count_calls _ _ _ cs rs) in *.
  pose proof V as (V1 & (V2 & _ & Vu) & V3 & V4 & V5 & V6 & V7 & V8 & V9 & V10).
  unfold vm_get_task, vm_get_evaluations, vm_get_iterations, vm_get_restarts.
  split; [exact V4|]. assert (I4 : In (t_task t) [COMPUTE_FG; NEW_X; FINAL_X; ERROR]).
  { rewrite <- V4. destruct (v_task o'); simpl; auto 10; contradiction. }
  split; [exact I4|]. split; [exact V5|]. split; [exact V6|]. split; [lia|]. split; [lia|].
  intros x f g. unfold vm_iterate. rewrite <- V4. destruct (v_task o') eqn:Et; try contradiction V10.
  - exists o', x. split; [reflexivity|]. repeat split; lia.
  - destruct (check_ok cfg o' t x f g K W V Et) as (o'' & x' & E & Er & E0 & _ & _ & V').
    exists o'', x'. split; [exact E|]. rewrite Er.
    destruct V' as (W1 & _ & _ & W4 & W5 & W6 & _ & _ & _ & W10).
    unfold tally_step in W4, W5, W6, W10. rewrite <- V4 in W4, W5, W6, W10.
    assert (I5 : In (v_task o'') [COMPUTE_FG; NEW_X; FINAL_X; ERROR]).
    { destruct (v_task o''); simpl; auto 10; contradiction. }
    assert (v_evals o'' = v_evals o' + 1 /\ v_iters o' <= v_iters o'' <= v_iters o' + 1)%Z as (A1 & A2).
    { destruct (accepted (v_task o'')); simpl in W5, W6; lia. }
    split; [lia|]. split; [exact A2|]. split; [lia|]. split; [exact I5|]. split; [exact A1|]. split; [reflexivity|].
    intros X. specialize (E0 X). destruct E0 as (E0 & _). destruct (v_task o'') eqn:Et2; auto; try congruence.
    all: try contradiction W10. simpl in W10. destruct W10 as [(W10 & _)|(_ & W10 & p & pts & Wp & _)]; [lia|].
    destruct V10 as [(_ & _ & V10)|(V10 & _)]; [congruence|lia].
  - destruct (new_x_ok cfg o' t x f g K W V) as (o'' & x' & E & Er & Et2 & _ & V'); [rewrite Et; reflexivity|].
    exists o'', x'. split; [exact E|]. destruct V' as (W1 & _ & _ & W4 & W5 & W6 & _). unfold tally_step in W5, W6. rewrite <- V4 in W5, W6. cbn [t_evals t_accepted] in W5, W6.
    split; [lia|]. split; [lia|]. split; [lia|]. split; [simpl; intuition congruence|]. split; lia.
  - destruct (new_x_ok cfg o' t x f g K W V) as (o'' & x' & E & Er & Et2 & _ & V'); [rewrite Et; reflexivity|].
    exists o'', x'. split; [exact E|]. destruct V' as (W1 & _ & _ & W4 & W5 & W6 & _). unfold tally_step in W5, W6. rewrite <- V4 in W5, W6. cbn [t_evals t_accepted] in W5, W6.
    split; [lia|]. split; [lia|]. split; [lia|]. split; [simpl; intuition congruence|]. split; lia.
Qed.
Print Assumptions C20_protocol.

(** ** C21: convergence

    The reported norm is that of the gradient projected at the last accepted point (any arithmetic); FINAL_X is returned if and
    only if the convergence test holds, in any arithmetic with comparisons as in IEEE 754 (NaN included). *)
Theorem C21_convergence (N : Num) (O : OrdLaws N) (S : Space N) opts size lnsrch (box : option (Convex S)) o cs o' rs :
  isnum (nZ 0 : N) -> (forall z : N, nfin z = true -> isnum z) ->
  new_optimizer opts size lnsrch box o -> box_works box -> vrun o cs = Some (o', rs) ->
  let t := count_calls (uses_blmvm opts box) box tally0 cs rs in
  let gatol := o_gatol (the_opts opts) in let grtol := o_grtol (the_opts opts) in
  accepted (vm_get_task o') = true ->
  vm_get_gnorm (Some o') = pgnorm (uses_blmvm opts box) box (t_x t) (t_g t) /\
  (vm_get_task o' = FINAL_X <->
     (vm_get_gnorm (Some o') <=? nZ 0)%num = true \/ (vm_get_gnorm (Some o') <=? gatol)%num = true \/ (vm_get_gnorm (Some o') <=? grtol * t_ginit t)%num = true).
Proof.
  intros Z0 NF Hn W R t gatol grtol A. destruct (new_ok opts size lnsrch box o Hn) as (V0 & K & Eb & Em & _ & _ & Hck & Ega & Egr & _).
  rewrite <- Eb in W. destruct (vrun_ok (v_cfg o) o tally0 cs K W V0) as (o1 & rs1 & R1 & L & V).
  rewrite R in R1. injection R1 as <- <-. rewrite Em, Eb in V. fold t in V.
  destruct V as (V1 & _ & _ & V4 & _ & _ & _ & _ & _ & V10). unfold vm_get_task in *. unfold vm_get_gnorm.
  assert (B : at_accepted o' t /\ (v_task o' = FINAL_X <-> nle (v_gnorm o') (vmax3 (nZ 0) (c_gatol (v_cfg o)) (c_grtol (v_cfg o) * t_ginit t)%num) = true)).
  { destruct (v_task o'); try discriminate; tauto. }
  destruct B as ((G & _) & B). rewrite V1, Em, Eb in G. split; [exact G|]. rewrite B, Ega, Egr. fold gatol grtol.
  assert (Hg : isnum gatol /\ nle (nZ 0) gatol = true).
  { unfold vm_check_options in Hck. fold gatol in Hck. destruct (non_finite gatol) eqn:E1; [discriminate|]. destruct (nlt gatol (nZ 0)) eqn:E2; [discriminate|].
    assert (isnum gatol) by (apply NF; unfold non_finite in E1; destruct (nfin gatol); auto; discriminate).
    split; [assumption|]. apply (not_lt_le O); auto. }
  destruct Hg as (Ng & Hg). clear - O Z0 Ng Hg. set (z := v_gnorm o'). set (q := (grtol * t_ginit t)%num).
  unfold vmax3, OPK_MAX, isnum in *. generalize dependent gatol. intros gatol Ng Hg. generalize dependent q. intros q. clearbody z.
  keys O. destruct (key O (nZ 0)) as [k0|] eqn:K0; [|discriminate]. destruct (key O gatol) as [kg|] eqn:Kg; [|discriminate].
  apply Rle_bool_true_iff in Hg. destruct (key O q) as [kq|] eqn:Kq.
  - destruct (Rle_bool_spec kg kq).
    + destruct (Rle_bool_spec kq k0); rewrite ?Kq, ?K0; destruct (key O z); try (split; [discriminate|intuition discriminate]);
        rewrite ?Rle_bool_true_iff; (split; [intros; intuition lra|intros [X|[X|X]]; lra]).
    + destruct (Rle_bool_spec kg k0); rewrite ?Kg, ?K0; destruct (key O z); try (split; [discriminate|intuition discriminate]);
        rewrite ?Rle_bool_true_iff; (split; [intros; intuition lra|intros [X|[X|X]]; lra]).
  - destruct (Rle_bool_spec kg k0); rewrite ?Kg, ?K0; destruct (key O z); try (split; [discriminate|intuition discriminate]);
        rewrite ?Rle_bool_true_iff; (split; [intros; intuition lra|intros [X|[X|X]]; try discriminate; lra]).
Qed.
Print Assumptions C21_convergence.

(** The variables are left unchanged by the call that accepts them: the norm is that at the current variables. *)
Theorem C21_variables (N : Num) (S : Space N) opts size lnsrch (box : option (Convex S)) o cs o' rs x f g o'' x' :
  new_optimizer opts size lnsrch box o -> box_works box -> vrun o cs = Some (o', rs) ->
  vm_get_task o' = COMPUTE_FG -> vm_iterate o' x f g = Some (o'', x') -> accepted (vm_get_task o'') = true ->
  x' = x /\ vm_get_gnorm (Some o'') = pgnorm (uses_blmvm opts box) box x' g.
Proof.
  intros Hn W R E I A. destruct (new_ok opts size lnsrch box o Hn) as (V0 & K & Eb & Em & _).
  rewrite <- Eb in W. destruct (vrun_ok (v_cfg o) o tally0 cs K W V0) as (o1 & rs1 & R1 & L & V).
  rewrite R in R1. injection R1 as <- <-. unfold vm_get_task in *. unfold vm_iterate in I. rewrite E in I.
  destruct (check_ok (v_cfg o) o' _ x f g K W V E) as (o2 & x2 & I2 & _ & _ & _ & B & V').
  rewrite I in I2. injection I2 as <- <-. destruct (B A) as (-> & _). split; [reflexivity|].
  destruct V as (_ & _ & _ & V4 & _). rewrite E in V4. symmetry in V4.
  destruct V' as (V1 & _ & _ & _ & _ & _ & _ & _ & _ & V10). unfold tally_step in V10. rewrite V4, A in V10.
  assert (G : v_gnorm o'' = pgnorm (is_blmvm (c_method (v_cfg o''))) (c_box (v_cfg o'')) x g).
  { destruct (v_task o''); try discriminate; destruct V10 as (_ & _ & ((G & _) & _)); exact G. }
  unfold vm_get_gnorm. rewrite G, V1, Em, Eb. reflexivity.
Qed.
Print Assumptions C21_variables.

Lemma norm_exact (H I : R) n (lo hi : bound (NumR H I) (NumR H I)) (blmvm : bool) (x g : list R) :
  length x = n -> length g = n -> bound_size n lo -> bound_size n hi ->
  exists pg : list R, length pg = n /\
    (forall i xi gi pi, nth_error x i = Some xi -> nth_error g i = Some gi -> nth_error pg i = Some pi ->
       (blocked (cast_id (NumR H I)) false lo hi i xi gi -> pi = 0%R) /\ (~ blocked (cast_id (NumR H I)) false lo hi i xi gi -> pi = gi)) /\
    (let w := k_boxfreevar (cast_id (NumR H I)) false lo hi x g in
     if blmvm then k_norm2 (cast_id (NumR H I)) (k_product w g) else nsqrt (k_dot3 (cast_id (NumR H I)) w g g)) = R_sqrt.sqrt (rsum (map (fun a => a * a)%R pg)).
Proof.
  intros Hx Hg Hlo0 Hhi0. set (c := cast_id (NumR H I)).
  set (w := k_boxfreevar c false lo hi (x : list (NumR H I)) (g : list (NumR H I)) : list R).
  exists (map2 Rmult w g). rewrite <- Hx in Hlo0, Hhi0.
  assert (Lw : length w = n). { rewrite <- Hx. refine (freevar_length c false lo hi (x : list (NumR H I)) (g : list (NumR H I)) _ Hlo0 Hhi0). exact (eq_trans Hg (eq_sym Hx)). }
  assert (Wn : forall i xi gi, nth_error x i = Some xi -> nth_error g i = Some gi ->
    nth_error w i = Some (free_opt (E := NumR H I) false (bound_at c lo i) (bound_at c hi i) xi gi)).
  { intros i xi gi E1 E2. unfold w. pose proof (freevar_nth c false lo hi (x : list (NumR H I)) (g : list (NumR H I)) i) as F.
    change (num (NumR H I)) with R in *. rewrite F, E1, E2; auto. congruence. }
  assert (W01 : forall i wi, nth_error w i = Some wi -> wi = 0%R \/ wi = 1%R).
  { intros i wi E. assert (i < n)%nat by (rewrite <- Lw; apply nth_error_Some; congruence).
    destruct (nth_error_Some_ex x i) as (xi & Ex); [lia|]. destruct (nth_error_Some_ex g i) as (gi & Eg); [lia|].
    rewrite (Wn _ _ _ Ex Eg) in E. injection E as <-. unfold free_opt, free_lower, free_upper, free_boxed.
    change (num (NumR H I)) with R in *. destruct (bound_at c lo i), (bound_at c hi i); simpl; repeat match goal with |- context [if ?b then _ else _] => destruct b end; auto. }
  split; [rewrite (map2_length _ w g n); auto|]. split.
  - intros i xi gi pi Ex Eg Ep. rewrite map2_nth_error, (Wn _ _ _ Ex Eg), Eg in Ep. injection Ep as <-.
    pose proof (dir_opt_spec (OrdR H I) false (bound_at c lo i) (bound_at c hi i) (xi : NumR H I) (gi : NumR H I)) as D.
    cbv zeta in D.
    destruct D as (D1 & D2); try (intros; unfold is_num; simpl; apply Req_bool_true; reflexivity).
    unfold blocked. fold c.
    pose proof (free_opt_spec (OrdR H I) false (bound_at c lo i) (bound_at c hi i) (xi : NumR H I) (gi : NumR H I)) as F.
    cbv zeta in F.
    assert (HN : forall z : R, is_num (z : NumR H I)) by (intros; unfold is_num; simpl; apply Req_bool_true; reflexivity).
    specialize (F (HN 0%R) (HN gi)).
    destruct (bound_at c lo i) as [a|] eqn:Ea; [|destruct (bound_at c hi i) as [b|] eqn:Eb].
    3: { split; [intros [(_ & a & X & _)|(_ & a & X & _)]; discriminate|intros _; simpl; lra]. }
    + specialize (F ltac:(left; discriminate)). split; intros B.
      * specialize (D1 B). rewrite D1 in F. destruct F as [(_ & F)|(-> & _)]; [|simpl; lra].
        apply Req_bool_false_iff in F. exfalso; apply F; reflexivity.
      * destruct F as [(-> & _)|(-> & F)]; [simpl; lra|]. apply Req_bool_true_iff in F.
        destruct (D2 B) as [D|(D & _)]; [rewrite D in F; simpl in F|apply Req_bool_true_iff in D; simpl in D]; simpl; change (num (NumR H I)) with R in *; rewrite ?D, ?F; lra.
    + specialize (F ltac:(right; discriminate)). split; intros B.
      * specialize (D1 B). rewrite D1 in F. destruct F as [(_ & F)|(-> & _)]; [|simpl; lra].
        apply Req_bool_false_iff in F. exfalso; apply F; reflexivity.
      * destruct F as [(-> & _)|(-> & F)]; [simpl; lra|]. apply Req_bool_true_iff in F.
        destruct (D2 B) as [D|(D & _)]; [rewrite D in F; simpl in F|apply Req_bool_true_iff in D; simpl in D]; simpl; change (num (NumR H I)) with R in *; rewrite ?D, ?F; lra.
  - cbv zeta. fold c. change (k_boxfreevar c false lo hi (x : list (NumR H I)) (g : list (NumR H I))) with (w : list (NumR H I)).
    destruct blmvm.
    + rewrite norm2_R. unfold k_product. reflexivity.
    + refine (eq_trans (f_equal R_sqrt.sqrt (dot3_R H I w g g)) _). f_equal. f_equal. unfold map3. apply list_eq_nth_error. intros i. rewrite nth_error_map, !map2_nth_error, combine_nth_error.
      destruct (nth_error w i) as [wi|] eqn:Ew; [|destruct (nth_error g i); reflexivity]. destruct (nth_error g i) as [gi|] eqn:Eg; [|reflexivity].
      simpl. f_equal. destruct (W01 i wi Ew) as [-> | ->]; lra.
Qed.

(** In exact arithmetic, with a box: the norm of the gradient without the components of the variables that cannot move. *)
Theorem C21_norm_exact (H I : R) n (lo hi : bound (NumR H I) (NumR H I)) Hlo Hhi (blmvm : bool)
  (x g : list_space (cast_id (NumR H I)) n) :
  exists pg : list R, length pg = n /\
    (forall i xi gi pi, nth_error (elts x) i = Some xi -> nth_error (elts g) i = Some gi -> nth_error pg i = Some pi ->
       (blocked (cast_id (NumR H I)) false lo hi i xi gi -> pi = 0%R) /\ (~ blocked (cast_id (NumR H I)) false lo hi i xi gi -> pi = gi)) /\
    pgnorm blmvm (Some (list_box (cast_id _) n lo hi Hlo Hhi)) x g = R_sqrt.sqrt (rsum (map (fun a => a * a)%R pg)).
Proof.
  destruct x as [x Hx], g as [g Hg]. destruct (norm_exact H I n lo hi blmvm x g Hx Hg Hlo Hhi) as (pg & L & P & E).
  exists pg. split; [exact L|]. split; [exact P|]. refine (eq_trans _ E). destruct blmvm; reflexivity.
Qed.
Print Assumptions C21_norm_exact.

Example C21_example : exists (o : vm SD) o' rs, new_optimizer None 2 None (Some ex_box) o /\ vrun o (ex_calls 19 o (ex_x 5 1)) = Some (o', rs) /\
  vm_get_task o' = FINAL_X /\ box_works (Some ex_box).
Proof.
  destruct ex_new as (o & E). exists o. destruct (C20_protocol NumD SD None 2 None (Some ex_box) o (ex_calls 19 o (ex_x 5 1)) E (list_box_works _ _ _ _ _ _)) as (o' & rs & R & _).
  exists o', rs. split; [exact E|]. split; [exact R|]. split; [|apply list_box_works].
  assert (X : match new_vmlmb (S := SD) None 2 None (Some ex_box) with
    | Some o => match vrun o (ex_calls 19 o (ex_x 5 1)) with Some (o', _) => (task_code (vm_get_task o') =? 3)%Z | None => false end | None => false end = true)
    by (vm_compute; reflexivity).
  destruct E as (E & _). rewrite E in X. rewrite R in X. destruct (vm_get_task o'); try discriminate X. reflexivity.
Qed.

(** ** C24: the memory of the quasi-Newton updates

    [t_points t] are the points from which a line search has been started since the last start, most recent first: the stored
    pairs are the differences between consecutive ones.  Any arithmetic. *)
Theorem C24_memory (N : Num) (S : Space N) opts size lnsrch (box : option (Convex S)) o cs o' rs :
  new_optimizer opts size lnsrch box o -> box_works box -> vrun o cs = Some (o', rs) ->
  let t := count_calls (uses_blmvm opts box) box tally0 cs rs in
  let m := Z.min (o_mem (the_opts opts)) size in
  let mp := vm_get_mp (Some o') in
  (1 <= m)%Z /\ (0 <= mp <= m)%Z /\
  (forall j, (1 <= j <= mp)%Z -> exists x1 g1 x0 g0,
     nth_error (t_points t) (Z.to_nat (j - 1)) = Some (x1, g1) /\ nth_error (t_points t) (Z.to_nat j) = Some (x0, g0) /\
     vm_get_s (Some o') j = Some (Some (vaxpby (nZ 1) x1 (nZ (-1)) x0)) /\
     vm_get_y (Some o') j = Some (Some (vaxpby (nZ 1) g1 (nZ (-1)) g0))) /\
  (* index 0 is the slot of the next pair *)
  (exists s y, vm_get_s (Some o') 0 = Some (Some s) /\ vm_get_y (Some o') 0 = Some (Some y)) /\
  (forall j, (j < 0 \/ mp < j)%Z -> vm_get_s (Some o') j = Some None /\ vm_get_y (Some o') j = Some None) /\
  (* distinct vectors *)
  (forall i j, (1 <= i < j)%Z -> (j <= mp)%Z -> slot m (v_lb o') i <> slot m (v_lb o') j) /\
  (forall j, (1 <= j <= mp)%Z -> (mp < m)%Z -> slot m (v_lb o') 0 <> slot m (v_lb o') j).
Proof.
  intros Hn W R t m mp. destruct (new_ok opts size lnsrch box o Hn) as (V0 & K & Eb & Em & Cm & _).
  rewrite <- Eb in W. destruct (vrun_ok (v_cfg o) o tally0 cs K W V0) as (o1 & rs1 & R1 & L & V).
  rewrite R in R1. injection R1 as <- <-. rewrite Em, Eb in V. fold t in V.
  destruct V as (V1 & (V2 & Vp & _) & _). rewrite V1, Cm in *. fold m in V2, Vp.
  pose proof (lbo_mp _ _ V2) as Mp. pose proof (lbo_u _ _ V2) as Mu. pose proof (lbo_m _ _ V2) as M1.
  assert (Emp : mp = b_mp (v_lb o')) by reflexivity. clearbody mp. subst mp.
  split; [exact M1|]. split; [exact Mp|].
  assert (Rg : forall j, (0 <= j <= b_mp (v_lb o'))%Z -> ((0 <=? j)%Z && (j <=? b_mp (v_lb o'))%Z = true)).
  { intros j Hj. apply andb_true_intro. split; apply Z.leb_le; lia. }
  unfold vm_get_s, vm_get_y. rewrite V1, Cm. fold m.
  split; [|split; [|split; [|split]]].
  - intros j Hj. destruct (Vp j Hj) as ([x1 g1] & [x0 g0] & E1 & E2 & E3 & E4). exists x1, g1, x0, g0. split; [exact E1|]. split; [exact E2|].
    rewrite (Rg j) by lia. rewrite E3, E4. split; reflexivity.
  - rewrite (Rg 0%Z) by lia. pose proof (slot_range m (v_lb o') 0 M1 ltac:(lia)) as Rk.
    destruct (nthZ_ok (b_s (v_lb o')) (slot m (v_lb o') 0)) as (s & ->); [rewrite (lbo_s _ _ V2); lia|].
    destruct (nthZ_ok (b_y (v_lb o')) (slot m (v_lb o') 0)) as (y & ->); [rewrite (lbo_y _ _ V2); lia|]. eauto.
  - intros j Hj. assert ((0 <=? j)%Z && (j <=? b_mp (v_lb o'))%Z = false) as ->.
    { apply andb_false_iff. destruct Hj; [left|right]; apply Z.leb_gt; lia. } split; reflexivity.
  - intros i j Hi Hj. apply slot_neq; lia.
  - intros j Hj Hm. apply slot_neq; lia.
Qed.
Print Assumptions C24_memory.

(** The number of pairs: one more at each iteration up to the size of the memory; none after a restart; in the memory saving mode
    one is dropped when the memory is full, because its storage is needed to save the current point. *)
Theorem C24_growth (N : Num) (S : Space N) opts size lnsrch (box : option (Convex S)) o cs o' rs x f g o'' x' :
  new_optimizer opts size lnsrch box o -> box_works box -> vrun o cs = Some (o', rs) ->
  let m := Z.min (o_mem (the_opts opts)) size in
  accepted (vm_get_task o') = true -> vm_iterate o' x f g = Some (o'', x') -> vm_get_task o'' = COMPUTE_FG ->
  let added := if (vm_get_iterations o' >=? 1)%Z then Z.min m (vm_get_mp (Some o') + 1) else vm_get_mp (Some o') in
  let kept := if (vm_get_restarts o'' =? vm_get_restarts o')%Z then added else 0%Z in
  vm_get_mp (Some o'') = if o_save_memory (the_opts opts) then Z.min kept (m - 1) else kept.
Proof.
  intros Hn W R m A I E. destruct (new_ok opts size lnsrch box o Hn) as (V0 & K & Eb & Em & Cm & _ & _ & _ & _ & Cs).
  rewrite <- Eb in W. destruct (vrun_ok (v_cfg o) o tally0 cs K W V0) as (o1 & rs1 & R1 & L & V).
  rewrite R in R1. injection R1 as <- <-. unfold vm_get_task in *.
  destruct (new_x_ok (v_cfg o) o' _ x f g K W V A) as (o2 & x2 & I2 & _ & _ & M & _).
  assert (I3 : vm_iterate o' x f g = vm_new_x o' x f g) by (unfold vm_iterate; destruct (v_task o'); try discriminate; reflexivity).
  rewrite I, I2 in I3. injection I3 as <- <-. destruct (M E) as (_ & M'). rewrite Cm, Cs in M'. exact M'.
Qed.
Print Assumptions C24_growth.

(** After 15 calls of the example the memory (save memory mode, m = 2) holds one pair. *)
Example C24_example : match new_vmlmb (S := SD) None 2 None (Some ex_box) with
    | Some o => match vrun o (ex_calls 15 o (ex_x 5 1)) with Some (o', _) => (vm_get_mp (Some o') =? 1)%Z | None => false end | None => false end = true.
Proof. vm_compute. reflexivity. Qed.

(** ** C46: option checks (VMLMB)

    For any arithmetic with comparisons as in IEEE 754; [nfin] is "neither NaN nor infinite". *)
Theorem C46_vmlmb_options (N : Num) (O : OrdLaws N) (opts : option (vmopts N)) :
  isnum (nZ 0 : N) -> isnum (nZ 1 : N) -> (forall z : N, nfin z = true -> isnum z) ->
  (vm_check_options opts = SUCCESS <->
   exists p, opts = Some p /\
     nfin (o_gatol p) = true /\ nfin (o_grtol p) = true /\ nfin (o_delta p) = true /\ nfin (o_epsilon p) = true /\
     nfin (o_stpmin p) = true /\ nfin (o_stpmax p) = true /\
     (nZ 0 <=? o_gatol p)%num = true /\ (nZ 0 <=? o_grtol p)%num = true /\ (nZ 0 <? o_delta p)%num = true /\
     (nZ 0 <=? o_epsilon p)%num = true /\ (o_epsilon p <? nZ 1)%num = true /\
     (nZ 0 <=? o_stpmin p)%num = true /\ (o_stpmin p <? o_stpmax p)%num = true /\ (1 <= o_mem p)%Z) /\
  (vm_check_options opts <> SUCCESS -> vm_check_options opts = match opts with None => ILLEGAL_ADDRESS | Some _ => INVALID_ARGUMENT end).
Proof.
  unfold isnum. intros Z0 Z1 NF. split; [|destruct opts as [p|]; simpl; [destruct (_ || _); congruence|reflexivity]].
  destruct opts as [p|]; [|split; [discriminate|intros (p & X & _); discriminate]].
  unfold vm_check_options, non_finite.
  transitivity (negb (nfin (o_gatol p)) || (o_gatol p <? nZ 0)%num || negb (nfin (o_grtol p)) || (o_grtol p <? nZ 0)%num ||
    negb (nfin (o_delta p)) || (o_delta p <=? nZ 0)%num || negb (nfin (o_epsilon p)) || (o_epsilon p <? nZ 0)%num || (nZ 1 <=? o_epsilon p)%num ||
    negb (nfin (o_stpmin p)) || (o_stpmin p <? nZ 0)%num || negb (nfin (o_stpmax p)) || (o_stpmax p <=? o_stpmin p)%num || (o_mem p <? 1)%Z = false).
  { destruct (_ || _); split; congruence. }
  rewrite !orb_false_iff, !negb_false_iff. split.
  - intros (((((((((((((A1 & A2) & A3) & A4) & A5) & A6) & A7) & A8) & A9) & A10) & A11) & A12) & A13) & A14).
    exists p. apply Z.ltb_ge in A14. repeat (split; [first [reflexivity|assumption|apply (not_lt_le O); auto; fail|apply (not_le_lt O); auto; fail]|]). lia.
  - intros (p' & X & A1 & A2 & A3 & A4 & A5 & A6 & A7 & A8 & A9 & A10 & A11 & A12 & A13 & A14). injection X as <-.
    repeat split; auto; try (apply (le_not_lt O); auto; fail); try (apply (lt_not_le O); auto; fail). apply Z.ltb_ge. lia.
Qed.
Print Assumptions C46_vmlmb_options.

Lemma fin_num_D (z : NumD) : nfin z = true -> isnum z.
Proof. intros F. apply (is_num_key OrdD). exists (B2R z). apply fkey_finite. exact F. Qed.

(** The default options pass, in double precision. *)
Theorem C46_vmlmb_defaults : vm_check_options (Some (vm_default_options (N := NumD))) = SUCCESS.
Proof. vm_compute. reflexivity. Qed.
Print Assumptions C46_vmlmb_defaults.
Example C46_vmlmb_example : isnum (nZ 0 : NumD) /\ isnum (nZ 1 : NumD) /\
  vm_check_options (Some (mkVmOpts (B754_nan : NumD) (nZ 0) (nZ 0) (nZ 0) (nZ 0) (nZ 1) 5 false false)) = INVALID_ARGUMENT /\
  vm_check_options (Some (mkVmOpts (nZ 1 : NumD) (nZ 0) (nZ 0) (nZ 0) (nZ 0) (nZ 1) 5 false false)) = SUCCESS.
Proof. repeat split. Qed.
