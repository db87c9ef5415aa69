(** * Properties of the nonlinear conjugate gradient optimizer (C26, C27, C28, C29, C30, C46) *)
From Coq Require Import List ZArith Bool Arith Lia Reals Lra Sorted.
From Flocq Require Import Core.
From Verif Require Import Num NumFacts OrdFacts ListFacts VecModel VecProofs Base LsModel LsSpec LsProofs LsOrd LsReal LsDescent
  OptSpace VmModel VmSpec VmProofs VmProps VmRealSpec VmReal LbfgsSpec LbfgsReal LbfgsProofs LbfgsRun
  CgModel CgSpec CgProofs CgReal CgFormSpec CgForm.
Import ListNotations.

(** ** C27: protocol and counters

    Any sequence of calls, with any values (including NaN), is defined; the accessors return what can be deduced from the
    returned tasks; the next task is allowed by the protocol. *)
Theorem C27_protocol (N : Num) (S : Space N) opts lnsrch (o : cg S) cs :
  new_cg opts lnsrch o ->
  exists o' rs, crun o cs = Some (o', rs) /\ length rs = length cs /\
  let t := ctally cs rs in
  (* accessors *)
  cg_get_task o' = t_task t /\ In (t_task t) [COMPUTE_FG; NEW_X; FINAL_X; ERROR] /\
  cg_get_evaluations o' = t_evals t /\ cg_get_iterations o' = Z.max 0 (t_accepted t - 1) /\
  (0 <= cg_get_restarts o' <= cg_get_iterations o')%Z /\ (cg_get_iterations o' <= cg_get_evaluations o')%Z /\
  (* one more iteration *)
  forall x f g, exists o'' x', cg_iterate o' x f g = Some (o'', x') /\
    match t_task t with
    | COMPUTE_FG => In (cg_get_task o'') [COMPUTE_FG; NEW_X; FINAL_X; ERROR] /\
        cg_get_evaluations o'' = (cg_get_evaluations o' + 1)%Z /\ cg_get_restarts o'' = cg_get_restarts o' /\
        (t_evals t = 0%Z -> accepted (cg_get_task o'') = true) /\
        (accepted (cg_get_task o'') = true -> x' = x) /\
        cg_get_iterations o'' = (if accepted (cg_get_task o'') && (t_evals t >? 0)%Z then cg_get_iterations o' + 1 else cg_get_iterations o')%Z
    | NEW_X | FINAL_X => In (cg_get_task o'') [COMPUTE_FG; ERROR] /\
        cg_get_evaluations o'' = cg_get_evaluations o' /\ cg_get_iterations o'' = cg_get_iterations o' /\
        (cg_get_restarts o' <= cg_get_restarts o'' <= cg_get_restarts o' + 1)%Z
    | _ => o'' = o' /\ x' = x
    end.
Proof.
  intros Hn. destruct (new_cg_ok opts lnsrch o Hn) as (V0 & _). set (cfg := n_cfg o) in *.
  destruct (crun_ok cfg o tally0 cs V0) as (o' & rs & R & L & V). exists o', rs. split; [exact R|]. split; [exact L|]. cbv zeta. fold (ctally cs rs) in V. set (t := ctally cs rs) in *.
  pose proof V as (V1 & V2 & V3 & V4 & V5 & V6 & V7 & V8 & V9 & V10 & V11).
  unfold cg_get_task, cg_get_evaluations, cg_get_iterations, cg_get_restarts.
  split; [exact V3|]. assert (I4 : In (t_task t) [COMPUTE_FG; NEW_X; FINAL_X; ERROR]).
  { rewrite <- V3. destruct (n_task o'); simpl; auto 10; contradiction. }
  split; [exact I4|]. split; [exact V4|]. split; [exact V5|].
  assert (Hp : (Z.of_nat (length (t_points t)) <= t_accepted t)%Z) by lia.
  split; [lia|]. split; [lia|].
  intros x f g. unfold cg_iterate. rewrite <- V3. destruct (n_task o') eqn:Et; try contradiction V11.
  - exists o', x. auto.
  - pose proof (check_ok cfg o' t x f g V Et) as C. destruct (cg_check o' x f g) as [o'' x']. exists o'', x'. split; [reflexivity|].
    destruct C as ((W1 & W2 & W3 & W4 & W5 & W6 & W7 & W8 & W9 & W10 & W11) & Cr & C0 & Cx).
    cbn [tally_step] in W4, W5, W11. rewrite <- V3 in W4, W5, W11.
    assert (I5 : In (n_task o'') [COMPUTE_FG; NEW_X; FINAL_X; ERROR]) by (destruct (n_task o''); simpl; auto 10; contradiction).
    split; [exact I5|]. split; [destruct (accepted (n_task o'')); cbn [t_evals] in W4; lia|]. split; [exact Cr|]. split; [exact C0|]. split; [exact Cx|].
    destruct V11 as [(E0 & E1 & _)|((E0 & E1) & (p & pts & Ep & _) & _)].
    + rewrite (C0 E0) in *. cbn [andb t_accepted] in *. destruct (Z.gtb_spec (t_evals t) 0); lia.
    + assert (1 <= t_accepted t)%Z by (rewrite E1, Ep; cbn [length]; lia). destruct (Z.gtb_spec (t_evals t) 0); [|lia]. rewrite andb_true_r.
      destruct (accepted (n_task o'')); cbn [t_accepted] in W5; lia.
  - destruct (new_x_ok cfg o' t x f g V) as (o'' & x' & E & W & Tk & Rb & _); [rewrite Et; reflexivity|]. exists o'', x'. split; [exact E|].
    destruct W as (W1 & W2 & W3 & W4 & W5 & _). cbn [tally_step] in W4, W5. rewrite <- V3 in W4, W5. cbn [t_evals t_accepted] in W4, W5.
    split; [simpl; intuition congruence|]. split; [lia|]. split; [lia|exact Rb].
  - destruct (new_x_ok cfg o' t x f g V) as (o'' & x' & E & W & Tk & Rb & _); [rewrite Et; reflexivity|]. exists o'', x'. split; [exact E|].
    destruct W as (W1 & W2 & W3 & W4 & W5 & _). cbn [tally_step] in W4, W5. rewrite <- V3 in W4, W5. cbn [t_evals t_accepted] in W4, W5.
    split; [simpl; intuition congruence|]. split; [lia|]. split; [lia|exact Rb].
Qed.
Print Assumptions C27_protocol.

(** ** Examples in double precision: the function (x1 - 3)^2 + 4 (x2 - 1)^2 *)
Definition CD := list_space (cast_id NumD) 2.
Definition cpt (a b : NumD) : CD := exist _ [a; b] eq_refl.
Definition quad_f (x : CD) : NumD := match elts x with [a; b] => (((a - nZ 3) * (a - nZ 3)) + nZ 4 * ((b - nZ 1) * (b - nZ 1)))%num | _ => nZ 0 end.
Definition quad_g (x : CD) : CD := match elts x with [a; b] => cpt (nZ 2 * (a - nZ 3))%num (nZ 8 * (b - nZ 1))%num | _ => x end.
Definition cg_ex (r : Z) : cgopts NumD := mkCgOpts (nQ 5 100) (nZ 0) (nQ 1 1000000) (nZ 0) (nQ 1 (10 ^ 20)) (nZ (10 ^ 20)) (nZ 0) r false.
(** With each of the eight rules and the default flags, 12 calls on this function: at least one iteration is done, and a line search is
    in progress at some time. *)
Example C27_example : forall r, In r [1; 2; 3; 4; 5; 6; 7; 8; 771]%Z -> exists (o o' : cg CD) rs,
  new_cg (Some (cg_ex r)) None o /\ crun o (cdrive_from quad_f quad_g 12 o (cpt (nZ 0) (nZ 0))) = Some (o', rs) /\ (1 <= cg_get_iterations o')%Z.
Proof.
  intros r Hr. assert (E : exists o : cg CD, new_nlcg (Some (cg_ex r)) None = Some o).
  { apply is_some_ex. simpl in Hr. repeat (destruct Hr as [<- |Hr]; [vm_compute; reflexivity|]). contradiction. }
  destruct E as (o & E). assert (Hn : new_cg (Some (cg_ex r)) None o) by (split; [exact E|discriminate]).
  destruct (cdrive_from_ok quad_f quad_g _ _ o 12 (cpt (nZ 0) (nZ 0)) Hn) as (o' & rs & R & _). exists o, o', rs. split; [exact Hn|]. split; [exact R|].
  assert (X : match new_nlcg (S := CD) (Some (cg_ex r)) None with
    | Some o => match crun o (cdrive_from quad_f quad_g 12 o (cpt (nZ 0) (nZ 0))) with Some (o', _) => (1 <=? cg_get_iterations o')%Z | None => false end | None => false end = true).
  { clear - Hr. simpl in Hr. repeat (destruct Hr as [<- |Hr]; [vm_compute; reflexivity|]). contradiction. }
  rewrite E, R in X. apply Z.leb_le. exact X.
Qed.

(** ** C28: convergence test *)
Theorem C28_convergence (N : Num) (O : OrdLaws N) (S : Space N) opts lnsrch (o : cg S) cs o' rs :
  isnum (nZ 0 : N) -> (forall z : N, nfin z = true -> isnum z) ->
  new_cg opts lnsrch o -> crun o cs = Some (o', rs) ->
  let t := ctally cs rs in let gnorm := vnorm2 (t_g t) in
  accepted (cg_get_task o') = true ->
  cg_get_gnorm (Some o') = gnorm /\
  (cg_get_task o' = FINAL_X <->
     (gnorm <=? nZ 0)%num = true \/ (gnorm <=? q_gatol (the_cgopts opts))%num = true \/ (gnorm <=? q_grtol (the_cgopts opts) * t_ginit t)%num = true).
Proof.
  intros Z0 NF Hn R t gnorm A. destruct (new_cg_ok opts lnsrch o Hn) as (V0 & Hck & _ & _ & Egr & Ega & _).
  destruct (crun_ok (n_cfg o) o tally0 cs V0) as (o1 & rs1 & R1 & L & V). rewrite R in R1. injection R1 as <- <-. fold (ctally cs rs) in V. fold t in V.
  destruct V as (_ & _ & _ & _ & _ & _ & _ & _ & _ & _ & V). unfold cg_get_task in *. unfold cg_get_gnorm.
  assert (B : n_gnorm o' = vnorm2 (t_g t) /\ (n_task o' = FINAL_X <-> nle (n_gnorm o') (cmax3 (nZ 0) (k_gatol (n_cfg o)) (k_grtol (n_cfg o) * t_ginit t)%num) = true)).
  { destruct (accepted_cases _ A) as [X|X]; rewrite X in V; rewrite ?X; split; try apply V; rewrite <- X; rewrite X; apply V. }
  destruct B as (B1 & B). rewrite B1 in *. fold gnorm in B |- *. split; [reflexivity|]. rewrite B, Ega, Egr.
  set (gatol := q_gatol (the_cgopts opts)). set (grtol := q_grtol (the_cgopts opts)).
  assert (Hg : isnum gatol /\ nle (nZ 0) gatol = true).
  { unfold cg_check_options in Hck. fold gatol in Hck. destruct (non_finite gatol) eqn:E1; [discriminate|]. destruct (nlt gatol (nZ 0)) eqn:E2; [discriminate|].
    assert (isnum gatol) by (apply NF; unfold non_finite in E1; destruct (nfin gatol); auto; discriminate).
    split; [assumption|]. apply (not_lt_le O); auto. }
  destruct Hg as (Ng & Hg). clear - O Z0 Ng Hg. clearbody gnorm. set (q := (grtol * t_ginit t)%num).
  unfold cmax3, OPK_MAX, isnum in *. generalize dependent gatol. intros gatol Ng Hg. generalize dependent q. intros q.
  keys O. destruct (key O (nZ 0)) as [k0|] eqn:K0; [|discriminate]. destruct (key O gatol) as [kg|] eqn:Kg; [|discriminate].
  apply Rle_bool_true_iff in Hg. destruct (key O q) as [kq|] eqn:Kq.
  - destruct (Rle_bool_spec kg kq).
    + destruct (Rle_bool_spec k0 kq); rewrite ?Kq, ?K0; destruct (key O gnorm); try (split; [discriminate|intuition discriminate]);
        rewrite ?Rle_bool_true_iff; (split; [intros; intuition lra|intros [X|[X|X]]; lra]).
    + destruct (Rle_bool_spec k0 kg); rewrite ?Kg, ?K0; destruct (key O gnorm); try (split; [discriminate|intuition discriminate]);
        rewrite ?Rle_bool_true_iff; (split; [intros; intuition lra|intros [X|[X|X]]; lra]).
  - destruct (Rle_bool_spec k0 kg); rewrite ?Kg, ?K0; destruct (key O gnorm); try (split; [discriminate|intuition discriminate]);
        rewrite ?Rle_bool_true_iff; (split; [intros; intuition lra|intros [X|[X|X]]; try discriminate; lra]).
Qed.
Print Assumptions C28_convergence.
Lemma zero_D : isnum (nZ 0 : NumD). Proof. reflexivity. Qed.
(** The example function, Fletcher & Reeves: NEW_X after the first evaluation (the norm of the gradient is 10), FINAL_X after the
    seventh one. *)
Definition task_after (r : Z) (k : nat) : option task :=
  match new_nlcg (S := CD) (Some (cg_ex r)) None with
  | Some o => option_map (fun p => cg_get_task (fst p)) (crun o (cdrive_from quad_f quad_g k o (cpt (nZ 0) (nZ 0))))
  | None => None end.
Example C28_example : task_after 1 1 = Some NEW_X /\ task_after 1 7 = Some FINAL_X.
Proof. vm_compute. auto. Qed.

(** ** C46: option checks *)
Theorem C46_nlcg_options (N : Num) (O : OrdLaws N) (opts : option (cgopts N)) :
  isnum (nZ 0 : N) -> isnum (nZ 1 : N) -> (forall z : N, nfin z = true -> isnum z) ->
  (cg_check_options opts = SUCCESS <->
   exists p, opts = Some p /\
     nfin (q_gatol p) = true /\ nfin (q_grtol p) = true /\ nfin (q_delta p) = true /\ nfin (q_epsilon p) = true /\
     nfin (q_stpmin p) = true /\ nfin (q_stpmax p) = true /\
     (nZ 0 <=? q_gatol p)%num = true /\ (nZ 0 <=? q_grtol p)%num = true /\ (nZ 0 <? q_delta p)%num = true /\
     (nZ 0 <=? q_epsilon p)%num = true /\ (q_epsilon p <? nZ 1)%num = true /\
     (nZ 0 <=? q_stpmin p)%num = true /\ (q_stpmin p <? q_stpmax p)%num = true /\ (q_fmin_given p = true -> nfin (q_fmin p) = true)) /\
  (cg_check_options opts <> SUCCESS -> cg_check_options opts = match opts with None => ILLEGAL_ADDRESS | Some _ => INVALID_ARGUMENT end).
Proof.
  unfold isnum. intros Z0 Z1 NF. split; [|destruct opts as [p|]; simpl; [destruct (_ || _); congruence|reflexivity]].
  destruct opts as [p|]; [|split; [discriminate|intros (p & X & _); discriminate]].
  unfold cg_check_options, non_finite.
  transitivity (negb (nfin (q_gatol p)) || (q_gatol p <? nZ 0)%num || negb (nfin (q_grtol p)) || (q_grtol p <? nZ 0)%num ||
    negb (nfin (q_delta p)) || (q_delta p <=? nZ 0)%num || negb (nfin (q_epsilon p)) || (q_epsilon p <? nZ 0)%num || (nZ 1 <=? q_epsilon p)%num ||
    negb (nfin (q_stpmin p)) || (q_stpmin p <? nZ 0)%num || negb (nfin (q_stpmax p)) || (q_stpmax p <=? q_stpmin p)%num || (q_fmin_given p && negb (nfin (q_fmin p))) = false).
  { destruct (_ || _); split; congruence. }
  rewrite !orb_false_iff, !negb_false_iff. split.
  - intros (((((((((((((A1 & A2) & A3) & A4) & A5) & A6) & A7) & A8) & A9) & A10) & A11) & A12) & A13) & A14).
    exists p. repeat (split; [first [reflexivity|assumption|apply (not_lt_le O); auto; fail|apply (not_le_lt O); auto; fail]|]).
    intros X. rewrite X in A14. apply negb_false_iff. exact A14.
  - intros (p' & X & A1 & A2 & A3 & A4 & A5 & A6 & A7 & A8 & A9 & A10 & A11 & A12 & A13 & A14). injection X as <-.
    repeat split; auto; try (apply (le_not_lt O); auto; fail); try (apply (lt_not_le O); auto; fail).
    destruct (q_fmin_given p); [|reflexivity]. rewrite A14; reflexivity.
Qed.
Print Assumptions C46_nlcg_options.

Theorem C46_nlcg_defaults : cg_check_options (Some (cg_default_options (N := NumD))) = SUCCESS.
Proof. vm_compute. reflexivity. Qed.
Print Assumptions C46_nlcg_defaults.
Example C46_nlcg_example : isnum (nZ 0 : NumD) /\ isnum (nZ 1 : NumD) /\
  cg_check_options (Some (mkCgOpts (nQ 5 100 : NumD) (nZ 0) (nZ 0) (nZ 0) (nZ 0) (nZ 1) (ndiv (nZ 0) (nZ 0)) 1 true)) = INVALID_ARGUMENT /\
  cg_check_options (Some (mkCgOpts (nQ 5 100 : NumD) (nZ 0) (nZ 0) (nZ 0) (nZ 0) (nZ 1) (ndiv (nZ 0) (nZ 0)) 1 false)) = SUCCESS.
Proof. vm_compute. auto. Qed.

(** ** C26: the initial slope of a line search is not >= 0, for any arithmetic *)
Theorem C26_nlcg_slope (N : Num) (S : Space N) opts lnsrch (o : cg S) cs o' rs x0 g0 pts :
  new_cg opts lnsrch o -> crun o cs = Some (o', rs) -> cg_get_task o' = COMPUTE_FG -> t_points (ctally cs rs) = (x0, g0) :: pts ->
  (nZ 0 <=? l_ginit (n_ls o'))%num = false /\ l_finit (n_ls o') = t_f0 (ctally cs rs).
Proof.
  intros Hn R Et Ep. destruct (new_cg_ok opts lnsrch o Hn) as (V0 & _).
  destruct (crun_ok (n_cfg o) o tally0 cs V0) as (o1 & rs1 & R1 & _ & V). rewrite R in R1. injection R1 as <- <-. fold (ctally cs rs) in V.
  destruct V as (_ & _ & _ & _ & _ & _ & _ & _ & _ & _ & V). unfold cg_get_task in Et. rewrite Et in V.
  destruct V as [(_ & _ & V)|(_ & (p & pts' & _ & (_ & _ & _ & _ & C5 & C6 & C7 & _)) & _)]; [congruence|]. rewrite C6. auto.
Qed.
Print Assumptions C26_nlcg_slope.
