(** * The nonlinear conjugate gradient optimizer: src/nlcg.c

    Same conventions as in [VmModel]: the line search is used by this optimizer only, the counters do not overflow,
    [None] is undefined behaviour (use of a vector which is NULL, undefined behaviour of the line search). *)
From Coq Require Import List ZArith Bool.
From Verif Require Import Num VecModel Base LsModel OptSpace VmModel.
Import ListNotations.
Local Open Scope num_scope.

(** optimpack.h 1373-1399: OPK_NLCG_FLETCHER_REEVES (1) to OPK_NLCG_HAGER_ZHANG (8), the other bits of the flags *)
Inductive rule := FLETCHER_REEVES | HESTENES_STIEFEL | POLAK_RIBIERE_POLYAK | FLETCHER | LIU_STOREY | DAI_YUAN | PERRY_SHANNO | HAGER_ZHANG.
Definition rule_of (flags : Z) : option rule :=
  match Z.land flags 255 with
  | 1 => Some FLETCHER_REEVES | 2 => Some HESTENES_STIEFEL | 3 => Some POLAK_RIBIERE_POLYAK | 4 => Some FLETCHER
  | 5 => Some LIU_STOREY | 6 => Some DAI_YUAN | 7 => Some PERRY_SHANNO | 8 => Some HAGER_ZHANG
  | _ => None
  end%Z.
Definition NLCG_POWELL : Z := 256.
Definition NLCG_SHANNO_PHUA : Z := 512.
Definition NLCG_DEFAULT : Z := 771. (* POLAK_RIBIERE_POLYAK | POWELL | SHANNO_PHUA *)
(** (flags & bit) == bit *)
Definition has_flag (flags bit : Z) : bool := (Z.land flags bit =? bit)%Z.

Section Cg.
Context {N : Num} {S : Space N}.

(** nlcg.c 130-138 [max3] *)
Definition cmax3 (a1 a2 a3 : N) : N :=
  if a3 >=? a2 then (if a3 >=? a1 then a3 else a1) else (if a2 >=? a1 then a2 else a1).

(** optimpack.h 1336-1371 [opk_nlcg_options] *)
Record cgopts := mkCgOpts {
  q_delta : N; q_epsilon : N; q_grtol : N; q_gatol : N; q_stpmin : N; q_stpmax : N;
  q_fmin : N; q_flags : Z; q_fmin_given : bool
}.

(** nlcg.c 657-671 [opk_get_nlcg_default_options], default values 67-80 *)
Definition cg_default_options : cgopts :=
  mkCgOpts (nQ 5 100) (nZ 0) (nQ 1 1000000) (nZ 0) (nQ 1 (10 ^ 20)) (nZ (10 ^ 20)) (nZ 0) NLCG_DEFAULT false.

(** nlcg.c 673-690 [opk_check_nlcg_options]; [None] is NULL *)
Definition cg_check_options (opts : option cgopts) : status :=
  match opts with
  | None => ILLEGAL_ADDRESS
  | Some o =>
    if non_finite (q_gatol o) || (q_gatol o <? nZ 0) ||
       non_finite (q_grtol o) || (q_grtol o <? nZ 0) ||
       non_finite (q_delta o) || (q_delta o <=? nZ 0) ||
       non_finite (q_epsilon o) || (q_epsilon o <? nZ 0) || (q_epsilon o >=? nZ 1) ||
       non_finite (q_stpmin o) || (q_stpmin o <? nZ 0) ||
       non_finite (q_stpmax o) || (q_stpmax o <=? q_stpmin o) ||
       (q_fmin_given o && non_finite (q_fmin o))
    then INVALID_ARGUMENT else SUCCESS
  end.

(** ** The state, nlcg.c 82-128 *)

(** The members that never change after the creation; the pointer [update] is given by the rule. *)
Record cgcfg := mkCgCfg {
  k_delta : N; k_epsilon : N; k_grtol : N; k_gatol : N; k_stpmin : N; k_stpmax : N; k_fmin : N;
  k_flags : Z; k_rule : rule; k_fmin_given : bool; k_hz_orig : bool
}.
(** The vectors [n_g0] and [n_y] may be NULL. *)
Record cg := mkCg {
  n_cfg : cgcfg; n_ls : ls N;
  n_x0 : S; n_g0 : option S; n_d : S; n_y : option S;
  n_f0 : N; n_g0norm : N; n_gnorm : N; n_dtg0 : N; n_dtg : N; n_ginit : N; n_alpha : N; n_beta : N;
  n_evals : Z; n_iters : Z; n_restarts : Z;
  n_status : status; n_task : task
}.

(** Assignments. *)
Definition nset_ls (o : cg) (l : ls N) (alpha : N) : cg := mkCg (n_cfg o) l (n_x0 o) (n_g0 o) (n_d o) (n_y o)
  (n_f0 o) (n_g0norm o) (n_gnorm o) (n_dtg0 o) (n_dtg o) (n_ginit o) alpha (n_beta o) (n_evals o) (n_iters o) (n_restarts o) (n_status o) (n_task o).
Definition nset_d (o : cg) (d : S) (beta : N) : cg := mkCg (n_cfg o) (n_ls o) (n_x0 o) (n_g0 o) d (n_y o)
  (n_f0 o) (n_g0norm o) (n_gnorm o) (n_dtg0 o) (n_dtg o) (n_ginit o) (n_alpha o) beta (n_evals o) (n_iters o) (n_restarts o) (n_status o) (n_task o).
Definition nset_y (o : cg) (y : S) : cg := mkCg (n_cfg o) (n_ls o) (n_x0 o) (n_g0 o) (n_d o) (Some y)
  (n_f0 o) (n_g0norm o) (n_gnorm o) (n_dtg0 o) (n_dtg o) (n_ginit o) (n_alpha o) (n_beta o) (n_evals o) (n_iters o) (n_restarts o) (n_status o) (n_task o).
Definition nset_dtg (o : cg) (dtg alpha : N) : cg := mkCg (n_cfg o) (n_ls o) (n_x0 o) (n_g0 o) (n_d o) (n_y o)
  (n_f0 o) (n_g0norm o) (n_gnorm o) (n_dtg0 o) dtg (n_ginit o) alpha (n_beta o) (n_evals o) (n_iters o) (n_restarts o) (n_status o) (n_task o).
Definition nset_gnorm (o : cg) (gnorm ginit : N) : cg := mkCg (n_cfg o) (n_ls o) (n_x0 o) (n_g0 o) (n_d o) (n_y o)
  (n_f0 o) (n_g0norm o) gnorm (n_dtg0 o) (n_dtg o) ginit (n_alpha o) (n_beta o) (n_evals o) (n_iters o) (n_restarts o) (n_status o) (n_task o).
Definition nset_start (o : cg) (x0 : S) (g0 : option S) (f0 : N) : cg := mkCg (n_cfg o) (n_ls o) x0 g0 (n_d o) (n_y o)
  f0 (n_gnorm o) (n_gnorm o) (n_dtg o) (n_dtg o) (n_ginit o) (n_alpha o) (n_beta o) (n_evals o) (n_iters o) (n_restarts o) (n_status o) (n_task o).
Definition nset_counts (o : cg) (e i r : Z) : cg := mkCg (n_cfg o) (n_ls o) (n_x0 o) (n_g0 o) (n_d o) (n_y o)
  (n_f0 o) (n_g0norm o) (n_gnorm o) (n_dtg0 o) (n_dtg o) (n_ginit o) (n_alpha o) (n_beta o) e i r (n_status o) (n_task o).
Definition nset_task (o : cg) (st : status) (t : task) : cg := mkCg (n_cfg o) (n_ls o) (n_x0 o) (n_g0 o) (n_d o) (n_y o)
  (n_f0 o) (n_g0norm o) (n_gnorm o) (n_dtg0 o) (n_dtg o) (n_ginit o) (n_alpha o) (n_beta o) (n_evals o) (n_iters o) (n_restarts o) st t.

(** nlcg.c 146-160 [success], [failure] *)
Definition nsuccess (o : cg) (t : task) : cg := nset_task o SUCCESS t.
Definition nfailure (o : cg) (st : status) : cg := nset_task o st ERROR.

(** ** The updates of the direction; the boolean is UPDATE_SUCCESS or UPDATE_FAILURE *)

(** nlcg.c 182-193 [update0] *)
Definition update0 (o : cg) (g : S) (beta : N) : cg * bool :=
  if beta =? nZ 0 then (nset_d o (n_d o) beta, false)
  else (nset_d o (vaxpby (nZ 1) g beta (n_d o)) beta, true).

(** nlcg.c 195-210 [update1] *)
Definition update1 (o : cg) (g : S) (beta : N) : cg * bool :=
  let beta := if has_flag (k_flags (n_cfg o)) NLCG_POWELL && (beta <? nZ 0) then nZ 0 else beta in
  update0 o g beta.

(** nlcg.c 212-218 [form_y]: the state and the vector opt->y *)
Definition form_y (o : cg) (g : S) : option (cg * S) :=
  do g0 <- n_g0 o; do _ <- n_y o;
  let y := vaxpby (nZ 1) g (nZ (-1)) g0 in
  Some (nset_y o y, y).

(** nlcg.c 227-239 *)
Definition update_Hestenes_Stiefel (o : cg) (g : S) : option (cg * bool) :=
  do (o, y) <- form_y o g;
  let gty := vdot g y in
  let dty := - vdot (n_d o) y in
  let beta := if negb (dty =? nZ 0) then gty / dty else nZ 0 in
  Some (update1 o g beta).

(** nlcg.c 248-255 *)
Definition update_Fletcher_Reeves (o : cg) (g : S) : option (cg * bool) :=
  let r := n_gnorm o / n_g0norm o in
  Some (update0 o g (r * r)).

(** nlcg.c 262-271 *)
Definition update_Polak_Ribiere_Polyak (o : cg) (g : S) : option (cg * bool) :=
  do (o, y) <- form_y o g;
  let beta := (vdot g y / n_g0norm o) / n_g0norm o in
  Some (update1 o g beta).

(** nlcg.c 280-287 *)
Definition update_Fletcher (o : cg) (g : S) : option (cg * bool) :=
  let beta := - n_gnorm o * (n_gnorm o / n_dtg0 o) in
  Some (update0 o g beta).

(** nlcg.c 294-304 *)
Definition update_Liu_Storey (o : cg) (g : S) : option (cg * bool) :=
  do (o, y) <- form_y o g;
  let gty := vdot g y in
  let beta := - gty / n_dtg0 o in
  Some (update1 o g beta).

(** nlcg.c 311-321 *)
Definition update_Dai_Yuan (o : cg) (g : S) : option (cg * bool) :=
  do (o, y) <- form_y o g;
  let dty := - vdot (n_d o) y in
  let beta := if negb (dty =? nZ 0) then n_gnorm o * (n_gnorm o / dty) else nZ 0 in
  Some (update1 o g beta).

(** nlcg.c 329-362 *)
Definition update_Hager_Zhang (o : cg) (g : S) : option (cg * bool) :=
  do (o, y) <- form_y o g;
  let dty := - vdot (n_d o) y in
  let '(o, beta) :=
    if negb (dty =? nZ 0) then
      if k_hz_orig (n_cfg o) then
        let q := nZ 1 / dty in
        let r := q * vnorm2 y in
        let y := vaxpby q y (nZ 2 * r * r) (n_d o) in
        (nset_y o y, vdot y g)
      else
        let ytg := vdot y g in
        let dtg := n_dtg o in
        let ynorm := vnorm2 y in
        (o, (ytg - nZ 2 * (ynorm / dty) * ynorm * dtg) / dty)
    else (o, nZ 0) in
  Some (update1 o g beta).

(** nlcg.c 384-405 *)
Definition update_Perry_Shanno (o : cg) (g : S) : option (cg * bool) :=
  do (o, y) <- form_y o g;
  let yty := vdot y y in
  if yty <=? nZ 0 then Some (o, false)
  else
    let dty := - vdot (n_d o) y in
    if dty =? nZ 0 then Some (o, false)
    else
      let gty := vdot g y in
      let dtg := n_dtg o in
      let c1 := dty / yty in
      let c2 := gty / yty - nZ 2 * dtg / dty in
      let c3 := - dtg / yty in
      Some (nset_d o (vaxpbypcz c1 g c2 (n_d o) c3 y) (c2 / c1), true).

(** The call opt->update(opt, x, g); the argument x is not used. *)
Definition cg_update (o : cg) (g : S) : option (cg * bool) :=
  match k_rule (n_cfg o) with
  | FLETCHER_REEVES => update_Fletcher_Reeves o g
  | HESTENES_STIEFEL => update_Hestenes_Stiefel o g
  | POLAK_RIBIERE_POLYAK => update_Polak_Ribiere_Polyak o g
  | FLETCHER => update_Fletcher o g
  | LIU_STOREY => update_Liu_Storey o g
  | DAI_YUAN => update_Dai_Yuan o g
  | PERRY_SHANNO => update_Perry_Shanno o g
  | HAGER_ZHANG => update_Hager_Zhang o g
  end.

(** nlcg.c 451-492: g0_needed and y_needed *)
Definition needs_g0 (r : rule) : bool := match r with FLETCHER_REEVES | FLETCHER => false | _ => true end.

(** nlcg.c 422-561 [opk_new_nlcg_optimizer]: [lnsrch] is NULL if None.  The allocations succeed, the space is not NULL
    (see [ObjModel] for the other cases). *)
Definition new_nlcg (opts : option cgopts) (lnsrch : option (ls N)) : option cg :=
  let opts := match opts with None => cg_default_options | Some o => o end in
  if negb (ok (cg_check_options (Some opts))) then None
  else
    let flags := if (q_flags opts =? 0)%Z then NLCG_DEFAULT else q_flags opts in
    do r <- rule_of flags;
    do lnsrch <- match lnsrch with
                 | Some l => Some l
                 | None => new_csrch true (nQ 1 10000) (nQ 1 10) (nQ 1 (2 ^ 52))
                 end;
    let cfg := mkCgCfg (q_delta opts) (q_epsilon opts) (q_grtol opts) (q_gatol opts) (q_stpmin opts) (q_stpmax opts) (q_fmin opts)
                       flags r false false in
    let v := if needs_g0 r then Some vzeros else None in
    let z := nZ 0 in
    Some (mkCg cfg lnsrch vzeros v vzeros v z z z z z z z z 0 0 0 NOT_STARTED ERROR).

(** nlcg.c 692-699 [opk_start_nlcg] *)
Definition cg_start (o : cg) (x : S) : cg * S := (nsuccess (nset_counts o 0 0 0) COMPUTE_FG, x).

(** nlcg.c 842-844: compute a trial point; returns the new contents of x *)
Definition cg_trial (o : cg) : cg * S :=
  (nsuccess o COMPUTE_FG, vaxpby (nZ 1) (n_x0 o) (- n_alpha o) (n_d o)).

(** nlcg.c 744-754: the current step is acceptable *)
Definition cg_accept (o : cg) (g : S) : cg :=
  let gnorm := vnorm2 g in
  let o := nset_gnorm o gnorm (if (n_evals o <=? 1)%Z then gnorm else n_ginit o) in
  nsuccess o (if gnorm <=? cmax3 (nZ 0) (k_gatol (n_cfg o)) (k_grtol (n_cfg o) * n_ginit o) then FINAL_X else NEW_X).

(** nlcg.c 718-754: case OPK_TASK_COMPUTE_FG *)
Definition cg_check (o : cg) (x : S) (f : N) (g : S) : cg * S :=
  let o := nset_counts o (n_evals o + 1) (n_iters o) (n_restarts o) in
  if (n_evals o >? 1)%Z then
    let dtg := - vdot (n_d o) g in
    let '(l, alpha) := ls_iterate (n_ls o) (n_alpha o) f dtg in
    let o := nset_ls (nset_dtg o dtg (n_alpha o)) l alpha in
    match l_task l with
    | LS_SEARCH => cg_trial o
    | LS_CONVERGENCE => (cg_accept (nset_counts o (n_evals o) (n_iters o + 1) (n_restarts o)) g, x)
    | LS_WARNING =>
      if is_rounding (l_status l) then (cg_accept (nset_counts o (n_evals o) (n_iters o + 1) (n_restarts o)) g, x)
      else (nfailure o (l_status l), x)
    | LS_ERROR => (nfailure o (l_status l), x)
    end
  else (cg_accept o g, x).

(** nlcg.c 759-774: the direction given by the update rule; opt->dtg is 0 if there is none *)
Definition cg_direction (o : cg) (g : S) : option cg :=
  do (o, success) <- (if (n_evals o <=? 1)%Z then Some (o, false) else cg_update o g);
  Some (if success then
          let dtg := - vdot (n_d o) g in
          let dtg := if (k_epsilon (n_cfg o) >? nZ 0) && (dtg >? - k_epsilon (n_cfg o) * vnorm2 (n_d o) * n_gnorm o) then nZ 0 else dtg in
          nset_dtg o dtg (n_alpha o)
        else nset_dtg o (nZ 0) (n_alpha o)).

(** nlcg.c 787-812: restart along the gradient *)
Definition cg_steepest (o : cg) (x : S) (f : N) (g : S) : cg :=
  let o := if (n_evals o >? 1)%Z then nset_counts o (n_evals o) (n_iters o) (n_restarts o + 1) else o in
  let dtg := - n_gnorm o * n_gnorm o in
  let alpha :=
    if k_fmin_given (n_cfg o) && (k_fmin (n_cfg o) <? f) then nZ 2 * (k_fmin (n_cfg o) - f) / dtg
    else if negb (f =? nZ 0) then nZ 2 * nabs (f / dtg)
    else
      let dnorm := n_gnorm o in
      let xnorm := vnorm2 x in
      if xnorm >? nZ 0 then k_delta (n_cfg o) * xnorm / dnorm else k_delta (n_cfg o) / dnorm in
  nset_dtg (nset_d o g (nZ 0)) dtg alpha.

(** nlcg.c 756-834: case OPK_TASK_NEW_X or OPK_TASK_FINAL_X *)
Definition cg_new_x (o : cg) (x : S) (f : N) (g : S) : option (cg * S) :=
  do o <- cg_direction o g;
  let o :=
    if n_dtg o <? nZ 0 then
      if has_flag (k_flags (n_cfg o)) NLCG_SHANNO_PHUA then nset_dtg o (n_dtg o) (n_alpha o * (n_dtg0 o / n_dtg o)) else o
    else cg_steepest o x f g in
  let o := nset_start o x (match n_g0 o with Some _ => Some g | None => None end) f in
  do l <- ls_start (n_ls o) (n_f0 o) (n_dtg0 o) (n_alpha o) (k_stpmin (n_cfg o) * n_alpha o) (k_stpmax (n_cfg o) * n_alpha o);
  let o := nset_ls o l (n_alpha o) in
  match l_task l with
  | LS_SEARCH => Some (cg_trial o)
  | _ => Some (nfailure o (l_status l), x)
  end.

(** nlcg.c 701-845 [opk_iterate_nlcg]: the returned value is the task of the new state in all cases. *)
Definition cg_iterate (o : cg) (x : S) (f : N) (g : S) : option (cg * S) :=
  match n_task o with
  | COMPUTE_FG => Some (cg_check o x f g)
  | NEW_X | FINAL_X => cg_new_x o x f g
  | _ => Some (o, x)
  end.

(** ** Accessors, nlcg.c 563-655 *)
Definition cg_get_step (o : option cg) : N := match o with Some o => n_alpha o | None => nZ (-1) end.
Definition cg_get_gnorm (o : option cg) : N := match o with Some o => n_gnorm o | None => nZ (-1) end.
Definition cg_get_iterations (o : cg) : Z := n_iters o.
Definition cg_get_restarts (o : cg) : Z := n_restarts o.
Definition cg_get_evaluations (o : cg) : Z := n_evals o.
Definition cg_get_task (o : cg) : task := n_task o.
Definition cg_get_status (o : cg) : status := n_status o.
Definition cg_get_beta (o : cg) : N := n_beta o.
(** nlcg.c 640-647 [opk__set_nlcg_status] *)
Definition cg_set_status (o : cg) (st : status) : cg := nset_task o st (if ok st then n_task o else ERROR).
End Cg.
Arguments cgopts : clear implicits.
Arguments cgcfg : clear implicits.
Arguments cg {_} _.
