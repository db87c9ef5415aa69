(** * The limited memory quasi-Newton optimizer: src/vmlmb.c

    The line search is an object of lnsrch.c ([LsModel]); it is used by this optimizer only.  The counters are not
    bounded (no overflow of opk_index).  [None] is undefined behaviour: access outside of an array, use of a
    variable that has not been set, undefined behaviour of the line search. *)
From Coq Require Import List ZArith Bool.
From Verif Require Import Num VecModel Base LsModel OptSpace.
Import ListNotations.
Local Open Scope num_scope.

(** optimpack.h 1037-1046 [opk_task] *)
Inductive task := ERROR | START | COMPUTE_FG | NEW_X | FINAL_X | WARNING.
Definition task_code (t : task) : Z :=
  match t with ERROR => -1 | START => 0 | COMPUTE_FG => 1 | NEW_X => 2 | FINAL_X => 3 | WARNING => 4 end%Z.

(** Comparison of a status with OPK_SUCCESS, with OPK_ROUNDING_ERRORS_PREVENT_PROGRESS. *)
Definition ok (s : status) : bool := match s with SUCCESS => true | _ => false end.
Definition is_rounding (s : status) : bool := match s with ROUNDING_ERRORS_PREVENT_PROGRESS => true | _ => false end.

(** optimpack.h: opk_vmlmb_method *)
Inductive vmethod := LBFGS | VMLMB | BLMVM.
Definition is_vmlmb (m : vmethod) : bool := match m with VMLMB => true | _ => false end.
Definition is_blmvm (m : vmethod) : bool := match m with BLMVM => true | _ => false end.

Section Vm.
Context {N : Num} {S : Space N}.

(** vmlmb.c 168-172 [max3] *)
Definition vmax3 (a1 a2 a3 : N) : N := if a3 >=? a2 then OPK_MAX a1 a3 else OPK_MAX a1 a2.

(** optimpack.h [opk_vmlmb_options], default values vmlmb.c 93-109 *)
Record vmopts := mkVmOpts {
  o_delta : N; o_epsilon : N; o_grtol : N; o_gatol : N; o_stpmin : N; o_stpmax : N;
  o_mem : Z; o_blmvm : bool; o_save_memory : bool
}.

(** vmlmb.c 855-869 [opk_get_vmlmb_default_options]: the default options *)
Definition vm_default_options : vmopts :=
  mkVmOpts (nQ 5 100) (nZ 0) (nQ 1 1000000) (nZ 0) (nQ 1 (10 ^ 20)) (nZ (10 ^ 20)) 5 false true.

(** vmlmb.c 871-887 [opk_check_vmlmb_options]; [None] is NULL *)
Definition vm_check_options (opts : option vmopts) : status :=
  match opts with
  | None => ILLEGAL_ADDRESS
  | Some o =>
    if non_finite (o_gatol o) || (o_gatol o <? nZ 0) ||
       non_finite (o_grtol o) || (o_grtol o <? nZ 0) ||
       non_finite (o_delta o) || (o_delta o <=? nZ 0) ||
       non_finite (o_epsilon o) || (o_epsilon o <? nZ 0) || (o_epsilon o >=? nZ 1) ||
       non_finite (o_stpmin o) || (o_stpmin o <? nZ 0) ||
       non_finite (o_stpmax o) || (o_stpmax o <=? o_stpmin o) ||
       (o_mem o <? 1)%Z
    then INVALID_ARGUMENT else SUCCESS
  end.

(** ** The state, vmlmb.c 113-166 *)

(** The members that never change after the creation. *)
Record vmcfg := mkCfg {
  c_delta : N; c_epsilon : N; c_grtol : N; c_gatol : N; c_stpmin : N; c_stpmax : N;
  c_save : bool; c_method : vmethod; c_m : Z; c_box : option (Convex S)
}.
(** The limited memory BFGS approximation (vmlmb.c 155-165). *)
Record lbfgs := mkLb {
  b_gamma : N; b_s : list S; b_y : list S; b_alpha : list N; b_rho : list N; b_mp : Z; b_updates : Z
}.
(** The members [x0] and [g0] of the structure are vectors [v_x0] and [v_g0] of the optimizer, unless [c_save] is
    true: they are then NULL ([v_k0 = None]) or references to the vectors of index [v_k0] in the arrays [s] and [y]. *)
Record vm := mkVm {
  v_cfg : vmcfg; v_lb : lbfgs; v_ls : ls N;
  v_x0 : S; v_g0 : S; v_k0 : option Z;
  v_d : S; v_w : S; v_gp : S;
  v_ginit : N; v_f0 : N; v_gnorm : N; v_stp : N; v_bsmin : N;
  v_evals : Z; v_iters : Z; v_restarts : Z;
  v_status : status; v_task : task
}.

(** Assignments. *)
Definition set_lb (o : vm) (b : lbfgs) : vm := mkVm (v_cfg o) b (v_ls o) (v_x0 o) (v_g0 o) (v_k0 o) (v_d o) (v_w o) (v_gp o)
  (v_ginit o) (v_f0 o) (v_gnorm o) (v_stp o) (v_bsmin o) (v_evals o) (v_iters o) (v_restarts o) (v_status o) (v_task o).
Definition set_lnsrch (o : vm) (l : ls N) : vm := mkVm (v_cfg o) (v_lb o) l (v_x0 o) (v_g0 o) (v_k0 o) (v_d o) (v_w o) (v_gp o)
  (v_ginit o) (v_f0 o) (v_gnorm o) (v_stp o) (v_bsmin o) (v_evals o) (v_iters o) (v_restarts o) (v_status o) (v_task o).
Definition set_d (o : vm) (d : S) : vm := mkVm (v_cfg o) (v_lb o) (v_ls o) (v_x0 o) (v_g0 o) (v_k0 o) d (v_w o) (v_gp o)
  (v_ginit o) (v_f0 o) (v_gnorm o) (v_stp o) (v_bsmin o) (v_evals o) (v_iters o) (v_restarts o) (v_status o) (v_task o).
Definition set_w (o : vm) (w : S) : vm := mkVm (v_cfg o) (v_lb o) (v_ls o) (v_x0 o) (v_g0 o) (v_k0 o) (v_d o) w (v_gp o)
  (v_ginit o) (v_f0 o) (v_gnorm o) (v_stp o) (v_bsmin o) (v_evals o) (v_iters o) (v_restarts o) (v_status o) (v_task o).
Definition set_gnorm (o : vm) (gp : S) (gnorm ginit : N) : vm := mkVm (v_cfg o) (v_lb o) (v_ls o) (v_x0 o) (v_g0 o) (v_k0 o) (v_d o) (v_w o) gp
  ginit (v_f0 o) gnorm (v_stp o) (v_bsmin o) (v_evals o) (v_iters o) (v_restarts o) (v_status o) (v_task o).
Definition set_steps (o : vm) (stp bsmin : N) : vm := mkVm (v_cfg o) (v_lb o) (v_ls o) (v_x0 o) (v_g0 o) (v_k0 o) (v_d o) (v_w o) (v_gp o)
  (v_ginit o) (v_f0 o) (v_gnorm o) stp bsmin (v_evals o) (v_iters o) (v_restarts o) (v_status o) (v_task o).
Definition set_start (o : vm) (x0 g0 : S) (k0 : option Z) (f0 : N) : vm := mkVm (v_cfg o) (v_lb o) (v_ls o) x0 g0 k0 (v_d o) (v_w o) (v_gp o)
  (v_ginit o) f0 (v_gnorm o) (v_stp o) (v_bsmin o) (v_evals o) (v_iters o) (v_restarts o) (v_status o) (v_task o).
Definition set_counts (o : vm) (e i r : Z) : vm := mkVm (v_cfg o) (v_lb o) (v_ls o) (v_x0 o) (v_g0 o) (v_k0 o) (v_d o) (v_w o) (v_gp o)
  (v_ginit o) (v_f0 o) (v_gnorm o) (v_stp o) (v_bsmin o) e i r (v_status o) (v_task o).
Definition set_vtask (o : vm) (st : status) (t : task) : vm := mkVm (v_cfg o) (v_lb o) (v_ls o) (v_x0 o) (v_g0 o) (v_k0 o) (v_d o) (v_w o) (v_gp o)
  (v_ginit o) (v_f0 o) (v_gnorm o) (v_stp o) (v_bsmin o) (v_evals o) (v_iters o) (v_restarts o) st t.
Definition set_mp (b : lbfgs) (mp : Z) : lbfgs := mkLb (b_gamma b) (b_s b) (b_y b) (b_alpha b) (b_rho b) mp (b_updates b).
Definition set_gamma (b : lbfgs) (gamma : N) : lbfgs := mkLb gamma (b_s b) (b_y b) (b_alpha b) (b_rho b) (b_mp b) (b_updates b).
Definition set_rho (b : lbfgs) (rho : list N) : lbfgs := mkLb (b_gamma b) (b_s b) (b_y b) (b_alpha b) rho (b_mp b) (b_updates b).
Definition set_alpha (b : lbfgs) (alpha : list N) : lbfgs := mkLb (b_gamma b) (b_s b) (b_y b) alpha (b_rho b) (b_mp b) (b_updates b).
Definition set_pair (b : lbfgs) (s y : list S) : lbfgs := mkLb (b_gamma b) s y (b_alpha b) (b_rho b) (b_mp b) (b_updates b).

(** vmlmb.c 221-235 [success], [failure]: the returned value is the new task *)
Definition vsuccess (o : vm) (t : task) : vm := set_vtask o SUCCESS t.
Definition vfailure (o : vm) (st : status) : vm := set_vtask o st ERROR.

(** vmlmb.c 210-219 [slot]: the C operator % *)
Definition slot (m : Z) (b : lbfgs) (j : Z) : Z := Z.rem (b_updates b - j) m.

(** vmlmb.c 237-368 [opk_new_vmlmb_optimizer]: [size] is the size of the space, [lnsrch] and [box] are NULL if None.
    The allocations succeed; the box belongs to the space (see [ObjModel] for these cases). *)
Definition new_vmlmb (opts : option vmopts) (size : Z) (lnsrch : option (ls N)) (box : option (Convex S)) : option vm :=
  let opts := match opts with None => vm_default_options | Some o => o end in
  if negb (ok (vm_check_options (Some opts))) then None
  else if (size <? 1)%Z || (o_mem opts <? 1)%Z then None
  else
    let m := if (o_mem opts >? size)%Z then size else o_mem opts in
    let method := match box with None => LBFGS | Some _ => if o_blmvm opts then BLMVM else VMLMB end in
    let z := vzeros in
    let cfg := mkCfg (o_delta opts) (o_epsilon opts) (o_grtol opts) (o_gatol opts) (o_stpmin opts) (o_stpmax opts)
                     (o_save_memory opts) method m box in
    let n := Z.to_nat m in
    let lb := mkLb (nZ 1) (repeat z n) (repeat z n) (repeat (nZ 0) n) (repeat (nZ 0) n) 0 0 in
    do lnsrch <- match lnsrch, box with
                 | Some l, _ => Some l
                 | None, Some _ => new_backtrack true (nQ 1 10000) (nQ 1 10)
                 | None, None => new_csrch true (nQ 1 10000) (nQ 9 10) (nQ 1 (2 ^ 52))
                 end;
    Some (mkVm cfg lb lnsrch z z None z z z (nZ 0) (nZ 0) (nZ 0) (nZ 0) (nZ 0) 0 0 0 NOT_STARTED ERROR).

(** vmlmb.c 370-385 [opk_start_vmlmb] *)
Definition vm_start (o : vm) (x : S) : vm * S :=
  let b := v_lb o in
  let o := set_counts o 0 0 0 in
  let o := set_lb o (mkLb (b_gamma b) (b_s b) (b_y b) (b_alpha b) (b_rho b) 0 0) in
  match c_box (v_cfg o) with
  | Some box =>
    let '(st, x) := projvar box x in
    if ok st then (vsuccess o COMPUTE_FG, x) else (vfailure o st, x)
  | None => (vsuccess o COMPUTE_FG, x)
  end.

(** The vectors opt->x0 and opt->g0; [None] when they are NULL. *)
Definition get_x0 (o : vm) : option S := if c_save (v_cfg o) then do k <- v_k0 o; nthZ (b_s (v_lb o)) k else Some (v_x0 o).
Definition get_g0 (o : vm) : option S := if c_save (v_cfg o) then do k <- v_k0 o; nthZ (b_y (v_lb o)) k else Some (v_g0 o).

(** vmlmb.c 402-435 [update] *)
Definition vm_update (o : vm) (x g : S) : option vm :=
  let b := v_lb o in
  let m := c_m (v_cfg o) in
  let k := slot m b 0 in
  do x0 <- get_x0 o;
  let sk := vaxpby (nZ 1) x (nZ (-1)) x0 in
  do s <- setZ (b_s b) k sk;
  let o := set_lb o (set_pair b s (b_y b)) in
  let b := v_lb o in
  do g0 <- get_g0 o;
  let yk := vaxpby (nZ 1) g (nZ (-1)) g0 in
  do y <- setZ (b_y b) k yk;
  let b := set_pair b s y in
  do b <- (if is_vmlmb (c_method (v_cfg o)) then Some b
           else
             let sty := vdot sk yk in
             if sty <=? nZ 0 then
               do rho <- setZ (b_rho b) k (nZ 0); Some (set_rho b rho)
             else
               do rho <- setZ (b_rho b) k (nZ 1 / sty);
               let b := set_rho b rho in
               let yty := vdot yk yk in
               Some (if yty >? nZ 0 then set_gamma b (sty / yty) else b));
  let mp := if (b_mp b <? m)%Z then (b_mp b + 1)%Z else b_mp b in
  Some (set_lb o (mkLb (b_gamma b) (b_s b) (b_y b) (b_alpha b) (b_rho b) mp (b_updates b + 1))).

(** ** The two-loop recursion, vmlmb.c 437-509 [apply] *)

(** UPDATE(dst, alpha, x), vmlmb.c 393 *)
Definition UPDATE (dst : S) (alpha : N) (x : S) : S := vaxpby (nZ 1) dst alpha x.

(** vmlmb.c 451-458: first loop of the original recursion; [k] is the number of passes left *)
Fixpoint loop_down (m : Z) (k : nat) (j : Z) (b : lbfgs) (d : S) (res : status) : option (lbfgs * S * status) :=
  match k with
  | O => Some (b, d, res)
  | Datatypes.S k =>
    let i := slot m b j in
    do rho <- nthZ (b_rho b) i;
    if rho >? nZ 0 then
      do s <- nthZ (b_s b) i; do y <- nthZ (b_y b) i;
      let a := rho * vdot d s in
      do alpha <- setZ (b_alpha b) i a;
      loop_down m k (j + 1)%Z (set_alpha b alpha) (UPDATE d (- a) y) SUCCESS
    else loop_down m k (j + 1)%Z b d res
  end.

(** vmlmb.c 476-491: first loop of the recursion restricted to the free variables *)
Fixpoint loop_down_free (m : Z) (w : S) (k : nat) (j : Z) (b : lbfgs) (d : S) (res : status) : option (lbfgs * S * status) :=
  match k with
  | O => Some (b, d, res)
  | Datatypes.S k =>
    let i := slot m b j in
    do s <- nthZ (b_s b) i; do y <- nthZ (b_y b) i;
    let sty := vdot3 w y s in
    if sty <=? nZ 0 then
      do rho <- setZ (b_rho b) i (nZ 0);
      loop_down_free m w k (j + 1)%Z (set_rho b rho) d res
    else
      let r := nZ 1 / sty in
      do rho <- setZ (b_rho b) i r;
      let a := r * vdot3 w d s in
      do alpha <- setZ (b_alpha b) i a;
      let b := set_alpha (set_rho b rho) alpha in
      let b := if b_gamma b =? nZ 0 then set_gamma b (sty / vdot3 w y y) else b in
      loop_down_free m w k (j + 1)%Z b (UPDATE d (- a) y) SUCCESS
  end.

(** vmlmb.c 464-470 and 496-502: second loop, [dot] is DOT or WDOT; the passes are j = k, k-1, ..., 1 *)
Fixpoint loop_up (m : Z) (dot : S -> S -> N) (k : nat) (b : lbfgs) (d : S) : option S :=
  match k with
  | O => Some d
  | Datatypes.S k' =>
    let i := slot m b (Z.of_nat k) in
    do rho <- nthZ (b_rho b) i;
    if rho >? nZ 0 then
      do s <- nthZ (b_s b) i; do y <- nthZ (b_y b) i; do a <- nthZ (b_alpha b) i;
      let beta := rho * dot d y in
      loop_up m dot k' b (UPDATE d (a - beta) s)
    else loop_up m dot k' b d
  end.

(** vmlmb.c 440-509 [apply]: the new recursion data, the direction and the result *)
Definition vm_apply (m : Z) (method : vmethod) (w : S) (b : lbfgs) (g : S) : option (lbfgs * S * status) :=
  let k := Z.to_nat (b_mp b) in
  if is_vmlmb method then
    do (b, d, res) <- loop_down_free m w k 1 (set_gamma b (nZ 0)) g NOT_POSITIVE_DEFINITE;
    if ok res then
      let d := if negb (b_gamma b =? nZ 1) then vscale (b_gamma b) d else d in
      do d <- loop_up m (vdot3 w) k b d;
      Some (b, vproduct w d, res)
    else Some (b, d, res)
  else
    do (b, d, res) <- loop_down m k 1 b g NOT_POSITIVE_DEFINITE;
    if ok res then
      let d := if negb (b_gamma b =? nZ 1) then vscale (b_gamma b) d else d in
      do d <- loop_up m vdot k b d;
      Some (b, d, res)
    else Some (b, d, res).

(** ** The iterations, vmlmb.c 511-742 [opk_iterate_vmlmb] *)

(** vmlmb.c 733-741: compute a new trial point; returns the new contents of x *)
Definition vm_trial (o : vm) (x : S) : option (vm * S) :=
  do x0 <- get_x0 o;
  let x := vaxpby (nZ 1) x0 (- v_stp o) (v_d o) in
  match c_box (v_cfg o) with
  | Some box =>
    if v_stp o >? v_bsmin o then
      let '(st, x) := projvar box x in
      if ok st then Some (vsuccess o COMPUTE_FG, x) else Some (vfailure o st, x)
    else Some (vsuccess o COMPUTE_FG, x)
  | None => Some (vsuccess o COMPUTE_FG, x)
  end.

(** vmlmb.c 576-601: the current step is acceptable, check for global convergence *)
Definition vm_accept (o : vm) (x g : S) : vm :=
  let '(st, w) := match c_box (v_cfg o) with Some box => freevar box x g | None => (SUCCESS, v_w o) end in
  let o := set_w o w in
  if negb (ok st) then vfailure o st
  else
    let '(gp, gnorm) :=
      match c_method (v_cfg o) with
      | VMLMB => (v_gp o, nsqrt (vdot3 w g g))
      | BLMVM => let gp := vproduct w g in (gp, vnorm2 gp)
      | LBFGS => (v_gp o, vnorm2 g)
      end in
    let ginit := if (v_evals o =? 1)%Z then gnorm else v_ginit o in
    let o := set_gnorm o gp gnorm ginit in
    let gtest := vmax3 (nZ 0) (c_gatol (v_cfg o)) (c_grtol (v_cfg o) * ginit) in
    vsuccess o (if gnorm <=? gtest then FINAL_X else NEW_X).

(** vmlmb.c 528-601: case OPK_TASK_COMPUTE_FG *)
Definition vm_check (o : vm) (x : S) (f : N) (g : S) : option (vm * S) :=
  let o := set_counts o (v_evals o + 1) (v_iters o) (v_restarts o) in
  if (v_evals o >? 1)%Z then
    do dtg <- (if ls_use_deriv (v_ls o) then
                 match c_box (v_cfg o) with
                 | Some _ => do x0 <- get_x0 o; Some ((vdot x g - vdot x0 g) / v_stp o)
                 | None => Some (- vdot (v_d o) g)
                 end
               else Some (nZ 0));
    let '(l, stp) := ls_iterate (v_ls o) (v_stp o) f dtg in
    let o := set_steps (set_lnsrch o l) stp (v_bsmin o) in
    match l_task l with
    | LS_SEARCH => vm_trial o x
    | LS_CONVERGENCE => Some (vm_accept (set_counts o (v_evals o) (v_iters o + 1) (v_restarts o)) x g, x)
    | LS_WARNING =>
      if is_rounding (l_status l) then Some (vm_accept (set_counts o (v_evals o) (v_iters o + 1) (v_restarts o)) x g, x)
      else Some (vfailure o (l_status l), x)
    | LS_ERROR => Some (vfailure o (l_status l), x)
    end
  else Some (vm_accept o x g, x).

(** The gradient used for the BFGS updates: OPK_BLMVM uses the projected one (vmlmb.c 609, 715) *)
Definition gsave (o : vm) (g : S) : S := if is_blmvm (c_method (v_cfg o)) then v_gp o else g.

(** vmlmb.c 606-637: the search direction given by the recursion and the directional derivative (0 if there is none);
    the second case is an error of the projection. *)
Definition vm_direction (o : vm) (x g : S) : option (vm * (N + status)) :=
  do o <- (if (v_iters o >=? 1)%Z then vm_update o x (gsave o g) else Some o);
  do (b, d, st) <- vm_apply (c_m (v_cfg o)) (c_method (v_cfg o)) (v_w o) (v_lb o) g;
  let o := set_d (set_lb o b) d in
  if ok st then
    let '(st, d) := match c_box (v_cfg o) with Some box => projdir box x d | None => (SUCCESS, d) end in
    let o := set_d o d in
    if negb (ok st) then Some (o, inr st)
    else
      let dtg := - vdot d g in
      Some (o, inl (if (c_epsilon (v_cfg o) >? nZ 0) && (- dtg <? c_epsilon (v_cfg o) * vnorm2 d * v_gnorm o) then nZ 0 else dtg))
  else Some (o, inl (nZ 0)).

(** vmlmb.c 644-677: restart with the (projected) gradient *)
Definition vm_steepest (o : vm) (x : S) (f : N) (g : S) : vm * N :=
  let o := if (b_mp (v_lb o) >? 0)%Z
           then set_lb (set_counts o (v_evals o) (v_iters o) (v_restarts o + 1)) (set_mp (v_lb o) 0) else o in
  let d := match c_method (v_cfg o) with VMLMB => vproduct (v_w o) g | BLMVM => v_gp o | LBFGS => g end in
  let o := set_d o d in
  let dtg := - v_gnorm o * v_gnorm o in
  let stp :=
    if negb (f =? nZ 0) then nZ 2 * nabs (f / dtg)
    else
      let dnorm := v_gnorm o in
      let xnorm := match c_box (v_cfg o) with Some _ => nsqrt (vdot3 (v_w o) x x) | None => vnorm2 x end in
      if xnorm >? nZ 0 then c_delta (v_cfg o) * xnorm / dnorm else c_delta (v_cfg o) / dnorm in
  (set_steps o stp (v_bsmin o), dtg).

(** vmlmb.c 679-703: the limits of the step; returns the new state and (stpmin, stpmax), or an error *)
Definition vm_limits (o : vm) (x : S) : option (vm * ((N * N) + status)) :=
  let stpmin := v_stp o * c_stpmin (v_cfg o) in
  let stpmax := v_stp o * c_stpmax (v_cfg o) in
  match c_box (v_cfg o) with
  | None => Some (o, inl (stpmin, stpmax))
  | Some box =>
    let '(st, lims) := steplim box x (v_d o) in
    do lims <- lims;                        (* bsmin1 is tested before the status *)
    let '(_, bsmin2, bsmax) := lims in
    if negb (ok st) then Some (o, inr st)
    else if bsmax <=? nZ 0 then Some (o, inr WOULD_BLOCK)
    else
      let stp := if v_stp o >? bsmax then bsmax else v_stp o in
      let stpmax := if stpmax >? bsmax then bsmax else stpmax in
      Some (set_steps o stp bsmin2, inl (stpmin, stpmax))
  end.

(** vmlmb.c 705-716: save the current point *)
Definition vm_save (o : vm) (x : S) (f : N) (g : S) : option vm :=
  let b := v_lb o in
  if c_save (v_cfg o) then
    let k := slot (c_m (v_cfg o)) b 0 in
    do _ <- nthZ (b_s b) k; do _ <- nthZ (b_y b) k;
    let b := if (b_mp b =? c_m (v_cfg o))%Z then set_mp b (b_mp b - 1) else b in
    do s <- setZ (b_s b) k x; do y <- setZ (b_y b) k (gsave o g);
    Some (set_start (set_lb o (set_pair b s y)) (v_x0 o) (v_g0 o) (Some k) f)
  else Some (set_start o x (gsave o g) (v_k0 o) f).

(** vmlmb.c 603-724: case OPK_TASK_NEW_X or OPK_TASK_FINAL_X *)
Definition vm_new_x (o : vm) (x : S) (f : N) (g : S) : option (vm * S) :=
  do (o, r) <- vm_direction o x g;
  match r with
  | inr st => Some (vfailure o st, x)
  | inl dtg =>
    let '(o, dtg) := if dtg <? nZ 0 then (set_steps o (nZ 1) (v_bsmin o), dtg) else vm_steepest o x f g in
    do (o, r) <- vm_limits o x;
    match r with
    | inr st => Some (vfailure o st, x)
    | inl (stpmin, stpmax) =>
      do o <- vm_save o x f g;
      do l <- ls_start (v_ls o) f dtg (v_stp o) stpmin stpmax;
      let o := set_lnsrch o l in
      match l_task l with
      | LS_SEARCH => vm_trial o x
      | _ => Some (vfailure o (l_status l), x)
      end
    end
  end.

(** vmlmb.c 511-742 [opk_iterate_vmlmb]: the returned value is the task of the new state in all cases. *)
Definition vm_iterate (o : vm) (x : S) (f : N) (g : S) : option (vm * S) :=
  match v_task o with
  | COMPUTE_FG => vm_check o x f g
  | NEW_X | FINAL_X => vm_new_x o x f g
  | _ => Some (o, x)
  end.

(** ** Accessors, vmlmb.c 786-853 *)
Definition vm_get_task (o : vm) : task := v_task o.
Definition vm_get_status (o : vm) : status := v_status o.
Definition vm_get_iterations (o : vm) : Z := v_iters o.
Definition vm_get_evaluations (o : vm) : Z := v_evals o.
Definition vm_get_restarts (o : vm) : Z := v_restarts o.
Definition vm_get_step (o : option vm) : N := match o with Some o => v_stp o | None => nZ (-1) end.
Definition vm_get_gnorm (o : option vm) : N := match o with Some o => v_gnorm o | None => nZ (-1) end.
Definition vm_get_mp (o : option vm) : Z := match o with Some o => b_mp (v_lb o) | None => 0%Z end.
(** The vector, NULL is [Some None]; [None] is an access outside of the array. *)
Definition vm_get_s (o : option vm) (j : Z) : option (option S) :=
  match o with
  | Some o => if (0 <=? j)%Z && (j <=? b_mp (v_lb o))%Z
              then do v <- nthZ (b_s (v_lb o)) (slot (c_m (v_cfg o)) (v_lb o) j); Some (Some v) else Some None
  | None => Some None
  end.
Definition vm_get_y (o : option vm) (j : Z) : option (option S) :=
  match o with
  | Some o => if (0 <=? j)%Z && (j <=? b_mp (v_lb o))%Z
              then do v <- nthZ (b_y (v_lb o)) (slot (c_m (v_cfg o)) (v_lb o) j); Some (Some v) else Some None
  | None => Some None
  end.
End Vm.
Arguments vmopts : clear implicits.
Arguments vmcfg {_} _.
Arguments lbfgs {_} _.
Arguments vm {_} _.
