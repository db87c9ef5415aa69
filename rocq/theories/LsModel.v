(** * Line searches: src/lnsrch.c

    The base structure [opk_lnsrch_] (optimpack-private.h 451-464) is the record [ls]; the members of the
    three sub-types (backtracking, nonmonotone, More & Thuente) are the constructors of [method].  The
    virtual table [ops] is the choice of the constructor, hence [csrch_get_workspace] (lnsrch.c 639-647)
    never fails here.  The member [searching] is never used by the C code and is dropped. *)
From Coq Require Import List ZArith Bool Arith.
From Verif Require Import Num Base.
Import ListNotations.
Local Open Scope num_scope.

(** optimpack.h 1165-1170 [opk_lnsrch_task] *)
Inductive lstask := LS_ERROR | LS_SEARCH | LS_CONVERGENCE | LS_WARNING.
Definition lstask_code (t : lstask) : Z :=
  match t with LS_ERROR => -1 | LS_SEARCH => 0 | LS_CONVERGENCE => 1 | LS_WARNING => 2 end.
Definition lstask_eqb (a b : lstask) : bool :=
  match a, b with
  | LS_ERROR, LS_ERROR | LS_SEARCH, LS_SEARCH | LS_CONVERGENCE, LS_CONVERGENCE | LS_WARNING, LS_WARNING => true
  | _, _ => false
  end.

Section Ls.
Context {N : Num}.

(** optimpack.h 206, 211 *)
Definition OPK_MIN (a b : N) : N := if a <=? b then a else b.
Definition OPK_MAX (a b : N) : N := if a >=? b then a else b.

(** lnsrch.c 56-60 [non_finite] *)
Definition non_finite (x : N) : bool := negb (nfin x).

(** ** The step update of More & Thuente *)

(** The variables updated by [opk_cstep] *)
Record bracket := mkBracket {
  stx : N; fx : N; dx : N; sty : N; fy : N; dy : N; stp_ : N; brackt : bool
}.

(** lnsrch.c 816-822 [max3] *)
Definition max3 (v1 v2 v3 : N) : N :=
  let r := v1 in
  let r := if v2 >? r then v2 else r in
  if v3 >? r then v3 else r.

(** lnsrch.c 914-944: tests of the arguments *)
Definition cstep_check (b : bracket) (stpmin stpmax : N) : status :=
  if brackt b && (if stx b <? sty b then (stp_ b <=? stx b) || (stp_ b >=? sty b)
                  else (stp_ b <=? sty b) || (stp_ b >=? stx b)) then STEP_OUTSIDE_BRACKET
  else if dx b * (stp_ b - stx b) >=? nZ 0 then NOT_A_DESCENT
  else if stpmin >? stpmax then STPMIN_GT_STPMAX
  else SUCCESS.

(** lnsrch.c 948 *)
Definition cstep_opposite (d1 d2 : N) : bool :=
  ((d1 <? nZ 0) && (d2 >? nZ 0)) || ((d1 >? nZ 0) && (d2 <? nZ 0)).

(** lnsrch.c 956, 979, 1004: theta *)
Definition cstep_theta (st1 f1 d1 st2 f2 d2 : N) : N :=
  nZ 3 * (f1 - f2) / (st2 - st1) + d1 + d2.
(** lnsrch.c 957-959: s*sqrt((theta/s)^2 - (d1/s)*(d2/s)) *)
Definition cstep_gamma (theta d1 d2 : N) : N :=
  let s := max3 (nabs theta) (nabs d1) (nabs d2) in
  let temp := theta / s in
  s * nsqrt (temp * temp - (d1 / s) * (d2 / s)).

(** lnsrch.c 950-970: first case, a higher function value *)
Definition cstep_case1 (stx fx dx stp fp dp : N) : N :=
  let theta := cstep_theta stx fx dx stp fp dp in
  let gamma := cstep_gamma theta dx dp in
  let gamma := if stp <? stx then - gamma else gamma in
  let p := (gamma - dx) + theta in
  let q := ((gamma - dx) + gamma) + dp in
  let r := p / q in
  let stpc := stx + r * (stp - stx) in
  let stpq := stx + ((dx / ((fx - fp) / (stp - stx) + dx)) / nZ 2) * (stp - stx) in
  if nabs (stpc - stx) <? nabs (stpq - stx) then stpc else stpc + (stpq - stpc) / nZ 2.

(** lnsrch.c 971-993: second case, derivatives of opposite signs *)
Definition cstep_case2 (stx fx dx stp fp dp : N) : N :=
  let theta := cstep_theta stx fx dx stp fp dp in
  let gamma := cstep_gamma theta dx dp in
  let gamma := if stp >? stx then - gamma else gamma in
  let p := (gamma - dp) + theta in
  let q := ((gamma - dp) + gamma) + dx in
  let r := p / q in
  let stpc := stp + r * (stx - stp) in
  let stpq := stp + (dp / (dp - dx)) * (stx - stp) in
  if nabs (stpc - stp) >? nabs (stpq - stp) then stpc else stpq.

(** lnsrch.c 994-1040: third case, the magnitude of the derivative decreases *)
Definition cstep_case3 (stx fx dx sty stp fp dp : N) (brackt : bool) (stpmin stpmax : N) : N :=
  let theta := cstep_theta stx fx dx stp fp dp in
  let s := max3 (nabs theta) (nabs dx) (nabs dp) in
  let temp := theta / s in
  let temp := temp * temp - (dx / s) * (dp / s) in
  let gamma := if temp >? nZ 0 then (if stp >? stx then - (s * nsqrt temp) else s * nsqrt temp) else nZ 0 in
  let p := (gamma - dp) + theta in
  let q := (gamma + (dx - dp)) + gamma in
  let r := p / q in
  let stpc := if (r <? nZ 0) && negb (gamma =? nZ 0) then stp + r * (stx - stp)
              else if stp >? stx then stpmax else stpmin in
  let stpq := stp + (dp / (dp - dx)) * (stx - stp) in
  if brackt then
    let stpf := if nabs (stpc - stp) <? nabs (stpq - stp) then stpc else stpq in
    let temp := stp + nQ 66 100 * (sty - stp) in
    if (if stp >? stx then stpf >? temp else stpf <? temp) then temp else stpf
  else
    let stpf := if nabs (stpc - stp) >? nabs (stpq - stp) then stpc else stpq in
    let stpf := if stpf >? stpmax then stpmax else stpf in
    if stpf <? stpmin then stpmin else stpf.

(** lnsrch.c 1041-1063: fourth case *)
Definition cstep_case4 (stx sty fy dy stp fp dp : N) (brackt : bool) (stpmin stpmax : N) : N :=
  if brackt then
    let theta := nZ 3 * (fp - fy) / (sty - stp) + dy + dp in
    let gamma := cstep_gamma theta dy dp in
    let gamma := if stp >? sty then - gamma else gamma in
    let p := (gamma - dp) + theta in
    let q := ((gamma - dp) + gamma) + dy in
    let r := p / q in
    stp + r * (sty - stp)
  else if stp >? stx then stpmax
  else stpmin.

(** lnsrch.c 913-1083 [opk_cstep]: the status and the updated variables (unchanged in case of error) *)
Definition opk_cstep (b : bracket) (fp dp : N) (stpmin stpmax : N) : status * bracket :=
  match cstep_check b stpmin stpmax with
  | SUCCESS =>
    let stp := stp_ b in
    let opposite := cstep_opposite dp (dx b) in
    let higher := fp >? fx b in
    let brackt' := if higher then true else if opposite then true else brackt b in
    let stpf :=
      if higher then cstep_case1 (stx b) (fx b) (dx b) stp fp dp
      else if opposite then cstep_case2 (stx b) (fx b) (dx b) stp fp dp
      else if nabs dp <? nabs (dx b) then cstep_case3 (stx b) (fx b) (dx b) (sty b) stp fp dp (brackt b) stpmin stpmax
      else cstep_case4 (stx b) (sty b) (fy b) (dy b) stp fp dp (brackt b) stpmin stpmax in
    (* lnsrch.c 1065-1081 *)
    (SUCCESS,
     if higher then mkBracket (stx b) (fx b) (dx b) stp fp dp stpf brackt'
     else if opposite then mkBracket stp fp dp (stx b) (fx b) (dx b) stpf brackt'
     else mkBracket stp fp dp (sty b) (fy b) (dy b) stpf brackt')
  | st => (st, b)
  end.

(** ** The objects *)

(** lnsrch.c 450-480 [csrch_lnsrch]; the step of [cs_br] is not a member of the C structure: it is the current
    step when [opk_cstep] is called. *)
Record csrch := mkCsrch {
  cs_ftol : N; cs_gtol : N; cs_xtol : N;
  cs_gtest : N;
  cs_stx : N; cs_fx : N; cs_gx : N;
  cs_sty : N; cs_fy : N; cs_gy : N;
  cs_stmin : N; cs_stmax : N; cs_width : N; cs_width1 : N;
  cs_brackt : bool;
  cs_stage : Z
}.

(** lnsrch.c 244-248, 324-336 and [csrch].  [nm_fsav] is the array that follows the structure. *)
Inductive method :=
| Backtrack (ftol amin : N)
| Nonmonotone (sigma1 sigma2 ftol fmax : N) (fsav : list N) (m mp : nat)
| Csrch (c : csrch).

(** optimpack-private.h 451-464 *)
Record ls := mkLs {
  l_stp : N; l_stpmin : N; l_stpmax : N; l_finit : N; l_ginit : N;
  l_status : status; l_task : lstask;
  l_method : method
}.

(** lnsrch.c 62-84 [failure], [warning], [success]: these set the members; the task is returned. *)
Definition set_task (l : ls) (st : status) (t : lstask) : ls :=
  mkLs (l_stp l) (l_stpmin l) (l_stpmax l) (l_finit l) (l_ginit l) st t (l_method l).
Definition failure (l : ls) (st : status) : ls := set_task l st LS_ERROR.
Definition warning (l : ls) (st : status) : ls := set_task l st LS_WARNING.
Definition success (l : ls) (t : lstask) : ls := set_task l SUCCESS t.

Definition set_method (l : ls) (m : method) : ls :=
  mkLs (l_stp l) (l_stpmin l) (l_stpmax l) (l_finit l) (l_ginit l) (l_status l) (l_task l) m.
Definition set_stp (l : ls) (s : N) : ls :=
  mkLs s (l_stpmin l) (l_stpmax l) (l_finit l) (l_ginit l) (l_status l) (l_task l) (l_method l).

(** lnsrch.c 98-120 [opk_allocate_line_search] (the memory is zeroed by [opk_allocate_object]) *)
Definition allocate_line_search (m : method) : ls :=
  mkLs (nZ 0) (nZ 0) (nZ 0) (nZ 0) (nZ 0) NOT_STARTED LS_ERROR m.

(** ** Constructors; [alloc] tells whether the memory allocation succeeds; [None] is NULL *)

(** lnsrch.c 305-322 [opk_lnsrch_new_backtrack] *)
Definition new_backtrack (alloc : bool) (ftol amin : N) : option ls :=
  if (ftol <=? nZ 0) || (ftol >? nQ 1 2) || (amin <=? nZ 0) || (amin >=? nZ 1) then None
  else if alloc then Some (allocate_line_search (Backtrack ftol amin)) else None.

(** lnsrch.c 421-446 [opk_lnsrch_new_nonmonotone].  [size_t] is a 64-bit unsigned type and the structure
    has 136 bytes; the array [fsav] is what remains of the allocated block. *)
Definition nm_offset : Z := 136.
Definition nm_capacity (m : Z) : Z := (((nm_offset + m * 8) mod 2 ^ 64 - nm_offset) / 8)%Z.
Definition new_nonmonotone (alloc : bool) (m : Z) (ftol sigma1 sigma2 : N) : option ls :=
  if non_finite ftol || non_finite sigma1 || non_finite sigma1 ||
     (ftol <=? nZ 0) || (sigma1 <=? nZ 0) || (sigma1 >=? sigma2) || (sigma2 >=? nZ 1) || (m <? 1)%Z then None
  else if alloc then
    Some (allocate_line_search (Nonmonotone sigma1 sigma2 ftol (nZ 0) (repeat (nZ 0) (Z.to_nat (nm_capacity m))) (Z.to_nat m) 0))
  else None.

(** lnsrch.c 649-677 [opk_lnsrch_new_csrch] *)
Definition new_csrch (alloc : bool) (ftol gtol xtol : N) : option ls :=
  if (ftol <? nZ 0) || (gtol <? nZ 0) || (xtol <? nZ 0) then None
  else if alloc then
    let z := nZ 0 in
    Some (allocate_line_search (Csrch (mkCsrch ftol gtol xtol z z z z z z z z z z z false 0)))
  else None.

(** ** Start *)

(** p[i] = v, undefined outside of the array *)
Fixpoint store (l : list N) (i : nat) (v : N) : option (list N) :=
  match l, i with
  | [], _ => None
  | _ :: l, O => Some (v :: l)
  | a :: l, S i => do l' <- store l i v; Some (a :: l')
  end.

(** lnsrch.c 351-355: for (j = 1; j < n; ++j) if (fsav[j] > fmax) fmax = fsav[j] *)
Fixpoint max_loop (fsav : list N) (k j : nat) (fmax : N) : option N :=
  match k with
  | O => Some fmax
  | S k => do a <- nth_error fsav j; max_loop fsav k (S j) (if a >? fmax then a else fmax)
  end.

(** lnsrch.c 339-359 [nonmonotone_start] (the counter [mp] is assumed not to overflow) *)
Definition nonmonotone_start (l : ls) (sigma1 sigma2 ftol : N) (fsav : list N) (m mp : nat) : option ls :=
  do fsav <- store fsav (mp mod m) (l_finit l);
  let mp := S mp in
  let n := if (mp <=? m)%nat then mp else m in
  do f0 <- nth_error fsav 0;
  do fmax <- max_loop fsav (n - 1) 1 f0;
  Some (success (set_method l (Nonmonotone sigma1 sigma2 ftol fmax fsav m mp)) LS_SEARCH).

(** lnsrch.c 486-520 [csrch_start] *)
Definition csrch_start (l : ls) (c : csrch) : ls :=
  let width := l_stpmax l - l_stpmin l in
  success (set_method l (Csrch (mkCsrch (cs_ftol c) (cs_gtol c) (cs_xtol c)
    (cs_ftol c * l_ginit l)
    (nZ 0) (l_finit l) (l_ginit l)
    (nZ 0) (l_finit l) (l_ginit l)
    (l_stpmin l) (l_stpmax l) width (width / nQ 1 2) false 1))) LS_SEARCH.

(** lnsrch.c 124-152 [opk_lnsrch_start] (see [lnsrch_start] for a NULL argument).  None is undefined behaviour.
    lnsrch.c 250-254 [backtrack_start] is in the first case. *)
Definition ls_start (l : ls) (f0 g0 stp stpmin stpmax : N) : option ls :=
  if stpmin <? nZ 0 then Some (failure l STPMIN_LT_ZERO)
  else if stpmin >? stpmax then Some (failure l STPMIN_GT_STPMAX)
  else if stp <? stpmin then Some (failure l STEP_LT_STPMIN)
  else if stp >? stpmax then Some (failure l STEP_GT_STPMAX)
  else if g0 >=? nZ 0 then Some (failure l NOT_A_DESCENT)
  else
    let l := mkLs stp stpmin stpmax f0 g0 (l_status l) (l_task l) (l_method l) in
    match l_method l with
    | Backtrack _ _ => Some (success l LS_SEARCH)
    | Nonmonotone s1 s2 ft _ fsav m mp => nonmonotone_start l s1 s2 ft fsav m mp
    | Csrch c => Some (csrch_start l c)
    end.

(** ** Iterations: the new object and the new value of the step variable of the caller *)

(** lnsrch.c 256-296 [backtrack_iterate] *)
Definition backtrack_iterate (l : ls) (ftol amin : N) (stp f : N) : ls * N :=
  if f <=? l_finit l + ftol * stp * l_ginit l then (success l LS_CONVERGENCE, stp)
  else if stp <=? l_stpmin l then (warning l STEP_EQ_STPMIN, stp)
  else
    let s :=
      if amin >=? nQ 1 2 then stp * nQ 1 2
      else
        let q := - stp * l_ginit l in
        let r := (f - (l_finit l - q)) * nZ 2 in
        if r <=? nZ 0 then stp * nQ 1 2
        else if q <=? amin * r then stp * amin
        else stp * (q / r) in
    let s := if s <? l_stpmin l then l_stpmin l else s in
    (success l LS_SEARCH, s).

(** lnsrch.c 370-412 [nonmonotone_iterate] *)
Definition nonmonotone_iterate (l : ls) (sigma1 sigma2 ftol fmax : N) (stp f : N) : ls * N :=
  let alpha := stp in
  let delta := l_ginit l in
  if f <=? fmax + ftol * alpha * delta then (success l LS_CONVERGENCE, stp)
  else if alpha <=? l_stpmin l then (warning l STEP_EQ_STPMIN, l_stpmin l)
  else
    let q := - delta * alpha * alpha in
    let r := (f - l_finit l - alpha * delta) * nZ 2 in
    let alpha :=
      if (r >? nZ 0) && (sigma1 * r <=? q) && (q <=? sigma2 * alpha * r) then q / r
      else (alpha + l_stpmin l) / nZ 2 in
    let alpha := OPK_MAX alpha (l_stpmin l) in
    if alpha <=? nZ 0 then (warning l STEP_EQ_STPMIN, alpha)
    else (success l LS_SEARCH, alpha).

(** lnsrch.c 522-634 [csrch_iterate] *)
Definition csrch_iterate (l : ls) (c : csrch) (stp f g : N) : ls * N :=
  let ftest := l_finit l + stp * cs_gtest c in
  if (f <=? ftest) && (nabs g <=? - cs_gtol c * l_ginit l) then (success l LS_CONVERGENCE, stp)
  else if (stp =? l_stpmin l) && ((f >? ftest) || (g >=? cs_gtest c)) then (warning l STEP_EQ_STPMIN, stp)
  else if (stp =? l_stpmax l) && (f <=? ftest) && (g <=? cs_gtest c) then (warning l STEP_EQ_STPMAX, stp)
  else if cs_brackt c && (cs_stmax c - cs_stmin c <=? cs_xtol c * cs_stmax c) then (warning l XTOL_TEST_SATISFIED, stp)
  else if cs_brackt c && ((stp <=? cs_stmin c) || (stp >=? cs_stmax c)) then (warning l ROUNDING_ERRORS_PREVENT_PROGRESS, stp)
  else
    let stage := if (cs_stage c =? 1)%Z && (f <=? ftest) && (g >=? nZ 0) then 2%Z else cs_stage c in
    let gtest := cs_gtest c in
    (* lnsrch.c 567-601 *)
    let '(result, b) :=
      if (stage =? 1)%Z && (f <=? cs_fx c) && (f >? ftest) then
        let fm := f - stp * gtest in
        let fxm := cs_fx c - cs_stx c * gtest in
        let fym := cs_fy c - cs_sty c * gtest in
        let gm := g - gtest in
        let gxm := cs_gx c - gtest in
        let gym := cs_gy c - gtest in
        let '(result, b) := opk_cstep (mkBracket (cs_stx c) fxm gxm (cs_sty c) fym gym stp (cs_brackt c)) fm gm (cs_stmin c) (cs_stmax c) in
        (result, mkBracket (stx b) (fx b + stx b * gtest) (dx b + gtest) (sty b) (fy b + sty b * gtest) (dy b + gtest) (stp_ b) (brackt b))
      else
        opk_cstep (mkBracket (cs_stx c) (cs_fx c) (cs_gx c) (cs_sty c) (cs_fy c) (cs_gy c) stp (cs_brackt c)) f g (cs_stmin c) (cs_stmax c) in
    match result with
    | SUCCESS =>
      let stp := stp_ b in
      (* lnsrch.c 603-611 *)
      let new_width := nabs (sty b - stx b) in
      let stp := if brackt b && (new_width >=? nQ 66 100 * cs_width1 c) then stx b + nQ 1 2 * (sty b - stx b) else stp in
      let width1 := if brackt b then cs_width c else cs_width1 c in
      let width := if brackt b then new_width else cs_width c in
      (* lnsrch.c 613-620 *)
      let stmin := if brackt b then OPK_MIN (stx b) (sty b) else stp + (stp - stx b) * nQ 11 10 in
      let stmax := if brackt b then OPK_MAX (stx b) (sty b) else stp + (stp - stx b) * nZ 4 in
      (* lnsrch.c 622-631 *)
      let stp := OPK_MAX stp (l_stpmin l) in
      let stp := OPK_MIN stp (l_stpmax l) in
      let stp := if brackt b && ((stp <=? stmin) || (stp >=? stmax) || (stmax - stmin <=? cs_xtol c * stmax)) then stx b else stp in
      let c := mkCsrch (cs_ftol c) (cs_gtol c) (cs_xtol c) gtest (stx b) (fx b) (dx b) (sty b) (fy b) (dy b)
                       stmin stmax width width1 (brackt b) stage in
      (success (set_method l (Csrch c)) LS_SEARCH, stp)
    | st =>
      (* only the stage has been updated *)
      let c := mkCsrch (cs_ftol c) (cs_gtol c) (cs_xtol c) gtest (cs_stx c) (cs_fx c) (cs_gx c) (cs_sty c) (cs_fy c) (cs_gy c)
                       (cs_stmin c) (cs_stmax c) (cs_width c) (cs_width1 c) (cs_brackt c) stage in
      (failure (set_method l (Csrch c)) st, stp)
    end.

Definition method_iterate (l : ls) (stp f g : N) : ls * N :=
  match l_method l with
  | Backtrack ftol amin => backtrack_iterate l ftol amin stp f
  | Nonmonotone s1 s2 ftol fmax _ _ _ => nonmonotone_iterate l s1 s2 ftol fmax stp f
  | Csrch c => csrch_iterate l c stp f g
  end.

(** lnsrch.c 154-190 [opk_lnsrch_iterate] (see [lnsrch_iterate] for NULL arguments) *)
Definition ls_iterate (l : ls) (stp f g : N) : ls * N :=
  if negb (lstask_eqb (l_task l) LS_SEARCH) then (failure l NOT_STARTED, stp)
  else if negb (stp =? l_stp l) then (failure l STEP_CHANGED, stp)
  else
    let bound := if l_stp l <=? l_stpmin l then (-1)%Z else if l_stp l >=? l_stpmax l then 1%Z else 0%Z in
    let '(l, stp) := method_iterate l stp f g in
    let '(l, stp) :=
      if stp <=? l_stpmin l then
        ((if (bound <? 0)%Z then warning l STEP_EQ_STPMIN else l), l_stpmin l)
      else if stp >=? l_stpmax l then
        ((if (bound >? 0)%Z then warning l STEP_EQ_STPMAX else l), l_stpmax l)
      else (l, stp) in
    (set_stp l stp, stp).

(** ** Accessors *)

(** lnsrch.c 192-238 *)
Definition ls_get_step (l : option ls) : N :=
  match l with Some l => if lstask_eqb (l_task l) LS_SEARCH then l_stp l else nZ (-1) | None => nZ (-1) end.
Definition ls_get_task (l : option ls) : lstask := match l with Some l => l_task l | None => LS_ERROR end.
Definition ls_get_status (l : option ls) : status := match l with Some l => l_status l | None => ILLEGAL_ADDRESS end.
Definition ls_has_errors (l : option ls) : bool := lstask_eqb (ls_get_task l) LS_ERROR.
Definition ls_has_warnings (l : option ls) : bool := lstask_eqb (ls_get_task l) LS_WARNING.
Definition ls_converged (l : option ls) : bool := lstask_eqb (ls_get_task l) LS_CONVERGENCE.
Definition ls_finished (l : option ls) : bool := negb (lstask_eqb (ls_get_task l) LS_SEARCH).
Definition ls_use_deriv (l : ls) : bool := match l_method l with Csrch _ => true | _ => false end.

(** The functions as called from C: the returned value is the numerical code of the task; the first lines (lnsrch.c 128-130,
    160-162) return the {e status} OPK_ILLEGAL_ADDRESS for a NULL argument. *)
Definition lnsrch_start (l : option ls) (f0 g0 stp stpmin stpmax : N) : option (Z * option ls) :=
  match l with
  | None => Some (status_code ILLEGAL_ADDRESS, None)
  | Some l => do l' <- ls_start l f0 g0 stp stpmin stpmax; Some (lstask_code (l_task l'), Some l')
  end.
Definition lnsrch_iterate (l : option ls) (stp : option N) (f g : N) : Z * option ls * option N :=
  match l, stp with
  | Some l, Some stp => let '(l', stp') := ls_iterate l stp f g in (lstask_code (l_task l'), Some l', Some stp')
  | _, _ => (status_code ILLEGAL_ADDRESS, l, stp)
  end.
End Ls.
Arguments ls : clear implicits.
Arguments method : clear implicits.
Arguments csrch : clear implicits.
Arguments bracket : clear implicits.
