(** * Minimization of a function of one variable: src/fmin.c

    The function to minimize is any function [f] on the numbers.  The loops of [opk_fmin] may never end: the functions below
    have a fuel and say whether they were still running; what happened so far is in the state in both cases.  The list of the
    points where [f] has been evaluated (most recent first) is recorded in the state.  The counters do not overflow. *)
From Coq Require Import List ZArith Bool.
From Verif Require Import Num VecModel Base.
Import ListNotations.
Local Open Scope num_scope.

Section Fmin.
Context {N : Num}.

(** fmin.c 59-61, 75-79 *)
Definition FMIN_SQRT_EPSILON : N := nsqrt (nQ 1 (2 ^ 52)).
Definition FMIN_ALPHA : N := nQ 381966011250105151795413165634362 (10 ^ 33).
Definition FMIN_GAMMA : N := nQ 161803398874989484820458683436564 (10 ^ 32).

(** optimpack.h 2177-2179 *)
Definition bounded_by_a (flags : Z) : bool := negb (Z.land flags 1 =? 0)%Z.
Definition bounded_by_b (flags : Z) : bool := negb (Z.land flags 2 =? 0)%Z.

(** The local variables u, fu, v, fv, w, fw, nevals and the points where f was called. *)
Record fm := mkFm { fu_x : N; fu_f : N; fv_x : N; fv_f : N; fw_x : N; fw_f : N; f_nevals : Z; f_points : list N }.

(** The convergence test, fmin.c 344-350 and 544-550 *)
Definition fmin_radius (u v w : N) : N :=
  let r := nabs u in
  let r := if nabs v >? r then nabs v else r in
  if nabs w >? r then nabs w else r.
Definition fmin_converged (prec u v w : N) : bool := nabs (w - v) <=? prec * fmin_radius u v w.

(** fmin.c 355-367 and 568-582: the new interval after the evaluation of f at [x] *)
Definition fmin_update (s : fm) (x fx : N) (nevals : Z) (points : list N) : fm :=
  if (fx >? fv_f s) || ((fx =? fv_f s) && (fu_f s >=? fw_f s))
  then mkFm x fx (fv_x s) (fv_f s) (fu_x s) (fu_f s) nevals points
  else mkFm (fv_x s) (fv_f s) x fx (fw_x s) (fw_f s) nevals points.

Section Direct.
Context (f : N -> N).

(** fmin.c 499-527: evaluation at the ends and inside *)
Definition fmin_first (a b : N) (flags : Z) : fm :=
  let u := a in
  let '(fu, n, pts) := if negb (bounded_by_a flags) then (f u, 1%Z, [u]) else (ninf, 0%Z, []) in
  let w := b in
  let '(fw, n, pts) := if negb (bounded_by_b flags) then (f w, (n + 1)%Z, w :: pts) else (ninf, n, pts) in
  let '(u, fu, w, fw) := if fw >? fu then (w, fw, u, fu) else (u, fu, w, fw) in
  let v := FMIN_ALPHA * (w - u) + u in
  mkFm u fu v (f v) w fw (n + 1) (v :: pts).

(** The end of a loop: still running, or jump to "done" with a value of status, or exit of the while loop. *)
Inductive outcome := Running (s : fm) | Done (status : Z) (s : fm).

(** fmin.c 542-583: the loop which reduces the interval *)
Fixpoint fmin_reduce (fuel : nat) (maxeval : Z) (prec : N) (s : fm) : outcome :=
  match fuel with
  | O => Running s
  | S fuel =>
    if fmin_converged prec (fu_x s) (fv_x s) (fw_x s) then Done 0 s
    else if (maxeval >? 0)%Z && (f_nevals s >=? maxeval)%Z then Done 1 s
    else
      let x := FMIN_ALPHA * (fw_x s - fv_x s) + fv_x s in
      let fx := f x in
      fmin_reduce fuel maxeval prec (fmin_update s x fx (f_nevals s + 1) (x :: f_points s))
  end.

(** fmin.c 528-540: the loop which searches a bracket, then the other one *)
Fixpoint fmin_search (fuel : nat) (maxeval : Z) (prec : N) (s : fm) : outcome :=
  match fuel with
  | O => Running s
  | S fuel' =>
    if fv_f s >? fw_f s then
      if (maxeval >? 0)%Z && (f_nevals s >=? maxeval)%Z then Done 2 s
      else
        let u := fv_x s in let fu := fv_f s in
        let v := fw_x s in let fv := fw_f s in
        let w := FMIN_GAMMA * (v - u) + v in
        fmin_search fuel' maxeval prec (mkFm u fu v fv w (f w) (f_nevals s + 1) (w :: f_points s))
    else fmin_reduce fuel maxeval prec s
  end.

(** fmin.c 485-604 [opk_fmin], [opk_fmin_with_context]: [None] if the arguments are refused (the returned value is -1). *)
Definition fmin_run (fuel : nat) (a b : N) (flags maxeval : Z) (prec : N) : option outcome :=
  let prec := if prec <? nZ 0 then FMIN_SQRT_EPSILON else prec in
  if a =? b then None else Some (fmin_search fuel maxeval prec (fmin_first a b flags)).
End Direct.

(** fmin.c 585-601: the array out, but out[6] *)
Definition fmin_out (s : fm) : list N :=
  if fu_x s >? fw_x s then [fv_x s; fw_x s; fu_x s; fv_f s; fw_f s; fu_f s]
  else [fv_x s; fu_x s; fw_x s; fv_f s; fu_f s; fw_f s].

(** ** Reverse communication *)

(** optimpack.h 2182-2188; opk_fmin_new sets the status to OPK_FMIN_START - 1, which is OPK_FMIN_ERROR *)
Inductive ftask := FERROR | FSTART | FFX | FNEWX | FCONVERGENCE.
Definition ftask_code (t : ftask) : Z := match t with FERROR => -1 | FSTART => 0 | FFX => 1 | FNEWX => 2 | FCONVERGENCE => 3 end.

(** fmin.c 81-88 [opk_fmin_context]; the member msg is not used *)
Record ctx := mkCtx {
  x_a : N; x_b : N; x_u : N; x_fu : N; x_v : N; x_fv : N; x_w : N; x_fw : N; x_x : N;
  x_prec : N; x_nevals : Z; x_flags : Z; x_status : ftask; x_stage : Z
}.

(** fmin.c 100-111 [opk_fmin_new] *)
Definition fmin_new : ctx :=
  let z := nZ 0 in mkCtx z z z z z z z z z FMIN_SQRT_EPSILON 0 0 FERROR 0.

(** fmin.c 121-132 [opk_fmin_set_precision] *)
Definition fmin_set_precision (c : ctx) (prec : N) : ctx * status :=
  if prec <? nZ 0 then (c, INVALID_ARGUMENT)
  else (mkCtx (x_a c) (x_b c) (x_u c) (x_fu c) (x_v c) (x_fv c) (x_w c) (x_fw c) (x_x c) prec (x_nevals c) (x_flags c) (x_status c) (x_stage c), SUCCESS).

(** fmin.c 158-176 [opk_fmin_start] *)
Definition fmin_start (c : ctx) (a b : N) (flags : Z) : ctx * status :=
  if a =? b then (c, INVALID_ARGUMENT)
  else (mkCtx a b (x_u c) (x_fu c) (x_v c) (x_fv c) (x_w c) (x_fw c) (x_x c) (x_prec c) 0 (Z.land flags 7) FSTART 0, SUCCESS).

(** The status, the evaluations and the stage are set together in the macros *)
Definition fset (c : ctx) (u fu v fv w fw x : N) (nevals : Z) (st : ftask) (stage : Z) : ctx :=
  mkCtx (x_a c) (x_b c) u fu v fv w fw x (x_prec c) nevals (x_flags c) st stage.
Definition ferror (c : ctx) : ctx := fset c (x_u c) (x_fu c) (x_v c) (x_fv c) (x_w c) (x_fw c) (x_x c) (x_nevals c) FERROR (x_stage c).
(** ++ctx->nevals *)
Definition fcount (c : ctx) : ctx :=
  fset c (x_u c) (x_fu c) (x_v c) (x_fv c) (x_w c) (x_fw c) (x_x c) (x_nevals c + 1) (x_status c) (x_stage c).

(** fmin.c 342-353: head of the loop which reduces the interval; the result is the context and *xptr *)
Definition goto_reduce (c : ctx) (xp : N) : ctx * N :=
  if fmin_converged (x_prec c) (x_u c) (x_v c) (x_w c)
  then (fset c (x_u c) (x_fu c) (x_v c) (x_fv c) (x_w c) (x_fw c) (x_x c) (x_nevals c) FCONVERGENCE (x_stage c), xp)
  else
    let x := FMIN_ALPHA * (x_w c - x_v c) + x_v c in
    (fset c (x_u c) (x_fu c) (x_v c) (x_fv c) (x_w c) (x_fw c) x (x_nevals c) FFX 5, x).
(** fmin.c 333-340: head of the loop which searches a bracket *)
Definition goto_search (c : ctx) (xp : N) : ctx * N :=
  if x_fv c >? x_fw c then
    let u := x_v c in let fu := x_fv c in
    let v := x_w c in let fv := x_fw c in
    let w := FMIN_GAMMA * (v - u) + v in
    (fset c u fu v fv w (x_fw c) w (x_nevals c) FFX 4, w)
  else goto_reduce c xp.
(** fmin.c 323-331: after the evaluations at the ends *)
Definition goto_inside (c : ctx) : ctx * N :=
  let '(u, fu, w, fw) := if x_fw c >? x_fu c then (x_w c, x_fw c, x_u c, x_fu c) else (x_u c, x_fu c, x_w c, x_fw c) in
  let v := FMIN_ALPHA * (w - u) + u in
  (fset c u fu v (x_fv c) w fw v (x_nevals c) FFX 3, v).
(** fmin.c 315-321: evaluation at B *)
Definition goto_b (c : ctx) : ctx * N :=
  if bounded_by_b (x_flags c) then goto_inside (fset c (x_u c) (x_fu c) (x_v c) (x_fv c) (x_b c) ninf (x_x c) (x_nevals c) (x_status c) (x_stage c))
  else (fset c (x_u c) (x_fu c) (x_v c) (x_fv c) (x_b c) (x_fw c) (x_b c) (x_nevals c) FFX 2, x_b c).
(** fmin.c 307-313: evaluation at A *)
Definition goto_a (c : ctx) : ctx * N :=
  if bounded_by_a (x_flags c) then goto_b (fset c (x_a c) ninf (x_v c) (x_fv c) (x_w c) (x_fw c) (x_x c) (x_nevals c) (x_status c) (x_stage c))
  else (fset c (x_a c) (x_fu c) (x_v c) (x_fv c) (x_w c) (x_fw c) (x_a c) (x_nevals c) FFX 1, x_a c).

(** fmin.c 237-383 [opk_fmin_next]: [xp] is *xptr; NULL pointers are refused (OPK_FMIN_ERROR) and not represented *)
Definition fmin_next (c : ctx) (xp fx : N) : ctx * N :=
  match x_status c with
  | FFX | FCONVERGENCE =>
    if negb (xp =? x_x c) then (ferror c, xp)
    else
      let c1 := fcount c in
      match x_stage c with
      | 1%Z => goto_b (fset c1 (x_u c1) fx (x_v c1) (x_fv c1) (x_w c1) (x_fw c1) (x_x c1) (x_nevals c1) (x_status c1) (x_stage c1))
      | 2%Z => goto_inside (fset c1 (x_u c1) (x_fu c1) (x_v c1) (x_fv c1) (x_w c1) fx (x_x c1) (x_nevals c1) (x_status c1) (x_stage c1))
      | 3%Z => goto_search (fset c1 (x_u c1) (x_fu c1) (x_v c1) fx (x_w c1) (x_fw c1) (x_x c1) (x_nevals c1) (x_status c1) (x_stage c1)) xp
      | 4%Z => goto_search (fset c1 (x_u c1) (x_fu c1) (x_v c1) (x_fv c1) (x_w c1) fx (x_x c1) (x_nevals c1) (x_status c1) (x_stage c1)) xp
      | 5%Z =>
        if (fx >? x_fv c1) || ((fx =? x_fv c1) && (x_fu c1 >=? x_fw c1))
        then goto_reduce (fset c1 (x_x c1) fx (x_v c1) (x_fv c1) (x_u c1) (x_fu c1) (x_x c1) (x_nevals c1) (x_status c1) (x_stage c1)) xp
        else goto_reduce (fset c1 (x_v c1) (x_fv c1) (x_x c1) fx (x_w c1) (x_fw c1) (x_x c1) (x_nevals c1) (x_status c1) (x_stage c1)) xp
      | _ => (ferror c, xp)
      end
  | FSTART => goto_a c
  | _ => (ferror c, xp)
  end.

(** fmin.c 198-226 [opk_fmin_get_final]: xmin, xlo, xup, fmin, flo, fup and nevals; [None] is OPK_INVALID_ARGUMENT *)
Definition fmin_get_final (c : ctx) : option (list N * Z) :=
  if (ftask_code (x_status c) <? 0)%Z then None
  else Some
    (if x_u c >? x_w c then [x_v c; x_w c; x_v c; x_fv c; x_fw c; x_fv c]
     else [x_v c; x_v c; x_w c; x_fv c; x_fv c; x_fw c], x_nevals c).

(** fmin.c 178-196 [opk_fmin_get_initial] *)
Definition fmin_get_initial (c : ctx) : option (N * N * Z) :=
  if (ftask_code (x_status c) <? 0)%Z then None else Some (x_a c, x_b c, x_flags c).
End Fmin.
Arguments fm : clear implicits.
Arguments ctx : clear implicits.
Arguments outcome : clear implicits.
