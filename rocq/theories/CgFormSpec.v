(** * Specification of the directions of the conjugate gradient methods *)
From Coq Require Import List ZArith Bool Reals.
From Verif Require Import VecModel LbfgsSpec.
Import ListNotations.
Local Open Scope R_scope.

(** The published formulas.  [p] is the previous search direction, [g0] and [g] the previous and the current gradient;
    all steps are made along +[p].  The methods are numbered as in optimpack.h.  The result is the factor beta and the
    next direction, [None] if the direction is not defined (a division by zero) or is that of the steepest descent (beta = 0). *)
Definition conjugate (method : Z) (powell : bool) (p g0 g : list R) : option (R * list R) :=
  let y := lin 1 g (-1) g0 in
  let clip (beta : R) := if powell then Rmax beta 0 else beta in
  let along (beta : R) := if Req_EM_T beta 0 then None else Some (beta, lin (-1) g beta p) in
  match method with
  | 1%Z => (* Fletcher & Reeves *) along (ip g g / ip g0 g0)
  | 2%Z => (* Hestenes & Stiefel *) if Req_EM_T (ip p y) 0 then None else along (clip (ip g y / ip p y))
  | 3%Z => (* Polak, Ribiere & Polyak *) along (clip (ip g y / ip g0 g0))
  | 4%Z => (* Fletcher, conjugate descent *) along (- ip g g / ip p g0)
  | 5%Z => (* Liu & Storey *) along (clip (- ip g y / ip p g0))
  | 6%Z => (* Dai & Yuan *) if Req_EM_T (ip p y) 0 then None else along (clip (ip g g / ip p y))
  | 7%Z => (* Perry & Shanno: memoryless BFGS, see C29_perry_shanno *)
    if Req_EM_T (ip p y) 0 then None
    else Some (ip g y / ip p y - 2 * (ip y y / ip p y) * (ip p g / ip p y),
               lin 1 (lin (- (ip p y / ip y y)) g (ip g y / ip y y - 2 * ip p g / ip p y) p) (ip p g / ip y y) y)
  | 8%Z => (* Hager & Zhang *) if Req_EM_T (ip p y) 0 then None else along (clip (ip (lin 1 y (- (2 * (ip y y / ip p y))) p) g / ip p y))
  | _ => None
  end.

(** A direction which is kept: a sufficient descent direction. *)
Definition sufficient (epsilon : R) (q g : list R) : Prop :=
  ip q g < 0 /\ ~ (0 < epsilon /\ - (epsilon * sqrt (ip q q) * sqrt (ip g g)) < ip q g).

(** The first step along the steepest descent direction: [delta] is the relative size of a small step. *)
Definition steepest_step (delta f : R) (x g : list R) : R :=
  if Req_EM_T f 0 then if Req_EM_T (sqrt (ip x x)) 0 then delta / sqrt (ip g g) else delta * sqrt (ip x x) / sqrt (ip g g)
  else 2 * Rabs (f / ip g g).

Definition opposite (d : list R) : list R := map Ropp d.
