(** * Simple vectors: the kernels of src/simple_vector.c

    The file simple_vector.c is compiled twice, with REAL = float and with REAL = double.  The model has
    two numeric structures: [D] for the C type [double] (the type of all scalars of the API) and [E] for
    REAL (the type of the elements), with the conversions [dn] (double to REAL) and [up] (REAL to double)
    that the C compiler inserts.  For double precision vectors [E = D] and both are the identity.

    Here a vector is the list of its elements.  The memory level loops are in [MemModel]. *)
From Coq Require Import List ZArith Bool.
From Verif Require Import Num.
Import ListNotations.
Local Open Scope num_scope.

(** A conversion pair. *)
Record Cast (D E : Num) := mkCast { dn : D -> E; up : E -> D }.
Arguments dn {_ _} _ _.
Arguments up {_ _} _ _.
(** REAL = double: no conversion. *)
Definition cast_id (D : Num) : Cast D D := mkCast D D (fun x => x) (fun x => x).

(** Elementwise maps over two and three arrays of the same length. *)
Definition map2 {A B C : Type} (f : A -> B -> C) (x : list A) (y : list B) : list C :=
  map (fun p => f (fst p) (snd p)) (combine x y).
Definition map3 {A B C D : Type} (f : A -> B -> C -> D) (x : list A) (y : list B) (z : list C) : list D :=
  map2 (fun p c => f (fst p) (snd p) c) (combine x y) z.

Section Kernels.
Context {D E : Num} (c : Cast D E).

(** simple_vector.c 163-177, [fill]: one element (both branches; [memset] with null bytes is +0.0). *)
Definition e_fill (alpha : D) : E := if alpha =? nZ 0 then nZ 0 else dn c alpha.
Definition k_fill (n : nat) (alpha : D) : list E := repeat (e_fill alpha) n.

(** simple_vector.c 180-190 [norm1] *)
Definition k_norm1 (x : list E) : D := up c (fold_left (fun r xj => r + nabs xj) x (nZ 0)).

(** simple_vector.c 193-204 [norm2] *)
Definition k_norm2 (x : list E) : D := up c (nsqrt (fold_left (fun r xj => r + xj * xj) x (nZ 0))).

(** simple_vector.c 207-220 [norminf] *)
Definition k_norminf (x : list E) : D :=
  up c (fold_left (fun r xj => let axj := nabs xj in if axj >? r then axj else r) x (nZ 0)).

(** simple_vector.c 223-235 [dot] *)
Definition k_dot (x y : list E) : D :=
  up c (fold_left (fun r p => r + fst p * snd p) (combine x y) (nZ 0)).

(** simple_vector.c 238-252 [dot3] *)
Definition k_dot3 (w x y : list E) : D :=
  up c (fold_left (fun r p => r + fst (fst p) * snd (fst p) * snd p) (combine (combine w x) y) (nZ 0)).

(** simple_vector.c 255-263 [copy] *)
Definition k_copy (src : list E) : list E := src.

(** simple_vector.c 282-295 [scale] *)
Definition e_scale (alpha : D) (s : E) : E := dn c alpha * s.
Definition k_scale (alpha : D) (src : list E) : list E := map (e_scale alpha) src.

(** simple_vector.c 298-308 [product] *)
Definition e_product (w x : E) : E := w * x.
Definition k_product (w x : list E) : list E := map2 e_product w x.

(** simple_vector.c 311-375 [axpby]: the body of the loop selected by the tests on [alpha], [beta]. *)
Definition e_axpby (alpha beta : D) : E -> E -> E :=
  if alpha =? nZ 1 then
    if beta =? nZ 1 then fun x y => x + y
    else if beta =? nZ (-1) then fun x y => x - y
    else fun x y => x + dn c beta * y
  else if alpha =? nZ (-1) then
    if beta =? nZ 1 then fun x y => y - x
    else if beta =? nZ (-1) then fun x y => (- y) - x
    else fun x y => dn c beta * y - x
  else
    if beta =? nZ 1 then fun x y => dn c alpha * x + y
    else if beta =? nZ (-1) then fun x y => dn c alpha * x - y
    else fun x y => dn c alpha * x + dn c beta * y.
Definition k_axpby (alpha : D) (x : list E) (beta : D) (y : list E) : list E :=
  map2 (e_axpby alpha beta) x y.

(** simple_vector.c 378-397 [axpbypcz] *)
Definition e_axpbypcz (alpha beta gamma : D) (x y z : E) : E :=
  dn c alpha * x + dn c beta * y + dn c gamma * z.
Definition k_axpbypcz (alpha : D) (x : list E) (beta : D) (y : list E) (gamma : D) (z : list E) : list E :=
  map3 (e_axpbypcz alpha beta gamma) x y z.

(** ** Bound constraints *)

(** algebra.c 627-635: [opk_bound], type 0, 's' (a double) or 'v' (a vector of the same space). *)
Inductive bound := BNone | BScalar (a : D) | BVector (l : list E).

(** simple_vector.c 427: test against a lower bound ... *)
Definition clip_lo (a t : E) : E := if t <? a then a else t.
(** ... and against an upper bound (line 444). *)
Definition clip_hi (b t : E) : E := if t >? b then b else t.
Definition clip (a b t : E) : E := clip_hi b (clip_lo a t).

(** simple_vector.c 402-504 [boxprojvar], with algebra.c 656-680 [get_bounds] (the pair of bound types
    selects the case).  A scalar bound is converted to REAL ([a = VALUE(lower)]). *)
Definition k_boxprojvar (lo hi : bound) (x : list E) : list E :=
  match lo, hi with
  | BNone, BNone         => (* case 0 *) x
  | BScalar a, BNone     => (* case 1 *) map (clip_lo (dn c a)) x
  | BVector xl, BNone    => (* case 2 *) map2 clip_lo xl x
  | BNone, BScalar b     => (* case 3 *) map (clip_hi (dn c b)) x
  | BScalar a, BScalar b => (* case 4 *) map (clip (dn c a) (dn c b)) x
  | BVector xl, BScalar b => (* case 5 *) map2 (fun a t => clip a (dn c b) t) xl x
  | BNone, BVector xu    => (* case 6 *) map2 clip_hi xu x
  | BScalar a, BVector xu => (* case 7 *) map2 (fun b t => clip (dn c a) b t) xu x
  | BVector xl, BVector xu => (* case 8 *) map3 clip xl xu x
  end.

(** simple_vector.c 522-533: macro [BOXED] of [boxprojdir]; [desc] is [orient > 0]. *)
Definition dir_boxed (desc : bool) (lo hi xi di : E) : E :=
  if desc then
    if di <? nZ 0 then (if xi >? lo then di else nZ 0)
    else if di >? nZ 0 then (if xi <? hi then di else nZ 0) else nZ 0
  else
    if di >? nZ 0 then (if xi >? lo then di else nZ 0)
    else if di <? nZ 0 then (if xi <? hi then di else nZ 0) else nZ 0.
(** simple_vector.c 535-544: macro [LOWER] of [boxprojdir] *)
Definition dir_lower (desc : bool) (lo xi di : E) : E :=
  if desc then (if (di >=? nZ 0) || (xi >? lo) then di else nZ 0)
  else (if (di <=? nZ 0) || (xi >? lo) then di else nZ 0).
(** simple_vector.c 546-555: macro [UPPER] of [boxprojdir] *)
Definition dir_upper (desc : bool) (hi xi di : E) : E :=
  if desc then (if (di <=? nZ 0) || (xi <? hi) then di else nZ 0)
  else (if (di >=? nZ 0) || (xi <? hi) then di else nZ 0).

(** simple_vector.c 507-607 [boxprojdir] *)
Definition k_boxprojdir (desc : bool) (lo hi : bound) (x d : list E) : list E :=
  match lo, hi with
  | BNone, BNone         => (* case 0 *) d
  | BScalar a, BNone     => (* case 1 *) map2 (dir_lower desc (dn c a)) x d
  | BVector xl, BNone    => (* case 2 *) map3 (dir_lower desc) xl x d
  | BNone, BScalar b     => (* case 3 *) map2 (dir_upper desc (dn c b)) x d
  | BScalar a, BScalar b => (* case 4 *) map2 (dir_boxed desc (dn c a) (dn c b)) x d
  | BVector xl, BScalar b => (* case 5 *) map3 (fun a => dir_boxed desc a (dn c b)) xl x d
  | BNone, BVector xu    => (* case 6 *) map3 (dir_upper desc) xu x d
  | BScalar a, BVector xu => (* case 7 *) map3 (fun b => dir_boxed desc (dn c a) b) xu x d
  | BVector xl, BVector xu => (* case 8 *) map3 (fun p => dir_boxed desc (fst p) (snd p)) (combine xl xu) x d
  end.

(** simple_vector.c 625-636: macro [BOXED] of [boxfreevar] *)
Definition free_boxed (desc : bool) (lo hi xi di : E) : E :=
  if desc then
    if di <? nZ 0 then (if xi >? lo then nZ 1 else nZ 0)
    else if di >? nZ 0 then (if xi <? hi then nZ 1 else nZ 0) else nZ 0
  else
    if di >? nZ 0 then (if xi >? lo then nZ 1 else nZ 0)
    else if di <? nZ 0 then (if xi <? hi then nZ 1 else nZ 0) else nZ 0.
(** simple_vector.c 638-649: macro [LOWER] of [boxfreevar] *)
Definition free_lower (desc : bool) (lo xi di : E) : E :=
  if desc then
    if di <? nZ 0 then (if xi >? lo then nZ 1 else nZ 0) else if di >? nZ 0 then nZ 1 else nZ 0
  else
    if di >? nZ 0 then (if xi >? lo then nZ 1 else nZ 0) else if di <? nZ 0 then nZ 1 else nZ 0.
(** simple_vector.c 651-662: macro [UPPER] of [boxfreevar] *)
Definition free_upper (desc : bool) (hi xi di : E) : E :=
  if desc then
    if di <? nZ 0 then nZ 1 else if di >? nZ 0 then (if xi <? hi then nZ 1 else nZ 0) else nZ 0
  else
    if di >? nZ 0 then nZ 1 else if di <? nZ 0 then (if xi <? hi then nZ 1 else nZ 0) else nZ 0.

(** simple_vector.c 610-714 [boxfreevar] *)
Definition k_boxfreevar (desc : bool) (lo hi : bound) (x d : list E) : list E :=
  match lo, hi with
  | BNone, BNone         => (* case 0 *) map (fun _ => nZ 1) d
  | BScalar a, BNone     => (* case 1 *) map2 (free_lower desc (dn c a)) x d
  | BVector xl, BNone    => (* case 2 *) map3 (free_lower desc) xl x d
  | BNone, BScalar b     => (* case 3 *) map2 (free_upper desc (dn c b)) x d
  | BScalar a, BScalar b => (* case 4 *) map2 (free_boxed desc (dn c a) (dn c b)) x d
  | BVector xl, BScalar b => (* case 5 *) map3 (fun a => free_boxed desc a (dn c b)) xl x d
  | BNone, BVector xu    => (* case 6 *) map3 (free_upper desc) xu x d
  | BScalar a, BVector xu => (* case 7 *) map3 (fun b => free_boxed desc (dn c a) b) xu x d
  | BVector xl, BVector xu => (* case 8 *) map3 (fun p => free_boxed desc (fst p) (snd p)) (combine xl xu) x d
  end.

(** The three limits (s1, s2, s3) of simple_vector.c 729. *)
Definition lims : Type := (E * E * E)%type.

(** simple_vector.c 745-747 (and the five identical groups that follow): account for a limit [s]. *)
Definition lim_upd (s : E) (l : lims) : lims :=
  let '(s1, s2, s3) := l in
  let s1 := if s <? s1 then s else s1 in
  let s2 := if (s <? s2) && (s >? nZ 0) then s else s2 in
  let s3 := if s >? s3 then s else s3 in
  (s1, s2, s3).
(** simple_vector.c 775, 787, 802, 814: [s3 = inf] with [inf] = FLT_MAX or DBL_MAX. *)
Definition lim_inf (l : lims) : lims := let '(s1, s2, _) := l in (s1, s2, nmax).

(** simple_vector.c 734-763: body of the loops of macro [BOXED] of [boxsteplim] *)
Definition lim_boxed (desc : bool) (lo hi xi p : E) (l : lims) : lims :=
  if desc then
    if p >? nZ 0 then lim_upd ((hi - xi) / p) l
    else if p <? nZ 0 then lim_upd ((lo - xi) / p) l else l
  else
    if p <? nZ 0 then lim_upd ((xi - hi) / p) l
    else if p >? nZ 0 then lim_upd ((xi - lo) / p) l else l.
(** simple_vector.c 765-790: macro [LOWER] of [boxsteplim] *)
Definition lim_lower (desc : bool) (lo xi p : E) (l : lims) : lims :=
  if desc then
    if p <? nZ 0 then lim_upd ((lo - xi) / p) l else if p >? nZ 0 then lim_inf l else l
  else
    if p >? nZ 0 then lim_upd ((xi - lo) / p) l else if p <? nZ 0 then lim_inf l else l.
(** simple_vector.c 792-817: macro [UPPER] of [boxsteplim] *)
Definition lim_upper (desc : bool) (hi xi p : E) (l : lims) : lims :=
  if desc then
    if p >? nZ 0 then lim_upd ((hi - xi) / p) l else if p <? nZ 0 then lim_inf l else l
  else
    if p <? nZ 0 then lim_upd ((xi - hi) / p) l else if p >? nZ 0 then lim_inf l else l.

(** Loops over two, three and four arrays. *)
Definition loop2 (f : E -> E -> lims -> lims) (x d : list E) (l : lims) : lims :=
  fold_left (fun l p => f (fst p) (snd p) l) (combine x d) l.
Definition loop3 (f : E -> E -> E -> lims -> lims) (a x d : list E) (l : lims) : lims :=
  fold_left (fun l p => f (fst p) (fst (snd p)) (snd (snd p)) l) (combine a (combine x d)) l.
Definition loop4 (f : E -> E -> E -> E -> lims -> lims) (a b x d : list E) (l : lims) : lims :=
  fold_left (fun l p => f (fst (fst p)) (snd (fst p)) (fst (snd p)) (snd (snd p)) l)
            (combine (combine a b) (combine x d)) l.

(** simple_vector.c 717-882 [boxsteplim]: returns (smin1, smin2, smax). *)
Definition k_boxsteplim (desc : bool) (lo hi : bound) (x d : list E) : D * D * D :=
  let l0 : lims := (nmax, nmax, nZ 0) in
  let '(s1, s2, s3) :=
    match lo, hi with
    | BNone, BNone         => (* case 0 *) (nmax, nmax, nmax)
    | BScalar a, BNone     => (* case 1 *) loop2 (lim_lower desc (dn c a)) x d l0
    | BVector xl, BNone    => (* case 2 *) loop3 (lim_lower desc) xl x d l0
    | BNone, BScalar b     => (* case 3 *) loop2 (lim_upper desc (dn c b)) x d l0
    | BScalar a, BScalar b => (* case 4 *) loop2 (lim_boxed desc (dn c a) (dn c b)) x d l0
    | BVector xl, BScalar b => (* case 5 *) loop3 (fun a => lim_boxed desc a (dn c b)) xl x d l0
    | BNone, BVector xu    => (* case 6 *) loop3 (lim_upper desc) xu x d l0
    | BScalar a, BVector xu => (* case 7 *) loop3 (fun b => lim_boxed desc (dn c a) b) xu x d l0
    | BVector xl, BVector xu => (* case 8 *) loop4 (lim_boxed desc) xl xu x d l0
    end in
  (up c s1, up c s2, up c s3).
End Kernels.

Arguments bound : clear implicits.
Arguments BNone {D E}.
Arguments BScalar {D E} a.
Arguments BVector {D E} l.
