(** * Specification of bound constraints *)
From Coq Require Import List ZArith Bool Reals.
From Verif Require Import Num VecModel.
Import ListNotations.
Local Open Scope num_scope.

Section Spec.
Context {D E : Num} (c : Cast D E).

(** The bound on the [i]-th variable, if any (scalar bounds converted to the type of the elements). *)
Definition bound_at (b : bound D E) (i : nat) : option E :=
  match b with BNone => None | BScalar a => Some (dn c a) | BVector l => nth_error l i end.

(** A vector bound has as many elements as the variables. *)
Definition bound_size (n : nat) (b : bound D E) : Prop :=
  match b with BVector l => length l = n | _ => True end.

(** [z] is not a NaN. *)
Definition is_num (z : E) : Prop := (z =? z) = true.

(** The bounds of [n] variables: right size, no NaN, lower <= upper. *)
Definition good_box (n : nat) (lo hi : bound D E) : Prop :=
  bound_size n lo /\ bound_size n hi /\
  (forall i a, bound_at lo i = Some a -> is_num a) /\
  (forall i b, bound_at hi i = Some b -> is_num b) /\
  (forall i a b, (i < n)%nat -> bound_at lo i = Some a -> bound_at hi i = Some b -> (a <=? b) = true).

Definition inside (lo hi : bound D E) (i : nat) (z : E) : Prop :=
  (forall a, bound_at lo i = Some a -> (a <=? z) = true) /\
  (forall b, bound_at hi i = Some b -> (z <=? b) = true).

(** All variables are inside the bounds. *)
Definition feasible (lo hi : bound D E) (x : list E) : Prop :=
  forall i xi, nth_error x i = Some xi -> inside lo hi i xi.

(** [p] is the projection of [x]: inside the bounds, equal to [x] wherever [x] is inside the bounds and
    to the violated bound elsewhere. *)
Definition is_projection (lo hi : bound D E) (x p : list E) : Prop :=
  length p = length x /\
  forall i xi pi, nth_error x i = Some xi -> nth_error p i = Some pi ->
    inside lo hi i pi /\
    (inside lo hi i xi -> pi = xi) /\
    (forall a, bound_at lo i = Some a -> (xi <? a) = true -> pi = a) /\
    (forall b, bound_at hi i = Some b -> (xi >? b) = true -> pi = b).

(** The [i]-th variable [xi] cannot move along [di]: it would decrease while being at (or below) its lower
    bound or increase while being at (or above) its upper bound.  The variables move along [+d] for a
    descent orientation and along [-d] for an ascent orientation. *)
Definition blocked (desc : bool) (lo hi : bound D E) (i : nat) (xi di : E) : Prop :=
  ((if desc then di <? nZ 0 else di >? nZ 0) = true /\ exists a, bound_at lo i = Some a /\ (xi <=? a) = true) \/
  ((if desc then di >? nZ 0 else di <? nZ 0) = true /\ exists b, bound_at hi i = Some b /\ (b <=? xi) = true).
End Spec.

(** ** Exact arithmetic *)
Local Open Scope R_scope.
(** The sign of the motion. *)
Definition sgn (desc : bool) : R := if desc then 1 else -1.
(** x + alpha*d (descent) or x - alpha*d (ascent) *)
Definition moved (desc : bool) (al : R) (x d : list R) : list R :=
  map2 (fun xi di => xi + sgn desc * al * di) x d.
(** Every variable that moves has a bound ahead of it. *)
Definition bounded_motion {H I : R} (desc : bool) (lo hi : bound (NumR H I) (NumR H I)) (d : list R) : Prop :=
  forall i di, nth_error d i = Some di ->
    (sgn desc * di > 0 -> bound_at (cast_id _) hi i <> None) /\ (sgn desc * di < 0 -> bound_at (cast_id _) lo i <> None).
