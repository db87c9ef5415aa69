(** * Specification of the quasi-Newton optimizer driven by the evaluation of an objective function *)
From Coq Require Import List ZArith Bool Reals Sorted.
From Verif Require Import Num VecModel Base LsModel LsSpec BoxSpec OptSpace VmModel VmSpec.
Import ListNotations.

(** ** Bound constraints on [n] variables *)
Record bounds {D E : Num} (n : nat) := mkBounds {
  lower : bound D E; upper : bound D E; lower_size : bound_size n lower; upper_size : bound_size n upper
}.
Arguments bounds D E n : clear implicits.
Arguments mkBounds {D E n} _ _ _ _.
Arguments lower {D E n} _.
Arguments upper {D E n} _.
Arguments lower_size {D E n} _.
Arguments upper_size {D E n} _.

Section Bounds.
Context {D E : Num} (c : Cast D E) {n : nat}.
(** The convex set made of these bounds, NULL if there is none. *)
Definition the_box (b : option (bounds D E n)) : option (Convex (list_space c n)) :=
  match b with Some b => Some (list_box c n (lower b) (upper b) (lower_size b) (upper_size b)) | None => None end.
(** lower <= upper, no NaN *)
Definition ordered (b : option (bounds D E n)) : Prop :=
  match b with Some b => good_box c n (lower b) (upper b) | None => True end.
Definition within (b : option (bounds D E n)) (x : list_space c n) : Prop :=
  match b with Some b => feasible c (lower b) (upper b) (elts x) | None => True end.
End Bounds.

(** ** A caller who evaluates the function [F] and the gradient [G] at the variables left by the last call *)
Section Caller.
Context {N : Num} {S : Space N} (F : S -> N) (G : S -> S).

(** [prev]: the variables after the last call, if any. *)
Fixpoint evaluates (prev : option S) (cs : list (vcall S)) (rs : list (vreply S)) : Prop :=
  match cs, rs with
  | VStart _ :: cs, (_, x') :: rs => evaluates (Some x') cs rs
  | VIterate x f g :: cs, (_, x') :: rs => (forall p, prev = Some p -> x = p) /\ f = F x /\ g = G x /\ evaluates (Some x') cs rs
  | _, _ => cs = [] /\ rs = []
  end.

(** The values of the function at the points accepted (NEW_X or FINAL_X) since the last start, most recent first.
    [t] is the last task. *)
Fixpoint values (t : task) (acc : list N) (cs : list (vcall S)) (rs : list (vreply S)) : list N :=
  match cs, rs with
  | VStart _ :: cs, (r, _) :: rs => values r [] cs rs
  | VIterate _ f _ :: cs, (r, _) :: rs =>
    values r (match t with COMPUTE_FG => if accepted r then f :: acc else acc | _ => acc end) cs rs
  | _, _ => acc
  end.

(** Such a caller who makes [k] iterations. *)
Fixpoint drive (k : nat) (o : vm S) (x : S) : list (vcall S) :=
  match k with
  | O => []
  | Datatypes.S k => VIterate x (F x) (G x) :: match vm_iterate o x (F x) (G x) with Some (o', x') => drive k o' x' | None => [] end
  end.
Definition drive_from (k : nat) (o : vm S) (x : S) : list (vcall S) := VStart x :: let '(o', x') := vm_start o x in drive k o' x'.
End Caller.

(** A monotone line search with a strictly positive tolerance, that may have been used in any way. *)
Definition monotone_search {H I : R} (l : ls (NumR H I)) : Prop :=
  exists l0 cs rs, run l0 cs = Some (l, rs) /\
    ((exists ftol amin, new_backtrack true ftol amin = Some l0) \/
     (exists ftol gtol xtol : R, (0 < ftol)%R /\ new_csrch (N := NumR H I) true ftol gtol xtol = Some l0)).
