(** * Specification of the quasi-Newton optimizer: sequences of calls *)
From Coq Require Import List ZArith Bool.
From Verif Require Import Num VecModel Base LsModel LsSpec OptSpace VmModel.
Import ListNotations.

Section Spec.
Context {N : Num} {S : Space N}.

(** The calls a client can make. *)
Inductive vcall :=
| VStart (x : S)                    (** opk_start_vmlmb *)
| VIterate (x : S) (f : N) (g : S). (** opk_iterate_vmlmb *)

(** What a call returns: the task and the new contents of the variables. *)
Definition vreply : Type := (task * S)%type.

Definition vdo (o : vm S) (c : vcall) : option (vm S * vreply) :=
  match c with
  | VStart x => let '(o', x') := vm_start o x in Some (o', (vm_get_task o', x'))
  | VIterate x f g => do (o', x') <- vm_iterate o x f g; Some (o', (vm_get_task o', x'))
  end.

(** A sequence of calls and the replies; [None] is undefined behaviour. *)
Fixpoint vrun (o : vm S) (cs : list vcall) : option (vm S * list vreply) :=
  match cs with
  | [] => Some (o, [])
  | c :: cs => do (o', r) <- vdo o c; do (o'', rs) <- vrun o' cs; Some (o'', r :: rs)
  end.

(** A line search object that has been created and used in any way. *)
Definition usable (l : ls N) : Prop := exists l0 cs rs, created l0 /\ run l0 cs = Some (l, rs).

(** A new optimizer. *)
Definition new_optimizer (opts : option (vmopts N)) (size : Z) (lnsrch : option (ls N)) (box : option (Convex S)) (o : vm S) : Prop :=
  new_vmlmb opts size lnsrch box = Some o /\ (forall l, lnsrch = Some l -> usable l).

(** The functions of a convex set that always succeed for the boxes of the library. *)
Definition box_works (box : option (Convex S)) : Prop :=
  forall b, box = Some b ->
    (forall x g, fst (freevar b x g) = SUCCESS) /\
    (forall x d, exists l, steplim b x d = (SUCCESS, Some l)).

(** ** What can be deduced from the calls and the returned tasks since the last start *)

(** The projected gradient: the components of the free variables are kept. *)
Definition pgrad (box : option (Convex S)) (x g : S) : S :=
  match box with Some b => vproduct (snd (freevar b x g)) g | None => g end.
(** Its Euclidean norm, as computed by the two variants of the bounded algorithm ([blmvm]) and without bounds. *)
Definition pgnorm (blmvm : bool) (box : option (Convex S)) (x g : S) : N :=
  match box with
  | Some b => if blmvm then vnorm2 (pgrad box x g) else nsqrt (vdot3 (snd (freevar b x g)) g g)
  | None => vnorm2 g
  end.

Record tally := mkTally {
  t_task : task;               (** last returned task *)
  t_evals : Z;                 (** calls made with a new function value and gradient: those that follow COMPUTE_FG *)
  t_accepted : Z;              (** number of points accepted: NEW_X or FINAL_X has been returned *)
  t_x : S; t_g : S;            (** last accepted point: variables and gradient *)
  t_ginit : N;                 (** norm of the projected gradient at the first accepted point *)
  t_points : list (S * S);     (** the points from which a new line search has been requested, most recent first: the
                                   variables and the gradient (for BLMVM, the projected gradient at the last accepted point) *)
  t_f0 : N; t_g0 : S           (** function value and gradient given by the call of the most recent of these points *)
}.

Definition accepted (t : task) : bool := match t with NEW_X | FINAL_X => true | _ => false end.
Definition tally0 : tally := mkTally ERROR 0 0 vzeros vzeros (nZ 0) [] (nZ 0) vzeros.
Definition tally_step (blmvm : bool) (box : option (Convex S)) (t : tally) (c : vcall) (r : task) : tally :=
  match c with
  | VStart _ => mkTally r 0 0 (t_x t) (t_g t) (t_ginit t) [] (t_f0 t) (t_g0 t)
  | VIterate x f g =>
    match t_task t with
    | COMPUTE_FG =>
      if accepted r
      then mkTally r (t_evals t + 1) (t_accepted t + 1) x g
             (if (t_accepted t =? 0)%Z then pgnorm blmvm box x g else t_ginit t) (t_points t) (t_f0 t) (t_g0 t)
      else mkTally r (t_evals t + 1) (t_accepted t) (t_x t) (t_g t) (t_ginit t) (t_points t) (t_f0 t) (t_g0 t)
    | NEW_X | FINAL_X =>
      mkTally r (t_evals t) (t_accepted t) (t_x t) (t_g t) (t_ginit t)
        ((x, if blmvm then pgrad box (t_x t) (t_g t) else g) :: t_points t) f g
    | _ => mkTally r (t_evals t) (t_accepted t) (t_x t) (t_g t) (t_ginit t) (t_points t) (t_f0 t) (t_g0 t)
    end
  end.
Fixpoint count_calls (blmvm : bool) (box : option (Convex S)) (t : tally) (cs : list vcall) (rs : list vreply) : tally :=
  match cs, rs with
  | c :: cs, (r, _) :: rs => count_calls blmvm box (tally_step blmvm box t c r) cs rs
  | _, _ => t
  end.

(** The variant of the algorithm. *)
Definition uses_blmvm (opts : option (vmopts N)) (box : option (Convex S)) : bool :=
  match opts, box with Some o, Some _ => o_blmvm o | _, _ => false end.
End Spec.
Arguments vcall {_} _.
Arguments vreply {_} _.
Arguments tally {_} _.
