(** * Specification of line searches: sequences of calls *)
From Coq Require Import List ZArith Bool Arith.
From Verif Require Import Num Base LsModel.
Import ListNotations.

Section Spec.
Context {N : Num}.

(** The calls a user can make on a line search object. *)
Inductive call :=
| Start (f0 g0 stp stpmin stpmax : N)      (** opk_lnsrch_start *)
| Iterate (stp f g : N).                   (** opk_lnsrch_iterate, the step variable contains [stp] *)

(** What the call returns: the task and the step (for [Start] the step given). *)
Definition reply : Type := (lstask * N)%type.

Definition do_call (l : ls N) (c : call) : option (ls N * reply) :=
  match c with
  | Start f0 g0 stp stpmin stpmax => do l' <- ls_start l f0 g0 stp stpmin stpmax; Some (l', (l_task l', stp))
  | Iterate stp f g => let '(l', stp') := ls_iterate l stp f g in Some (l', (l_task l', stp'))
  end.

(** A sequence of calls (in order) and the replies; [None] is undefined behaviour. *)
Fixpoint run (l : ls N) (cs : list call) : option (ls N * list reply) :=
  match cs with
  | [] => Some (l, [])
  | c :: cs => do (l', r) <- do_call l c; do (l'', rs) <- run l' cs; Some (l'', r :: rs)
  end.

(** The task of the last reply; OPK_LNSRCH_ERROR for a new object. *)
Definition last_task (rs : list reply) : lstask := fst (last rs (LS_ERROR, nZ 0)).
Definition last_step (rs : list reply) : N := snd (last rs (LS_ERROR, nZ 0)).

(** The arguments of the last call to opk_lnsrch_start. *)
Fixpoint last_start (cs : list call) : option (N * N * N * N * N) :=
  match cs with
  | [] => None
  | c :: cs =>
    match last_start cs with
    | Some a => Some a
    | None => match c with Start f0 g0 stp stpmin stpmax => Some (f0, g0, stp, stpmin, stpmax) | _ => None end
    end
  end.

(** The initial function values of the searches that have been started successfully, most recent first. *)
Fixpoint started (cs : list call) (rs : list reply) : list N :=
  match cs, rs with
  | c :: cs, (t, _) :: rs =>
    started cs rs ++ match c, t with Start f0 _ _ _ _, LS_SEARCH => [f0] | _, _ => [] end
  | _, _ => []
  end.

(** A line search object returned by one of the constructors (the number [m] of steps to remember is such that the array
    can be allocated). *)
Definition created (l : ls N) : Prop :=
  (exists ftol amin, new_backtrack true ftol amin = Some l) \/
  (exists m ftol sigma1 sigma2, (m < 2 ^ 60)%Z /\ new_nonmonotone true m ftol sigma1 sigma2 = Some l) \/
  (exists ftol gtol xtol, new_csrch true ftol gtol xtol = Some l).

(** [z] is not a NaN. *)
Definition isnum (z : N) : Prop := (z =? z)%num = true.

(** A caller who evaluates the function at the proposed steps: [fgs] are the function values and derivatives. *)
Fixpoint feed (l : ls N) (fgs : list (N * N)) : ls N :=
  match fgs with [] => l | (f, g) :: fgs => feed (fst (ls_iterate l (l_stp l) f g)) fgs end.

(** The same, for a function [phi] of the step (and its derivative [dphi]), [n] evaluations. *)
Fixpoint search (phi dphi : N -> N) (n : nat) (l : ls N) : ls N :=
  match n with O => l | S n => search phi dphi n (fst (ls_iterate l (l_stp l) (phi (l_stp l)) (dphi (l_stp l)))) end.

(** [v] is a maximum of the list [l]. *)
Definition is_max (v : N) (l : list N) : Prop := In v l /\ forall w, In w l -> (w <=? v)%num = true.
End Spec.
Arguments call : clear implicits.
Arguments reply : clear implicits.
