(** * Specification of the conjugate gradient optimizer: sequences of calls

    The calls, the replies and the tally of the calls are those of [VmSpec] (without constraints). *)
From Coq Require Import List ZArith Bool.
From Verif Require Import Num VecModel Base LsModel LsSpec OptSpace VmModel VmSpec CgModel.
Import ListNotations.

Section Spec.
Context {N : Num} {S : Space N}.

Definition cdo (o : cg S) (c : vcall S) : option (cg S * vreply S) :=
  match c with
  | VStart x => let '(o', x') := cg_start o x in Some (o', (cg_get_task o', x'))
  | VIterate x f g => do (o', x') <- cg_iterate o x f g; Some (o', (cg_get_task o', x'))
  end.

(** A sequence of calls and the replies; [None] is undefined behaviour. *)
Fixpoint crun (o : cg S) (cs : list (vcall S)) : option (cg S * list (vreply S)) :=
  match cs with
  | [] => Some (o, [])
  | c :: cs => do (o', r) <- cdo o c; do (o'', rs) <- crun o' cs; Some (o'', r :: rs)
  end.

(** A new optimizer. *)
Definition new_cg (opts : option (cgopts N)) (lnsrch : option (ls N)) (o : cg S) : Prop :=
  new_nlcg opts lnsrch = Some o /\ (forall l, lnsrch = Some l -> usable l).

(** What can be deduced from the calls and the returned tasks since the last start. *)
Definition ctally (cs : list (vcall S)) (rs : list (vreply S)) : tally S := count_calls false None tally0 cs rs.

Section Caller.
Context (F : S -> N) (G : S -> S).
(** A caller who evaluates the function [F] and the gradient [G] and makes [k] iterations. *)
Fixpoint cdrive (k : nat) (o : cg S) (x : S) : list (vcall S) :=
  match k with
  | O => []
  | Datatypes.S k => VIterate x (F x) (G x) :: match cg_iterate o x (F x) (G x) with Some (o', x') => cdrive k o' x' | None => [] end
  end.
Definition cdrive_from (k : nat) (o : cg S) (x : S) : list (vcall S) := VStart x :: let '(o', x') := cg_start o x in cdrive k o' x'.
End Caller.
End Spec.
