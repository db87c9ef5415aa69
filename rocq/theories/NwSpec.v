(** * Specification of the calls of the functions of newuoa.c *)
From Coq Require Import ZArith List Bool.
From Verif Require Import Num BqLang BqModel BqSpec NwModel.
Import ListNotations.
Local Open Scope Z_scope.

Section Spec.
Context {N : Num}.
Notation mst := (mst N).

(** The size of the workspace given in newuoa.h 97-98 and 160-163: "(npt + 13)*(npt + n) + 3*n*(n + 3)/2", and n more if scl is
    not NULL *)
Definition ndoc_size (n npt : Z) (scl : option Z) : Z :=
  (npt + 13) * (npt + n) + 3 * n * (n + 3) / 2 + match scl with None => 0 | Some _ => n end.

(** The arrays of the caller of newuoa_optimize: n elements for x (and scl), as many as documented for the workspace; they do
    not overlap. *)
Record nlayout (n npt x : Z) (scl : option Z) (w : Z) (s : mst) : Prop := {
  nl_x : cells s x n;
  nl_scl : match scl with None => True | Some a => cells s a n end;
  nl_w : cells s w (ndoc_size n npt scl);
  nl_x_w : apart x n w (ndoc_size n npt scl);
  nl_scl_w : match scl with None => True | Some a => apart a n w (ndoc_size n npt scl) /\ apart a n x n end
}.

(** The cells of x and of the workspace *)
Definition noutputs (n npt x : Z) (scl : option Z) (w a : Z) : Prop :=
  x <= a < x + n \/ w <= a < w + ndoc_size n npt scl.

(** The use of the reverse communication version.  [reach ncos nsin c s]: the context [c] in the memory [s] is the one of a
    client that got it from newuoa_create, called newuoa_iterate any number of times (with any value for [f], even when it
    should not, with any valid or NULL address for [x]) or newuoa_restart, and changed the memory in any way between the calls
    (the blocks of the workspace still exist).  Only the calls that return are considered. *)
Inductive reach (ncos nsin : N -> N) : ncontext (N := N) -> mst -> Prop :=
| reach_create n npt rhobeg rhoend maxfun a s c s' :
    cells s a (ndoc_size n npt None) ->
    newuoa_create n npt rhobeg rhoend maxfun (Some a) s = Ret (Some c) s' -> reach ncos nsin c s'
| reach_iterate c f x fi fuel s c' s' :
    reach ncos nsin c s ->
    cells s x (k_n c) -> apart x (k_n c) (k_w c) (ndoc_size (k_n c) (k_npt c) None) ->
    newuoa_iterate ncos nsin c f (Some x) fi fuel s = Ret c' s' -> reach ncos nsin c' s'
| reach_null c f fi fuel s c' s' :
    reach ncos nsin c s -> newuoa_iterate ncos nsin c f None fi fuel s = Ret c' s' -> reach ncos nsin c' s'
| reach_restart c s : reach ncos nsin c s -> reach ncos nsin (newuoa_restart c) s
| reach_client c s s' :
    reach ncos nsin c s -> cells s' (k_w c) (ndoc_size (k_n c) (k_npt c) None) -> reach ncos nsin c s'.
End Spec.
