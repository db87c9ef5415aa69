(** * Specification of the calls of the functions of cobyla.c *)
From Coq Require Import ZArith List Bool.
From Verif Require Import Num BqLang BqModel BqSpec CbModel.
Import ListNotations.
Local Open Scope Z_scope.

Section Spec.
Context {N : Num}.
Notation mst := (mst N).

(** What the memory safety of COBYLA needs of the arithmetic: zero is equal to itself and, for [t] the inverse of the square root
    of a sum of squares, t < r/4 implies t < 2.1*r, whatever r. *)
Inductive sumsq : N -> Prop :=
| sumsq_zero : sumsq (nZ 0)
| sumsq_add a b : sumsq a -> sumsq (nadd a (nmul b b)).
Record CbLaws : Prop := {
  cl_zero : neq (nZ 0 : N) (nZ 0) = true;
  cl_drop : forall a r, sumsq a -> let t := ndiv (nZ 1) (nsqrt a) in
    nlt t (nmul (nQ 1 4) r) = true -> nlt t (nmul (nQ 21 10) r) = true
}.

(** The size of the workspace given in cobyla.h: "n*(3*n+2*m+11)+4*m+6" *)
Definition cdoc_size (n m : Z) : Z := n * (3 * n + 2 * m + 11) + 4 * m + 6.

(** The arrays of the caller of cobyla_optimize: n elements for x (and scl), as many as documented for the workspace; they do
    not overlap.  The array iact is not in the memory of the model, see CbModel.v. *)
Record clayout (n m x : Z) (scl : option Z) (w : Z) (s : mst) : Prop := {
  cl_x : cells s x n;
  cl_scl : match scl with None => True | Some a => cells s a n end;
  cl_w : cells s w (cdoc_size n m);
  cl_x_w : apart x n w (cdoc_size n m);
  cl_scl_w : match scl with None => True | Some a => apart a n w (cdoc_size n m) /\ apart a n x n end
}.

(** The cells of x and of the workspace *)
Definition coutputs (n m x w a : Z) : Prop := x <= a < x + n \/ w <= a < w + cdoc_size n m.

(** The addresses that the client gives to cobyla_iterate: n elements for x, m for the constraints (any address if m = 0) *)
Definition cgiven (q : ccontext (N := N)) (x : Z) (c : option Z) (s : mst) : Prop :=
  cells s x (q_n q) /\ apart x (q_n q) (q_w q) (cdoc_size (q_n q) (q_m q)) /\
  match c with None => True | Some c => cells s c (q_m q) end.

(** The use of the reverse communication version.  [creach q s]: the context [q] in the memory [s] is the one of a client that
    got it from cobyla_create, called cobyla_iterate any number of times (with any values, even when it should not, with any
    valid or NULL addresses) or cobyla_restart, and changed the memory in any way between the calls (the blocks of the workspace
    still exist).  Only the calls that return are considered. *)
Inductive creach : ccontext (N := N) -> mst -> Prop :=
| creach_create n m rhobeg rhoend maxfun a s q s' :
    cells s a (cdoc_size n m) ->
    cobyla_create n m rhobeg rhoend maxfun (Some a) s = Ret (Some q) s' -> creach q s'
| creach_iterate q f x c fi fuel s q' s' :
    creach q s -> cgiven q x c s -> cobyla_iterate q f (Some x) c fi fuel s = Ret q' s' -> creach q' s'
| creach_null q f c fi fuel s q' s' :
    creach q s -> cobyla_iterate q f None c fi fuel s = Ret q' s' -> creach q' s'
| creach_restart q s : creach q s -> creach (cobyla_restart q) s
| creach_client q s s' : creach q s -> cells s' (q_w q) (cdoc_size (q_n q) (q_m q)) -> creach q s'.
End Spec.
Arguments CbLaws : clear implicits.
