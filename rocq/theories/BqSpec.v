(** * Specification of the calls of bobyqa_optimize *)
From Coq Require Import ZArith List Bool.
From Verif Require Import Num BqLang BqModel.
Import ListNotations.
Local Open Scope Z_scope.

Section Spec.
Context {N : Num}.
Notation mst := (mst N).

(** The [k] cells at address [a] exist *)
Definition cells (s : mst) (a k : Z) : Prop := forall i, 0 <= i < k -> exists v, mm s (a + i) = Some v.

(** The [k] cells at address [a] and the [l] cells at address [b] are different *)
Definition apart (a k b l : Z) : Prop := a + k <= b \/ b + l <= a.

(** The size of the workspace given in bobyqa.h 104-106 and 118-121: "(NPT+5)*(NPT+N)+3*N*(N+5)/2", and 3*N more if SCL is
    not NULL *)
Definition doc_size (n npt : Z) (scl : option Z) : Z :=
  (npt + 5) * (npt + n) + 3 * n * (n + 5) / 2 + match scl with None => 0 | Some _ => 3 * n end.

(** The arrays of the caller: n elements for x, xl, xu (and scl), as many as documented for w; they do not overlap, but xl, xu
    and scl are only read and may. *)
Record layout (n npt x xl xu : Z) (scl : option Z) (w : Z) (s : mst) : Prop := {
  l_x : cells s x n;
  l_xl : cells s xl n;
  l_xu : cells s xu n;
  l_scl : match scl with None => True | Some a => cells s a n end;
  l_w : cells s w (doc_size n npt scl);
  l_x_w : apart x n w (doc_size n npt scl);
  l_xl_w : apart xl n w (doc_size n npt scl);
  l_xu_w : apart xu n w (doc_size n npt scl);
  l_xl_x : apart xl n x n;
  l_xu_x : apart xu n x n;
  l_scl_w : match scl with None => True | Some a => apart a n w (doc_size n npt scl) /\ apart a n x n end
}.

(** The cells of x and of the workspace *)
Definition outputs (n npt x : Z) (scl : option Z) (w a : Z) : Prop :=
  x <= a < x + n \/ w <= a < w + doc_size n npt scl.

(** The state at the end of an execution, whatever the reason; [None] for an access out of the arrays *)
Definition final {A} (o : out N A) : option mst :=
  match o with Ret _ s | Cast s | More s => Some s | Undef _ => None end.

(** The conversion of bobyqa.c line 2107 yields an index: iw = ((k - np) - 0.5)/n is such that 1 <= k - np - iw*n <= n *)
Definition cast_ok (N : Num) (n npt : Z) : Prop :=
  forall k iw (s s' : BqLang.mst N), 2 * (n + 1) <= k <= npt ->
  trunc npt (ndiv (nsub (nZ (k - (n + 1))) (nQ 1 2)) (nZ n)) s = Ret iw s' -> 1 <= k - (n + 1) - iw * n <= n.
End Spec.
