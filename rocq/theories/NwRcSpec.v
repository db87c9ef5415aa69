(** * A client of the reverse communication version of NEWUOA *)
From Coq Require Import ZArith List Bool.
From Verif Require Import Num BqLang BqModel NwModel.
Local Open Scope bq_scope.

Section Client.
Context {N : Num}.
Variables (ncos nsin : N -> N).
Variables (n : Z) (maximize : bool) (fn : list (list N * N) -> list N -> N) (x : Z).
(** Fuel for each call of newuoa_iterate *)
Variables (fi fuel : nat).

(** newuoa.h 180-206: while newuoa_get_status(ctx) is NEWUOA_ITERATE, compute the value f of the objective function at x (or its
    opposite for a maximization) and call newuoa_iterate(ctx, f, x), at most k times. *)
Fixpoint client (k : nat) (c : ncontext) : prog N ncontext :=
  match k with
  | O => more
  | S k =>
      match newuoa_get_status (Some c) with
      | NW_ITERATE =>
          let* f := objfun (mkctx fn None 0 one n) x in
          let* c := newuoa_iterate ncos nsin c (if maximize then nopp f else f) (Some x) fi fuel in
          client k c
      | _ => $c
      end
  end.
End Client.
