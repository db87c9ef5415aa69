(** * A client of the reverse communication version of COBYLA *)
From Coq Require Import ZArith List Bool.
From Verif Require Import Num BqLang BqModel CbModel.
Local Open Scope bq_scope.

Section Client.
Context {N : Num}.
Variables (n m : Z) (maximize : bool) (fn : list (list N * N) -> list N -> N) (cn : list (list N * N) -> list N -> Z -> N).
(** The addresses of the variables and of the constraints *)
Variables (x c : Z).
(** Fuel for each call of cobyla_iterate *)
Variables (fi fuel : nat).

(** cobyla.h 246-252: while the status is COBYLA_ITERATE, compute the value f of the objective function at x (or its opposite for
    a maximization), store the constraints in c and call cobyla_iterate(ctx, f, x, c), at most k times.  The functions are those
    given to cobyla_optimize ([calcfc], CbModel.v, stores the constraints at the given address). *)
Fixpoint cclient (k : nat) (q : ccontext) : prog N ccontext :=
  match k with
  | O => more
  | S k =>
      match cobyla_get_status (Some q) with
      | CB_ITERATE =>
          let* f := calcfc n m fn cn c x in
          let* q := cobyla_iterate q (if maximize then nopp f else f) (Some x) (Some c) fi fuel in
          cclient k q
      | _ => $q
      end
  end.
End Client.
