(** * Common definitions: status codes, option monad *)
From Coq Require Import ZArith.

(** optimpack.h: the values of [opk_status], in order (OPK_SUCCESS = 0) *)
Inductive status := SUCCESS | INVALID_ARGUMENT | INSUFFICIENT_MEMORY | ILLEGAL_ADDRESS | NOT_IMPLEMENTED
  | CORRUPTED_WORKSPACE | BAD_SPACE | OUT_OF_BOUNDS_INDEX | NOT_STARTED | NOT_A_DESCENT | STEP_CHANGED
  | STEP_OUTSIDE_BRACKET | STPMIN_GT_STPMAX | STPMIN_LT_ZERO | STEP_LT_STPMIN | STEP_GT_STPMAX
  | FTOL_TEST_SATISFIED | GTOL_TEST_SATISFIED | XTOL_TEST_SATISFIED | STEP_EQ_STPMAX | STEP_EQ_STPMIN
  | ROUNDING_ERRORS_PREVENT_PROGRESS | NOT_POSITIVE_DEFINITE | BAD_PRECONDITIONER | INFEASIBLE_BOUNDS
  | WOULD_BLOCK | UNDEFINED_VALUE | TOO_MANY_EVALUATIONS | TOO_MANY_ITERATIONS | MAX_STATUS.

(** optimpack.h 286-338: numerical value of a status. *)
Definition status_code (s : status) : Z :=
  match s with
  | SUCCESS => 0 | INVALID_ARGUMENT => 1 | INSUFFICIENT_MEMORY => 2 | ILLEGAL_ADDRESS => 3 | NOT_IMPLEMENTED => 4
  | CORRUPTED_WORKSPACE => 5 | BAD_SPACE => 6 | OUT_OF_BOUNDS_INDEX => 7 | NOT_STARTED => 8 | NOT_A_DESCENT => 9
  | STEP_CHANGED => 10 | STEP_OUTSIDE_BRACKET => 11 | STPMIN_GT_STPMAX => 12 | STPMIN_LT_ZERO => 13
  | STEP_LT_STPMIN => 14 | STEP_GT_STPMAX => 15 | FTOL_TEST_SATISFIED => 16 | GTOL_TEST_SATISFIED => 17
  | XTOL_TEST_SATISFIED => 18 | STEP_EQ_STPMAX => 19 | STEP_EQ_STPMIN => 20 | ROUNDING_ERRORS_PREVENT_PROGRESS => 21
  | NOT_POSITIVE_DEFINITE => 22 | BAD_PRECONDITIONER => 23 | INFEASIBLE_BOUNDS => 24 | WOULD_BLOCK => 25
  | UNDEFINED_VALUE => 26 | TOO_MANY_EVALUATIONS => 27 | TOO_MANY_ITERATIONS => 28 | MAX_STATUS => 29
  end%Z.

Notation "'do' x <- a ; b" := (match a with Some x => b | None => None end)
  (at level 200, x pattern, a at level 100, b at level 200, right associativity).

