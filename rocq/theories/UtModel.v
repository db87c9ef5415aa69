(** * Model of utils.c: messages, constants and the error handler

    opk_copy_string (utils.c 38-59) is in [StrModel].  The strings of C are those of Coq; that a Coq string may contain the
    character 0 does not matter, since none of the names below does. *)
From Coq Require Import ZArith String List.
Import ListNotations.
Local Open Scope string_scope.
Local Open Scope list_scope.
Local Open Scope Z_scope.

(** optimpack.h 286-324: OPK_STATUS_LIST_ *)
Definition status_list : list (Z * string * string) :=
  [(0, "OPK_SUCCESS", "Success");
   (1, "OPK_INVALID_ARGUMENT", "Invalid argument");
   (2, "OPK_INSUFFICIENT_MEMORY", "Insufficient memory");
   (3, "OPK_ILLEGAL_ADDRESS", "Illegal address");
   (4, "OPK_NOT_IMPLEMENTED", "Not implemented");
   (5, "OPK_CORRUPTED_WORKSPACE", "Corrupted workspace");
   (6, "OPK_BAD_SPACE", "Bad variable space");
   (7, "OPK_OUT_OF_BOUNDS_INDEX", "Out of bounds index");
   (8, "OPK_NOT_STARTED", "Line search not started");
   (9, "OPK_NOT_A_DESCENT", "Not a descent direction");
   (10, "OPK_STEP_CHANGED", "Step changed");
   (11, "OPK_STEP_OUTSIDE_BRACKET", "Step outside bracket");
   (12, "OPK_STPMIN_GT_STPMAX", "Lower step bound larger than upper bound");
   (13, "OPK_STPMIN_LT_ZERO", "Minimal step length less than zero");
   (14, "OPK_STEP_LT_STPMIN", "Step lesser than lower bound");
   (15, "OPK_STEP_GT_STPMAX", "Step greater than upper bound");
   (16, "OPK_FTOL_TEST_SATISFIED", "Convergence within variable tolerance");
   (17, "OPK_GTOL_TEST_SATISFIED", "Convergence within function tolerance");
   (18, "OPK_XTOL_TEST_SATISFIED", "Convergence within gradient tolerance");
   (19, "OPK_STEP_EQ_STPMAX", "Step blocked at upper bound");
   (20, "OPK_STEP_EQ_STPMIN", "Step blocked at lower bound");
   (21, "OPK_ROUNDING_ERRORS_PREVENT_PROGRESS", "Rounding errors prevent progress");
   (22, "OPK_NOT_POSITIVE_DEFINITE", "Operator is not positive definite");
   (23, "OPK_BAD_PRECONDITIONER", "Preconditioner is not positive definite");
   (24, "OPK_INFEASIBLE_BOUNDS", "Box set is infeasible");
   (25, "OPK_WOULD_BLOCK", "Variables cannot be improved (would block)");
   (26, "OPK_UNDEFINED_VALUE", "Undefined value");
   (27, "OPK_TOO_MANY_EVALUATIONS", "Too many evaluations");
   (28, "OPK_TOO_MANY_ITERATIONS", "Too many iterations")].

(** utils.c 90-99: opk_get_reason; the switch, whose labels are distinct *)
Fixpoint reason_switch (l : list (Z * string * string)) (status : Z) : string :=
  match l with
  | [] => ""
  | (v, _, msg) :: l => if status =? v then msg else reason_switch l status
  end.
Definition opk_get_reason (status : Z) : string := reason_switch status_list status.

(** utils.c 101-115: opk_guess_status; the values of ENOMEM, EFAULT and EINVAL are those of the system *)
Definition opk_guess_status (ENOMEM EFAULT EINVAL code : Z) : Z :=
  if code =? ENOMEM then 2 else if code =? EFAULT then 3 else if code =? EINVAL then 1 else -1.

(** utils.c 126-192: the tests, in the order of the code, with the values given by optimpack.h.  The status codes are first *)
Definition tests : list (string * Z) :=
  map (fun '(v, name, _) => (name, v)) status_list ++
  [("OPK_TRUE", 1);
   ("OPK_FALSE", 0);
   ("OPK_FLOAT", 0);
   ("OPK_DOUBLE", 1);
   ("OPK_TASK_ERROR", -1);
   ("OPK_TASK_START", 0);
   ("OPK_TASK_COMPUTE_FG", 1);
   ("OPK_TASK_NEW_X", 2);
   ("OPK_TASK_FINAL_X", 3);
   ("OPK_TASK_WARNING", 4);
   ("OPK_LNSRCH_ERROR", -1);
   ("OPK_LNSRCH_SEARCH", 0);
   ("OPK_LNSRCH_CONVERGENCE", 1);
   ("OPK_LNSRCH_WARNING", 2);
   ("OPK_NLCG_FLETCHER_REEVES", 1);
   ("OPK_NLCG_HESTENES_STIEFEL", 2);
   ("OPK_NLCG_POLAK_RIBIERE_POLYAK", 3);
   ("OPK_NLCG_FLETCHER", 4);
   ("OPK_NLCG_LIU_STOREY", 5);
   ("OPK_NLCG_DAI_YUAN", 6);
   ("OPK_NLCG_PERRY_SHANNO", 7);
   ("OPK_NLCG_HAGER_ZHANG", 8);
   ("OPK_NLCG_POWELL", 256);
   ("OPK_NLCG_SHANNO_PHUA", 512);
   ("OPK_NLCG_POLAK_RIBIERE_POLYAK", 3);
   ("OPK_BOUND_NONE", 0);
   ("OPK_BOUND_SCALAR_FLOAT", 1);
   ("OPK_BOUND_SCALAR_DOUBLE", 2);
   ("OPK_BOUND_STATIC_FLOAT", 3);
   ("OPK_BOUND_STATIC_DOUBLE", 4);
   ("OPK_BOUND_VOLATILE_FLOAT", 5);
   ("OPK_BOUND_VOLATILE_DOUBLE", 6);
   ("OPK_BOUND_VECTOR", 7);
   ("OPK_ASCENT", -1);
   ("OPK_DESCENT", 1);
   ("OPK_SCALING_NONE", 0);
   ("OPK_SCALING_OREN_SPEDICATO", 1);
   ("OPK_SCALING_BARZILAI_BORWEIN", 2);
   ("OPK_LBFGS", 0);
   ("OPK_VMLMB", 1);
   ("OPK_BLMVM", 2);
   ("OPK_ALGORITHM_NLCG", 0);
   ("OPK_ALGORITHM_VMLMB", 1);
   ("OPK_FMIN_BOUNDED_BY_A", 1);
   ("OPK_FMIN_BOUNDED_BY_B", 2);
   ("OPK_FMIN_SMOOTH", 4);
   ("OPK_FMIN_ERROR", -1);
   ("OPK_FMIN_START", 0);
   ("OPK_FMIN_FX", 1);
   ("OPK_FMIN_NEWX", 2);
   ("OPK_FMIN_CONVERGENCE", 3)].
(** The chain of tests: the value which is stored in [*ptr] before the function returns OPK_SUCCESS *)
Fixpoint run_tests (l : list (string * Z)) (name : string) : option Z :=
  match l with
  | [] => None
  | (sym, v) :: l => if String.eqb name sym then Some v else run_tests l name
  end.

(** utils.c 117-197: opk_get_integer_constant; [None] for a NULL name.  [cell] is the content of [*ptr], [None] for a NULL
    pointer (the value is then stored in a local variable).  Yields the status and the new content. *)
Definition opk_get_integer_constant (name : option string) (cell : option Z) : Z * option Z :=
  match name with
  | Some s =>
      if String.eqb s "" then (1, cell)
      else match run_tests tests s with
           | Some v => (0, match cell with Some _ => Some v | None => None end)
           | None => (1, cell)
           end
  | None => (1, cell)
  end.

(** utils.c 61-82: the error handler: [None] is default_error_handler and [Some f] the function of the client at address [f].
    The argument of opk_set_error_handler is [None] for NULL, and [Some h] for a handler that is not NULL. *)
Definition handler := option Z.
Definition opk_set_error_handler (current : handler) (new_handler : option handler) : handler * handler :=
  (current, match new_handler with None => None | Some h => h end).
