(** * Model of the messages of BOBYQA, NEWUOA and COBYLA

    The status codes are the types [bstatus] (BqModel.v), [nstatus] (NwModel.v) and [cstatus] (CbModel.v); the functions
    ..._reason are given any integer, since in C a variable of an enumerated type may hold other values than the listed ones. *)
From Coq Require Import ZArith String.
From Verif Require Import BqModel NwModel CbModel.
Local Open Scope string_scope.
Local Open Scope Z_scope.

(** bobyqa.h 44-60: the values of bobyqa_status *)
Definition bq_code (st : bstatus) : Z :=
  match st with
  | BQ_SUCCESS => 0
  | BQ_BAD_NVARS => -1
  | BQ_BAD_NPT => -2
  | BQ_BAD_RHO_RANGE => -3
  | BQ_BAD_SCALING => -4
  | BQ_TOO_CLOSE => -5
  | BQ_ROUNDING_ERRORS => -6
  | BQ_TOO_MANY_EVALUATIONS => -7
  | BQ_STEP_FAILED => -8
  end.

(** newuoa.h 43-62: the values of newuoa_status *)
Definition nw_code (st : nstatus) : Z :=
  match st with
  | NW_INITIAL_ITERATE => 2
  | NW_ITERATE => 1
  | NW_SUCCESS => 0
  | NW_BAD_NVARS => -1
  | NW_BAD_NPT => -2
  | NW_BAD_RHO_RANGE => -3
  | NW_BAD_SCALING => -4
  | NW_ROUNDING_ERRORS => -5
  | NW_TOO_MANY_EVALUATIONS => -6
  | NW_STEP_FAILED => -7
  | NW_BAD_ADDRESS => -8
  | NW_CORRUPTED => -9
  end.

(** cobyla.h 51-64: the values of cobyla_status *)
Definition cb_code (st : cstatus) : Z :=
  match st with
  | CB_INITIAL_ITERATE => 2
  | CB_ITERATE => 1
  | CB_SUCCESS => 0
  | CB_BAD_NVARS => -1
  | CB_BAD_NCONS => -2
  | CB_BAD_RHO_RANGE => -3
  | CB_BAD_SCALING => -4
  | CB_ROUNDING_ERRORS => -5
  | CB_TOO_MANY_EVALUATIONS => -6
  | CB_BAD_ADDRESS => -7
  | CB_CORRUPTED => -8
  end.

(** bobyqa.c 296-320: bobyqa_reason *)
Definition bobyqa_reason (k : Z) : string :=
  if k =? bq_code BQ_SUCCESS then "algorithm converged"
  else if k =? bq_code BQ_BAD_NVARS then "bad number of variables"
  else if k =? bq_code BQ_BAD_NPT then "NPT is not in the required interval"
  else if k =? bq_code BQ_BAD_RHO_RANGE then "bad trust region radius parameters"
  else if k =? bq_code BQ_BAD_SCALING then "bad scaling factor(s)"
  else if k =? bq_code BQ_TOO_CLOSE then "insufficient space between the bounds"
  else if k =? bq_code BQ_ROUNDING_ERRORS then "too much cancellation in a denominator"
  else if k =? bq_code BQ_TOO_MANY_EVALUATIONS then "too many function evaluations"
  else if k =? bq_code BQ_STEP_FAILED then "trust region step has failed to reduce quadratic approximation"
  else "unknown BOBYQA status".

(** newuoa.c 655-683: newuoa_reason *)
Definition newuoa_reason (k : Z) : string :=
  if k =? nw_code NW_ITERATE then "caller is requested to evaluate the objective function"
  else if k =? nw_code NW_SUCCESS then "algorithm converged"
  else if k =? nw_code NW_BAD_NVARS then "bad number of variables"
  else if k =? nw_code NW_BAD_NPT then "NPT is not in the required interval"
  else if k =? nw_code NW_BAD_RHO_RANGE then "bad trust region radius parameters"
  else if k =? nw_code NW_BAD_SCALING then "bad scaling factor(s)"
  else if k =? nw_code NW_ROUNDING_ERRORS then "too much cancellation in a denominator"
  else if k =? nw_code NW_TOO_MANY_EVALUATIONS then "maximum number of function evaluations exceeded"
  else if k =? nw_code NW_STEP_FAILED then "trust region step has failed to reduce quadratic approximation"
  else if k =? nw_code NW_BAD_ADDRESS then "illegal NULL address"
  else if k =? nw_code NW_CORRUPTED then "corrupted or misused workspace"
  else "unknown NEWUOA status".

(** cobyla.c 1558-1585: cobyla_reason *)
Definition cobyla_reason (k : Z) : string :=
  if k =? cb_code CB_ITERATE then "user requested to compute F(X) and C(X)"
  else if k =? cb_code CB_SUCCESS then "algorithm was successful"
  else if k =? cb_code CB_BAD_NVARS then "bad number of variables"
  else if k =? cb_code CB_BAD_NCONS then "bad number of constraints"
  else if k =? cb_code CB_BAD_RHO_RANGE then "bad trust region radius parameters"
  else if k =? cb_code CB_BAD_SCALING then "bad scaling factor(s)"
  else if k =? cb_code CB_ROUNDING_ERRORS then "rounding errors are becoming damaging"
  else if k =? cb_code CB_TOO_MANY_EVALUATIONS then "too many function evaluations"
  else if k =? cb_code CB_BAD_ADDRESS then "illegal NULL address"
  else if k =? cb_code CB_CORRUPTED then "unexpected parameter or corrupted workspace"
  else "unknown status".
