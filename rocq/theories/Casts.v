(** * Conversions between double and float (C 6.3.1.5, IEEE 754 rounding to nearest) *)
From Coq Require Import ZArith Bool.
From Flocq Require Import Core BinarySingleNaN.
From Verif Require Import Num VecModel.

Definition conv (p e p' e' : Z) (Hp' : Prec_gt_0 p') (Hm' : Prec_lt_emax p' e') (x : binary_float p e) : binary_float p' e' :=
  match x with
  | B754_zero s => B754_zero s
  | B754_infinity s => B754_infinity s
  | B754_nan => B754_nan
  | B754_finite s m e _ => binary_normalize p' e' Hp' Hm' mode_NE (cond_Zopp s (Zpos m)) e false
  end.

(** REAL = float: the elements are floats and the scalars are doubles. *)
Definition cast_DS : Cast NumD NumS :=
  mkCast NumD NumS (conv 53 1024 24 128 Hp24 Hm24) (conv 24 128 53 1024 Hp53 Hm53).
(** REAL = double. *)
Definition cast_DD : Cast NumD NumD := cast_id NumD.
