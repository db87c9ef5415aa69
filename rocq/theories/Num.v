(** * Numbers

    All numerical code of the library is translated operation by operation into functions over a
    record of operations.  The record carries no law: a theorem stated for every [Num] holds whatever
    the arithmetic is (IEEE 754 with NaN and infinities, extended precision, exact reals, ...).

    Three instances are given below: [NumR] (exact real arithmetic), [NumD] and [NumS] (IEEE 754
    binary64 and binary32 with rounding to nearest even, as formalized in Flocq). *)

From Coq Require Import ZArith Reals Bool Lra.
From Flocq Require Import Core BinarySingleNaN.

(** The operations of C on [double] (or [float]) used by the library. *)
Record Num := mkNum {
  num   :> Type;
  nZ    : Z -> num;                 (** (small) integer constants: 0, 1, -1, 2, ... *)
  nQ    : Z -> positive -> num;     (** decimal constants: [nQ 1 10] is the literal 0.1 *)
  nmax  : num;                      (** DBL_MAX (FLT_MAX) *)
  ninf  : num;                      (** HUGE_VAL / INFINITY *)
  nadd  : num -> num -> num;
  nsub  : num -> num -> num;
  nmul  : num -> num -> num;
  ndiv  : num -> num -> num;
  nopp  : num -> num;               (** unary minus *)
  nabs  : num -> num;               (** fabs *)
  nsqrt : num -> num;               (** sqrt *)
  nlt   : num -> num -> bool;       (** the C operator < *)
  nle   : num -> num -> bool;       (** the C operator <= *)
  neq   : num -> num -> bool;       (** the C operator == *)
  nfin  : num -> bool               (** neither NaN nor infinite *)
}.

Arguments nZ {_} _.
Arguments nQ {_} _ _.
Arguments nmax {_}.
Arguments ninf {_}.
Arguments nadd {_} _ _.
Arguments nsub {_} _ _.
Arguments nmul {_} _ _.
Arguments ndiv {_} _ _.
Arguments nopp {_} _.
Arguments nabs {_} _.
Arguments nsqrt {_} _.
Arguments nlt {_} _ _.
Arguments nle {_} _ _.
Arguments neq {_} _ _.
Arguments nfin {_} _.

Declare Scope num_scope.
Delimit Scope num_scope with num.
Infix "+" := nadd : num_scope.
Infix "-" := nsub : num_scope.
Infix "*" := nmul : num_scope.
Infix "/" := ndiv : num_scope.
Notation "- x" := (nopp x) : num_scope.
Notation "x <? y" := (nlt x y) : num_scope.
Notation "x <=? y" := (nle x y) : num_scope.
(** The C operators > and >= are < and <= with swapped operands (also with NaN). *)
Notation "x >? y" := (nlt y x) : num_scope.
Notation "x >=? y" := (nle y x) : num_scope.
Notation "x =? y" := (neq x y) : num_scope.

(** ** Exact real arithmetic

    [H] stands for the largest number (DBL_MAX) and [I] for HUGE_VAL: reals have neither, so they are
    parameters of the instance. *)
Definition NumR (H I : R) : Num := {|
  num   := R;
  nZ    := IZR;
  nQ    := fun n p => (IZR n / IZR (Zpos p))%R;
  nmax  := H;
  ninf  := I;
  nadd  := Rplus;
  nsub  := Rminus;
  nmul  := Rmult;
  ndiv  := Rdiv;
  nopp  := Ropp;
  nabs  := Rabs;
  nsqrt := R_sqrt.sqrt;
  nlt   := Rlt_bool;
  nle   := Rle_bool;
  neq   := Req_bool;
  nfin  := fun _ => true
|}.

(** ** IEEE 754 arithmetic *)
Section IEEE.
Variables prec emax : Z.
Context (Hp : Prec_gt_0 prec) (Hm : Prec_lt_emax prec emax).

Definition FofZ (n : Z) : binary_float prec emax := binary_normalize prec emax Hp Hm mode_NE n 0 false.

Definition NumF : Num := {|
  num   := binary_float prec emax;
  nZ    := FofZ;
  nQ    := fun n p => Bdiv mode_NE (FofZ n) (FofZ (Zpos p));
  nmax  := Bmax_float;
  ninf  := B754_infinity false;
  nadd  := Bplus mode_NE;
  nsub  := Bminus mode_NE;
  nmul  := Bmult mode_NE;
  ndiv  := Bdiv mode_NE;
  nopp  := Bopp;
  nabs  := Babs;
  nsqrt := Bsqrt mode_NE;
  nlt   := Bltb;
  nle   := Bleb;
  neq   := Beqb;
  nfin  := is_finite
|}.
End IEEE.

Definition Hp53 : Prec_gt_0 53 := eq_refl.
Definition Hm53 : Prec_lt_emax 53 1024 := eq_refl.
Definition Hp24 : Prec_gt_0 24 := eq_refl.
Definition Hm24 : Prec_lt_emax 24 128 := eq_refl.

(** C [double] *)
Definition NumD : Num := NumF 53 1024 Hp53 Hm53.
(** C [float] *)
Definition NumS : Num := NumF 24 128 Hp24 Hm24.
