(** * The programs of bobyqa.c

    The functions of bobyqa.c are modelled by programs over a memory of floating-point cells.  A program may read and
    write cells, call the objective function, and end in one of four ways: normally, with undefined behaviour because of an access
    to a cell which does not exist, with a conversion to an integer which is not possible, or by running out of fuel (the
    loops without a bound on the number of iterations). *)
From Coq Require Import ZArith List Bool.
From Verif Require Import Num.
Import ListNotations.

Section Lang.
Context {N : Num}.

(** The memory and the calls of the objective function made so far, the last one first: the variables and the value.
    The cells that do not exist are [None]. *)
Record mst := mkmst { mm : Z -> option N; evs : list (list N * N) }.

Inductive out (A : Type) :=
| Ret (a : A) (s : mst)      (** normal end *)
| Undef (s : mst)            (** access out of the arrays *)
| Cast (s : mst)             (** impossible conversion to an integer *)
| More (s : mst).            (** out of fuel *)
Arguments Ret {_} _ _.
Arguments Undef {_} _.
Arguments Cast {_} _.
Arguments More {_} _.

Definition prog (A : Type) : Type := mst -> out A.

Definition ret {A} (a : A) : prog A := fun s => Ret a s.

Definition bind {A B} (p : prog A) (q : A -> prog B) : prog B := fun s =>
  match p s with
  | Ret a s => q a s
  | Undef s => Undef s
  | Cast s => Cast s
  | More s => More s
  end.

Definition more {A} : prog A := fun s => More s.
Definition cast {A} : prog A := fun s => Cast s.

(** Reading and writing the cell of address [a] *)
Definition ld (a : Z) : prog N := fun s => match mm s a with Some v => Ret v s | None => Undef s end.
Definition sto (a : Z) (v : N) : prog unit := fun s =>
  match mm s a with
  | Some _ => Ret tt (mkmst (fun b => if Z.eqb b a then Some v else mm s b) (evs s))
  | None => Undef s
  end.

(** for (i = lo; ...; ++i) with k iterations; [a] stands for the variables modified by the loop *)
Fixpoint loopn {A} (k : nat) (lo : Z) (body : Z -> A -> prog A) (a : A) : prog A :=
  match k with
  | O => ret a
  | S k => bind (body lo a) (fun a => loopn k (lo + 1)%Z body a)
  end.

(** for (i = lo; i <= hi; ++i) *)
Definition loop {A} (lo hi : Z) (body : Z -> A -> prog A) (a : A) : prog A := loopn (Z.to_nat (hi - lo + 1)) lo body a.

(** The same with a possible exit from the loop (goto, return): when the body yields [inr] *)
Fixpoint loopxn {A B} (k : nat) (lo : Z) (body : Z -> A -> prog (A + B)) (a : A) : prog (A + B) :=
  match k with
  | O => ret (inl a)
  | S k => bind (body lo a) (fun r => match r with inl a => loopxn k (lo + 1)%Z body a | inr b => ret (inr b) end)
  end.
Definition loopx {A B} (lo hi : Z) (body : Z -> A -> prog (A + B)) (a : A) : prog (A + B) :=
  loopxn (Z.to_nat (hi - lo + 1)) lo body a.

(** Code with labels: [step] yields the next label and variables ([inl]) or the result ([inr]) *)
Fixpoint machine {L B} (fuel : nat) (step : L -> prog (L + B)) (l : L) : prog B :=
  match fuel with
  | O => more
  | S fuel => bind (step l) (fun r => match r with inl l => machine fuel step l | inr b => ret b end)
  end.

(** Operations on the values of expressions *)
Definition lift1 {A B} (f : A -> B) (p : prog A) : prog B := bind p (fun a => ret (f a)).
Definition lift2 {A B C} (f : A -> B -> C) (p : prog A) (q : prog B) : prog C :=
  bind p (fun a => bind q (fun b => ret (f a b))).
Definition ifp {A} (c : prog bool) (p q : prog A) : prog A := bind c (fun b => if b then p else q).
(** && and || of C *)
Definition andp (p q : prog bool) : prog bool := bind p (fun b => if b then q else ret false).
Definition orp (p q : prog bool) : prog bool := bind p (fun b => if b then ret true else q).

(** a = e;  a += e;  a -= e; *)
Definition assign (a : Z) (e : prog N) : prog unit := bind e (sto a).
Definition assign_add (a : Z) (e : prog N) : prog unit := bind (lift2 nadd (ld a) e) (sto a).
Definition assign_sub (a : Z) (e : prog N) : prog unit := bind (lift2 nsub (ld a) e) (sto a).

(** (INTEGER)e: truncation toward zero.  Simplification: the values that are not in [0,lim] once truncated are not
    converted (for the larger ones and NaN this is the behaviour of C when the integer type is too small, which is not
    defined; here the limit is lower: all conversions in bobyqa.c yield indices of arrays, or the small integer [iu]). *)
Fixpoint truncn (k : nat) (i : Z) (v : N) : prog Z :=
  match k with
  | O => cast
  | S k => if nlt v (nZ (i + 1)) then ret i else truncn k (i + 1) v
  end.
Definition trunc (lim : Z) (v : N) : prog Z :=
  if nlt v (nZ 0) then if nlt (nZ (-1)) v then ret 0%Z else cast
  else truncn (Z.to_nat (lim + 1)) 0 v.

(** The array element of index i (from 1) of the array at address p, and the element (i,j) of a matrix with [ldim] rows *)
Definition at1 (p i : Z) : Z := (p + (i - 1))%Z.
Definition at2 (p ldim i j : Z) : Z := (p + ((j - 1) * ldim + (i - 1)))%Z.
End Lang.

Arguments mst : clear implicits.
Arguments prog : clear implicits.
Arguments out : clear implicits.
Arguments Ret {_ _} _ _.
Arguments Undef {_ _} _.
Arguments Cast {_ _} _.
Arguments More {_ _} _.

Declare Scope bq_scope.
Delimit Scope bq_scope with bq.
Notation "'let*' x := p 'in' q" := (bind p (fun x => q))
  (at level 200, x pattern, p at level 200, q at level 200, right associativity) : bq_scope.
Notation "p ;; q" := (bind p (fun _ => q)) (at level 199, right associativity) : bq_scope.
Notation "'If' c 'Then' p 'Else' q" := (ifp c p q) (at level 198, c at level 100, p at level 198, right associativity) : bq_scope.
Notation "$ x" := (ret x) (at level 2, x at level 1) : bq_scope.
Notation "p # i" := (ld (at1 p i)) (at level 3, i at level 2, left associativity) : bq_scope.
Notation "! a" := (ld a) (at level 2, a at level 1) : bq_scope.
Infix "+" := (lift2 nadd) : bq_scope.
Infix "-" := (lift2 nsub) : bq_scope.
Infix "*" := (lift2 nmul) : bq_scope.
Infix "/" := (lift2 ndiv) : bq_scope.
Notation "- e" := (lift1 nopp e) : bq_scope.
Notation "e1 <? e2" := (lift2 nlt e1 e2) : bq_scope.
Notation "e1 <=? e2" := (lift2 nle e1 e2) : bq_scope.
Notation "e1 >? e2" := (lift2 (fun a b => nlt b a) e1 e2) : bq_scope.
Notation "e1 >=? e2" := (lift2 (fun a b => nle b a) e1 e2) : bq_scope.
Notation "e1 =? e2" := (lift2 neq e1 e2) : bq_scope.
Notation "e1 && e2" := (andp e1 e2) : bq_scope.
Notation "e1 || e2" := (orp e1 e2) : bq_scope.
Notation "a <~ e" := (assign a e%bq) (at level 80) : bq_scope.
Notation "a +~ e" := (assign_add a e%bq) (at level 80) : bq_scope.
Notation "a -~ e" := (assign_sub a e%bq) (at level 80) : bq_scope.
