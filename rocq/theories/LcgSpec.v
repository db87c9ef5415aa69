(** * Specification of the linear conjugate gradients of lcg.c

    Vectors and matrices of real numbers (only the elements of indices 0 to n-1 are meant), the quadratic function and the
    executions of the reverse communication protocol documented in optimpack-linalg.h 983-1113 and 1153-1265. *)
From Coq Require Import ZArith Reals List.
From Verif Require Import Num LaSpec LcgModel.
Import ListNotations.
Local Open Scope Z_scope.

(** ** Vectors *)
Definition dotp (n : Z) (u v : Z -> R) : R := sumz 0 n (fun i => u i * v i)%R.
Definition mulv (n : Z) (A : Z -> Z -> R) (u : Z -> R) : Z -> R := fun i => sumz 0 n (fun l => A i l * u l)%R.
Definition same (n : Z) (u v : Z -> R) : Prop := forall i, 0 <= i < n -> u i = v i.
Definition symmetric (n : Z) (A : Z -> Z -> R) : Prop := forall i j, 0 <= i < n -> 0 <= j < n -> A i j = A j i.

(** Euclidean norm *)
Definition norm (n : Z) (u : Z -> R) : R := sqrt (dotp n u u).

(** The function x'Ax/2 - b'x *)
Definition quad (n : Z) (A : Z -> Z -> R) (b x : Z -> R) : R := (dotp n x (mulv n A x) / 2 - dotp n b x)%R.

(** c1 v1 + c2 v2 + ... *)
Fixpoint lin (c : list R) (vs : list (Z -> R)) (i : Z) : R :=
  match c, vs with
  | c :: cs, v :: vs => (c * v i + lin cs vs i)%R
  | _, _ => 0%R
  end.

(** ** Executions *)
Section Exec.
Context {N : Num}.
Notation mem := (Z -> option N).

Definition state_of (e : @result N) : Z := snd (fst e).
Definition rho_of (e : @result N) : @rhos N := fst (fst e).
Definition mem_of (e : @result N) : mem := snd e.

(** The list of what the calls returned, the last one first.  [ready] is what is expected from the memory before the first
    call; [caller] is what the caller does between two calls, depending on the state. *)
Inductive exec (ready : mem -> Prop) (call : rhos -> Z -> mem -> option result) (caller : Z -> mem -> mem -> Prop)
  : list result -> Prop :=
| exec_first : forall rho st M e, st = CG_START \/ st = CG_RESTART -> ready M -> call rho st M = Some e ->
    exec ready call caller [e]
| exec_next : forall e t M e', exec ready call caller (e :: t) -> caller (state_of e) (mem_of e) M ->
    call (rho_of e) (state_of e) M = Some e' -> exec ready call caller (e' :: e :: t).

(** The returned states with a new x *)
Definition is_newx (e : @result N) : bool := state_of e =? CG_NEWX.
(** The returned states where a product by A of a search direction is requested (not the one of the initial x) *)
Definition is_dir (e : @result N) : bool := ((state_of e =? CG_AP) && nlt (nZ 0) (rho1 (rho_of e)))%bool.

(** The arrays do not overlap, but [z], if not NULL, may overlap with [q] *)
Definition arrays_apart (n p q r x : Z) (z : option Z) : Prop :=
  let apart a b := vec_apart a n 1 b n 1 in
  apart p q /\ apart p r /\ apart p x /\ apart q r /\ apart q x /\ apart r x /\
  match z with None => True | Some z => apart z p /\ apart z r /\ apart z x end.
End Exec.

Section Protocol.
Variables H I : R.
Notation NR := (NumR H I).
Notation mem := (Z -> option NR).
Variables (n p q r x : Z) (z : option Z) (A : Z -> Z -> R) (b : Z -> R).

(** Before the first call, r is the right hand side *)
Definition cg_ready (M : mem) : Prop :=
  (exists P, has_vec (N := NR) M p n 1 P) /\ (exists Q, has_vec (N := NR) M q n 1 Q) /\ has_vec (N := NR) M r n 1 b /\
  (exists X, has_vec (N := NR) M x n 1 X) /\
  match z with None => True | Some z => exists V, has_vec (N := NR) M z n 1 V end.

(** The caller computes q = A.p or z, [precond r z], on request *)
Definition cg_caller (precond : (Z -> R) -> (Z -> R) -> Prop) (st : Z) (M M1 : mem) : Prop :=
  if st =? CG_AP then
    only_vec M M1 q n 1 /\ exists P, has_vec (N := NR) M p n 1 P /\ has_vec (N := NR) M1 q n 1 (mulv n A P)
  else if st =? CG_PRECOND then
    match z with
    | None => False
    | Some z => only_vec M M1 z n 1 /\
        exists U V, has_vec (N := NR) M r n 1 U /\ has_vec (N := NR) M1 z n 1 V /\ precond U V
    end
  else M1 = M.

(** Preconditioning by the matrix K *)
Definition by_matrix (K : Z -> Z -> R) (U V : Z -> R) : Prop := same n V (mulv n K U).

(** The preconditioned residuals: those computed by the caller if any *)
Definition pre (K : Z -> Z -> R) (U : Z -> R) : Z -> R := match z with None => U | Some _ => mulv n K U end.

Definition plcg_exec (K : Z -> Z -> R) : list (@result NR) -> Prop :=
  exec cg_ready (plcg (N := NR) n p q r x z) (cg_caller (by_matrix K)).

(** For the trust region method, anything is accepted for the preconditioned residuals *)
Definition trcg_exec (delta : R) : list (@result NR) -> Prop :=
  exec cg_ready (trcg (N := NR) n p q r x z delta) (cg_caller (fun _ _ => True)).
End Protocol.
