(** * Model of lcg.c: linear conjugate gradients with reverse communication

    OPK_PLCG, OPK_LCG and OPK_TRCG, that is all of lcg.c.  The vectors are arrays in the memory of LaModel.v, given by
    their addresses, and the BLAS-like routines are those of LaModel.v.  The file is compiled for float and double: the
    numbers are those of an arbitrary record of operations [Num]. *)
From Coq Require Import ZArith List Bool.
From Verif Require Import Base Num LaModel.

(** optimpack-linalg.h 968-981: opk_cg_state *)
Definition CG_ERROR : Z := -1.
Definition CG_START : Z := 0.
Definition CG_RESTART : Z := 1.
Definition CG_NEWX : Z := 2.
Definition CG_PRECOND : Z := 3.
Definition CG_AP : Z := 4.
Definition CG_FINISH : Z := 5.
Definition CG_NON_CONVEX : Z := 6.
Definition CG_TRUNCATED : Z := 7.

Section Lcg.
Context {N : Num}.
Notation mem := (Z -> option N).

(** The array [rho].  It has 4 elements for OPK_PLCG, which never uses [rho4], and 5 for OPK_TRCG (lcg.c 193-199).
    Simplification: it is not in the same memory as the vectors. *)
Record rhos := mkrho { rho0 : N; rho1 : N; rho2 : N; rho3 : N; rho4 : N }.

(** What a call leaves: the array [rho], the state and the memory *)
Definition result : Type := rhos * Z * mem.

(** lcg.c 120-122 and 272-274: for (i = 0; i < n; ++i) p[i] = z[i] + beta*p[i]; *)
Definition update_p (n p z : Z) (beta : N) (M : mem) : option mem :=
  for_up 0 n (fun i M => do zi <- M (z + i)%Z; do pi <- M (p + i)%Z; store M (p + i)%Z (zi + beta * pi)%num) M.

(** lcg.c 107-131 and 259-283: case OPK_CG_PRECOND, also reached from the previous case with z = r.  The codes of
    OPK_PLCG and OPK_TRCG are the same. *)
Definition direction (n p r z : Z) (rho : rhos) (M : mem) : option result :=
  do rz <- dot n r 1 z 1 M;
  let rho := mkrho (rho0 rho) rz (rho2 rho) (rho3 rho) (rho4 rho) in
  if (rho1 rho <=? ZERO)%num then
    Some (rho, if (rho1 rho <? ZERO)%num then CG_NON_CONVEX else CG_FINISH, M)
  else
    do (beta, M) <- (if (ZERO <? rho0 rho)%num then
                       let beta := (rho1 rho / rho0 rho)%num in
                       do M <- update_p n p z beta M; Some (beta, M)
                     else
                       do M <- copy n z 1 p 1 M; Some (ZERO, M));
    Some (mkrho (rho0 rho) (rho1 rho) (rho2 rho) beta (rho4 rho), CG_AP, M).

(** lcg.c 65-178: OPK_PLCG.  The address [z] is [None] for NULL; reading from NULL is undefined behaviour. *)
Definition plcg (n p q r x : Z) (z : option Z) (rho : rhos) (state : Z) (M : mem) : option result :=
  if (state =? CG_START)%Z then
    do M <- zero n x 1 M;
    Some (mkrho ZERO ZERO ZERO ZERO (rho4 rho), CG_NEWX, M)
  else if (state =? CG_RESTART)%Z then
    do M <- copy n x 1 p 1 M;
    Some (mkrho ZERO ZERO ZERO ZERO (rho4 rho), CG_AP, M)
  else if (state =? CG_NEWX)%Z then
    match z with
    | None => direction n p r r rho M
    | Some _ => Some (rho, CG_PRECOND, M)
    end
  else if (state =? CG_PRECOND)%Z then
    do z <- z; direction n p r z rho M
  else if (state =? CG_AP)%Z then
    if (ZERO <? rho1 rho)%num then
      do pq <- dot n p 1 q 1 M;
      if (pq <=? ZERO)%num then Some (rho, CG_NON_CONVEX, M)
      else
        let alpha := (rho1 rho / pq)%num in
        let rho := mkrho (rho0 rho) (rho1 rho) alpha (rho3 rho) (rho4 rho) in
        if (alpha =? ZERO)%num then Some (rho, CG_FINISH, M)
        else
          do M <- axpy n alpha p 1 x 1 M;
          do M <- axpy n (nopp alpha) q 1 r 1 M;
          Some (mkrho (rho1 rho) (rho1 rho) (rho2 rho) (rho3 rho) (rho4 rho), CG_NEWX, M)
    else
      do M <- axpy n (nZ (-1)) q 1 r 1 M;
      Some (rho, CG_NEWX, M)
  else if ((state =? CG_FINISH) || (state =? CG_NON_CONVEX))%Z then Some (rho, state, M)
  else Some (rho, CG_ERROR, M).

(** lcg.c 182-187: OPK_LCG *)
Definition lcg (n p q r x : Z) (rho : rhos) (state : Z) (M : mem) : option result :=
  plcg n p q r x None rho state M.

(** lcg.c 299-304: sum = 0; for (i = 0; i < n; ++i) tmp = x[i] + alpha*p[i], sum += tmp*tmp; xn = SQRT(sum); *)
Definition next_norm (n p x : Z) (alpha : N) (M : mem) : option N :=
  do sum <- for_up 0 n (fun i sum =>
              do xi <- M (x + i)%Z; do pi <- M (p + i)%Z;
              let tmp := (xi + alpha * pi)%num in Some (sum + tmp * tmp)%num) ZERO;
  Some (nsqrt sum).

(** lcg.c 340-363: the positive root of a*t^2 + 2*b*t + c, [None] when the discriminant is not positive *)
Definition boundary_root (a b c : N) : option N :=
  let d := nabs a in
  let e := nabs b in
  let d := if (d <? e)%num then e else d in
  let e := nabs c in
  let d := if (d <? e)%num then e else d in
  let d := (ONE / d)%num in
  let a := (a * d)%num in
  let b := (b * d)%num in
  let c := (c * d)%num in
  let d := (b * b - a * c)%num in
  if (ZERO <? d)%num then
    let e := nsqrt d in
    if (ZERO <=? b)%num then Some (nopp c / (e + b))%num else Some ((e - b) / a)%num
  else None.

(** lcg.c 324-372: truncated step *)
Definition truncated_step (n p q r x : Z) (delta : N) (rho : rhos) (M : mem) : option result :=
  do a <- dot n p 1 p 1 M;
  if (a <=? ZERO)%num then Some (rho, CG_FINISH, M)
  else
    do b <- dot n x 1 p 1 M;
    let c := ((rho4 rho + delta) * (rho4 rho - delta))%num in
    if (ZERO <=? c)%num then Some (rho, CG_ERROR, M)
    else
      match boundary_root a b c with
      | None => Some (rho, CG_ERROR, M)
      | Some alpha =>
        do M <- (if (ZERO <? alpha)%num then
                   do M <- axpy n alpha p 1 x 1 M;
                   axpy n (nopp alpha) q 1 r 1 M
                 else Some M);
        Some (mkrho (rho1 rho) (rho1 rho) alpha (rho3 rho) delta, CG_TRUNCATED, M)
      end.

(** lcg.c 200-407: OPK_TRCG *)
Definition trcg (n p q r x : Z) (z : option Z) (delta : N) (rho : rhos) (state : Z) (M : mem) : option result :=
  if (delta <=? ZERO)%num then Some (rho, CG_ERROR, M)
  else if (state =? CG_START)%Z then
    do M <- zero n x 1 M;
    Some (mkrho ZERO ZERO ZERO ZERO ZERO, CG_NEWX, M)
  else if (state =? CG_RESTART)%Z then
    do xn <- nrm2 n x 1 M;
    if (delta <=? xn)%num then
      do M <- (if (delta <? xn)%num then scal n (delta / xn)%num x 1 M else Some M);
      Some (mkrho ZERO ZERO ZERO ZERO delta, CG_TRUNCATED, M)
    else
      do M <- copy n x 1 p 1 M;
      Some (mkrho ZERO ZERO ZERO ZERO xn, CG_AP, M)
  else if (state =? CG_NEWX)%Z then
    match z with
    | None => direction n p r r rho M
    | Some _ => Some (rho, CG_PRECOND, M)
    end
  else if (state =? CG_PRECOND)%Z then
    do z <- z; direction n p r z rho M
  else if (state =? CG_AP)%Z then
    if (ZERO <? rho1 rho)%num then
      do pq <- dot n p 1 q 1 M;
      if (ZERO <? pq)%num then
        let alpha := (rho1 rho / pq)%num in
        let rho := mkrho (rho0 rho) (rho1 rho) alpha (rho3 rho) (rho4 rho) in
        if (alpha =? ZERO)%num then Some (rho, CG_FINISH, M)
        else
          do xn <- next_norm n p x alpha M;
          if (xn <=? delta)%num then
            do M <- axpy n alpha p 1 x 1 M;
            do M <- axpy n (nopp alpha) q 1 r 1 M;
            Some (mkrho (rho1 rho) (rho1 rho) (rho2 rho) (rho3 rho) xn,
                  if (xn <? delta)%num then CG_NEWX else CG_TRUNCATED, M)
          else truncated_step n p q r x delta rho M
      else truncated_step n p q r x delta rho M
    else
      do M <- for_up 0 n (fun i M => do qi <- M (q + i)%Z; sub_cell (r + i)%Z qi M) M;
      Some (mkrho (rho0 rho) (rho1 rho) ZERO ZERO (rho4 rho), CG_NEWX, M)
  else if ((state =? CG_FINISH) || (state =? CG_NON_CONVEX) || (state =? CG_TRUNCATED))%Z then Some (rho, state, M)
  else Some (rho, CG_ERROR, M).

End Lcg.
