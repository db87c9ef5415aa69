(** * Vectors in memory: src/algebra.c (generic operations) over src/simple_vector.c (loops)

    Memory is a set of blocks of elements; a data pointer is a block and an offset.  Vectors are objects
    with an owner (a vector space) and a data pointer, so that two vectors may share the same data
    (wrapped client arrays) and the same vector may be given twice.  [None] is undefined behaviour: NULL
    or dangling object, access outside a block, [memcpy] on overlapping areas.

    Simplification: all spaces have the same element type (spaces of different element types are
    different spaces, hence refused by every function below before any data access). *)
From Coq Require Import List ZArith Bool Arith.
From Verif Require Export Base.
From Verif Require Import Num VecModel.
Import ListNotations.
Local Open Scope num_scope.

(** optimpack.h: [opk_eltype] *)
Inductive eltype := FLOAT | DOUBLE | OTHER_TYPE.

Section Mem.
Context {D E : Num} (c : Cast D E).

Definition ptr : Type := (nat * nat)%type.
Definition mem : Type := nat -> nat -> option E.

Definition rd (m : mem) (p : ptr) (j : nat) : option E := m (fst p) (snd p + j)%nat.
Definition upd (m : mem) (p : ptr) (j : nat) (v : E) : mem :=
  fun b o => if (b =? fst p)%nat && (o =? snd p + j)%nat then Some v else m b o.
(** Writing is only possible where the memory is accessible. *)
Definition wr (m : mem) (p : ptr) (j : nat) (v : E) : option mem :=
  do _ <- rd m p j; Some (upd m p j v).

(** for (j = 0; j < n; ++j) body(j) *)
Fixpoint for_loop {S : Type} (body : nat -> S -> option S) (k j : nat) (s : S) : option S :=
  match k with
  | O => Some s
  | S k' => do s' <- body j s; for_loop body k' (Datatypes.S j) s'
  end.
Definition for_n {S : Type} (n : nat) (body : nat -> S -> option S) (s : S) : option S := for_loop body n 0 s.

(** dst[j] = f(x[j], ...) *)
Definition ew0 (f : E) (dst : ptr) (n : nat) (m : mem) : option mem :=
  for_n n (fun j m => wr m dst j f) m.
Definition ew1 (f : E -> E) (dst x : ptr) (n : nat) (m : mem) : option mem :=
  for_n n (fun j m => do a <- rd m x j; wr m dst j (f a)) m.
Definition ew2 (f : E -> E -> E) (dst x y : ptr) (n : nat) (m : mem) : option mem :=
  for_n n (fun j m => do a <- rd m x j; do b <- rd m y j; wr m dst j (f a b)) m.
Definition ew3 (f : E -> E -> E -> E) (dst x y z : ptr) (n : nat) (m : mem) : option mem :=
  for_n n (fun j m => do a <- rd m x j; do b <- rd m y j; do e <- rd m z j; wr m dst j (f a b e)) m.
Definition ew4 (f : E -> E -> E -> E -> E) (dst x y z t : ptr) (n : nat) (m : mem) : option mem :=
  for_n n (fun j m => do a <- rd m x j; do b <- rd m y j; do e <- rd m z j; do g <- rd m t j;
                      wr m dst j (f a b e g)) m.

(** The elements x[0], ..., x[n-1] (used by the loops that only read). *)
Fixpoint read_from (m : mem) (x : ptr) (j k : nat) : option (list E) :=
  match k with
  | O => Some []
  | S k' => do a <- rd m x j; do l <- read_from m x (S j) k'; Some (a :: l)
  end.
Definition read_all (m : mem) (x : ptr) (n : nat) : option (list E) := read_from m x 0 n.

Definition ptr_eqb (p q : ptr) : bool := (fst p =? fst q)%nat && (snd p =? snd q)%nat.
(** Two areas of [n] elements have a common element. *)
Definition overlap (p q : ptr) (n : nat) : bool :=
  (fst p =? fst q)%nat && (snd p <? snd q + n)%nat && (snd q <? snd p + n)%nat.
(** memcpy: undefined if the areas overlap. *)
Definition memcpy (dst src : ptr) (n : nat) (m : mem) : option mem :=
  if overlap dst src n then None else ew1 (fun a => a) dst src n m.

(** ** Kernels in memory *)

(** simple_vector.c 163-177 *)
Definition mk_fill (n : nat) (alpha : D) (dst : ptr) (m : mem) : option mem := ew0 (e_fill c alpha) dst n m.
(** simple_vector.c 255-263 *)
Definition mk_copy (n : nat) (dst src : ptr) (m : mem) : option mem :=
  if ptr_eqb dst src then Some m else memcpy dst src n m.
(** simple_vector.c 266-279 *)
Definition mk_swap (n : nat) (x y : ptr) (m : mem) : option mem :=
  if ptr_eqb x y then Some m
  else for_n n (fun j m => do t <- rd m x j; do b <- rd m y j; do m <- wr m x j b; wr m y j t) m.
(** simple_vector.c 282-295 *)
Definition mk_scale (n : nat) (dst : ptr) (alpha : D) (src : ptr) (m : mem) : option mem :=
  ew1 (e_scale c alpha) dst src n m.
(** simple_vector.c 298-308 *)
Definition mk_product (n : nat) (dst w x : ptr) (m : mem) : option mem := ew2 e_product dst w x n m.
(** simple_vector.c 311-375 *)
Definition mk_axpby (n : nat) (dst : ptr) (alpha : D) (x : ptr) (beta : D) (y : ptr) (m : mem) : option mem :=
  ew2 (e_axpby c alpha beta) dst x y n m.
(** simple_vector.c 378-397 *)
Definition mk_axpbypcz (n : nat) (dst : ptr) (alpha : D) (x : ptr) (beta : D) (y : ptr) (gamma : D) (z : ptr)
           (m : mem) : option mem :=
  ew3 (e_axpbypcz c alpha beta gamma) dst x y z n m.

(** A bound as given to the kernels: nothing, a scalar or the data of a vector. *)
Inductive mbound := MNone | MScalar (a : D) | MVector (p : ptr).

(** simple_vector.c 402-504 *)
Definition mk_boxprojvar (n : nat) (dst x : ptr) (lo hi : mbound) (m : mem) : option mem :=
  match lo, hi with
  | MNone, MNone          => if ptr_eqb dst x then Some m else memcpy dst x n m
  | MScalar a, MNone      => ew1 (clip_lo (dn c a)) dst x n m
  | MVector xl, MNone     => ew2 clip_lo dst xl x n m
  | MNone, MScalar b      => ew1 (clip_hi (dn c b)) dst x n m
  | MScalar a, MScalar b  => ew1 (clip (dn c a) (dn c b)) dst x n m
  | MVector xl, MScalar b => ew2 (fun a t => clip a (dn c b) t) dst xl x n m
  | MNone, MVector xu     => ew2 clip_hi dst xu x n m
  | MScalar a, MVector xu => ew2 (fun b t => clip (dn c a) b t) dst xu x n m
  | MVector xl, MVector xu => ew3 clip dst xl xu x n m
  end.

(** simple_vector.c 507-607 *)
Definition mk_boxprojdir (n : nat) (desc : bool) (dst x : ptr) (lo hi : mbound) (d : ptr) (m : mem) : option mem :=
  match lo, hi with
  | MNone, MNone          => if ptr_eqb dst d then Some m else memcpy dst d n m
  | MScalar a, MNone      => ew2 (dir_lower desc (dn c a)) dst x d n m
  | MVector xl, MNone     => ew3 (dir_lower desc) dst xl x d n m
  | MNone, MScalar b      => ew2 (dir_upper desc (dn c b)) dst x d n m
  | MScalar a, MScalar b  => ew2 (dir_boxed desc (dn c a) (dn c b)) dst x d n m
  | MVector xl, MScalar b => ew3 (fun a => dir_boxed desc a (dn c b)) dst xl x d n m
  | MNone, MVector xu     => ew3 (dir_upper desc) dst xu x d n m
  | MScalar a, MVector xu => ew3 (fun b => dir_boxed desc (dn c a) b) dst xu x d n m
  | MVector xl, MVector xu => ew4 (dir_boxed desc) dst xl xu x d n m
  end.

(** simple_vector.c 610-714 *)
Definition mk_boxfreevar (n : nat) (desc : bool) (dst x : ptr) (lo hi : mbound) (d : ptr) (m : mem) : option mem :=
  match lo, hi with
  | MNone, MNone          => ew0 (nZ 1) dst n m
  | MScalar a, MNone      => ew2 (free_lower desc (dn c a)) dst x d n m
  | MVector xl, MNone     => ew3 (free_lower desc) dst xl x d n m
  | MNone, MScalar b      => ew2 (free_upper desc (dn c b)) dst x d n m
  | MScalar a, MScalar b  => ew2 (free_boxed desc (dn c a) (dn c b)) dst x d n m
  | MVector xl, MScalar b => ew3 (fun a => free_boxed desc a (dn c b)) dst xl x d n m
  | MNone, MVector xu     => ew3 (free_upper desc) dst xu x d n m
  | MScalar a, MVector xu => ew3 (fun b => free_boxed desc (dn c a) b) dst xu x d n m
  | MVector xl, MVector xu => ew4 (free_boxed desc) dst xl xu x d n m
  end.

(** simple_vector.c 717-882: reads x, d and the bounds only; the loop is that of [k_boxsteplim]. *)
Definition mk_bound (n : nat) (b : mbound) (m : mem) : option (bound D E) :=
  match b with
  | MNone => Some BNone
  | MScalar a => Some (BScalar a)
  | MVector p => do l <- read_all m p n; Some (BVector l)
  end.
Definition mk_boxsteplim (n : nat) (desc : bool) (x : ptr) (lo hi : mbound) (d : ptr) (m : mem) : option (D * D * D) :=
  match lo, hi with
  | MNone, MNone => Some (k_boxsteplim c desc BNone BNone [] [])
  | _, _ =>
    do lo <- mk_bound n lo m; do hi <- mk_bound n hi m; do lx <- read_all m x n; do ld <- read_all m d n;
    Some (k_boxsteplim c desc lo hi lx ld)
  end.

(** ** Objects *)

(** optimpack-private.h: struct _opk_vector (owner) and simple_vector.c 73-78 (data) *)
Record vector := mkVector { v_owner : nat; v_data : ptr }.

(** algebra.c 627-641: a box set; vector bounds are references to vectors. *)
Inductive obound := ONone | OScalar (a : D) | OVector (v : nat).
Record boxset := mkBox { b_space : nat; b_lower : obound; b_upper : obound }.

(** The objects known to the client, by address; sizes of the vector spaces. *)
Record heap := mkHeap {
  h_space : nat -> option nat;
  h_vec   : nat -> option vector;
  h_box   : nat -> option boxset;
  h_mem   : mem
}.
Definition set_mem (h : heap) (m : mem) : heap := mkHeap (h_space h) (h_vec h) (h_box h) m.

(** Object pointers: [None] is NULL. *)
Definition optr : Type := option nat.
Definition optr_eqb (p q : optr) : bool :=
  match p, q with Some a, Some b => (a =? b)%nat | None, None => true | _, _ => false end.

Definition get_vec (h : heap) (v : optr) : option vector := do a <- v; h_vec h a.
Definition get_box (h : heap) (v : optr) : option boxset := do a <- v; h_box h a.

(** What a void function did: its job, or a call to opk_error (algebra.c 147-152) and nothing else. *)
Inductive report := OK | BAD_VECTORS.

Definition lift (h : heap) (r : option mem) : option (report * heap) := do m <- r; Some (OK, set_mem h m).

(** algebra.c 264-268 [opk_vzero] and 272-276 [opk_vfill] *)
Definition opk_vfill (h : heap) (v : optr) (alpha : D) : option (report * heap) :=
  do vv <- get_vec h v; do n <- h_space h (v_owner vv); lift h (mk_fill n alpha (v_data vv) (h_mem h)).
Definition opk_vzero (h : heap) (v : optr) : option (report * heap) := opk_vfill h v (nZ 0).

(** algebra.c 280-290 [opk_vcopy] *)
Definition opk_vcopy (h : heap) (dst src : optr) : option (report * heap) :=
  if optr_eqb src dst then Some (OK, h)
  else
    do vd <- get_vec h dst; do vs <- get_vec h src;
    if negb (v_owner vs =? v_owner vd)%nat then Some (BAD_VECTORS, h)
    else do n <- h_space h (v_owner vd); lift h (mk_copy n (v_data vd) (v_data vs) (h_mem h)).

(** algebra.c 294-310 [opk_vscale] *)
Definition opk_vscale (h : heap) (dst : optr) (alpha : D) (src : optr) : option (report * heap) :=
  do vd <- get_vec h dst; do vs <- get_vec h src;
  if negb (v_owner vs =? v_owner vd)%nat then Some (BAD_VECTORS, h)
  else
    do n <- h_space h (v_owner vd);
    if alpha =? nZ 1 then
      if optr_eqb src dst then Some (OK, h) else lift h (mk_copy n (v_data vd) (v_data vs) (h_mem h))
    else if alpha =? nZ 0 then lift h (mk_fill n (nZ 0) (v_data vd) (h_mem h))
    else lift h (mk_scale n (v_data vd) alpha (v_data vs) (h_mem h)).

(** algebra.c 314-324 [opk_vswap] *)
Definition opk_vswap (h : heap) (x y : optr) : option (report * heap) :=
  if optr_eqb x y then Some (OK, h)
  else
    do vx <- get_vec h x; do vy <- get_vec h y;
    if negb (v_owner vy =? v_owner vx)%nat then Some (BAD_VECTORS, h)
    else do n <- h_space h (v_owner vx); lift h (mk_swap n (v_data vx) (v_data vy) (h_mem h)).

(** algebra.c 328-337 [opk_vdot]: on error 0.0 is returned *)
Definition opk_vdot (h : heap) (x y : optr) : option (report * D) :=
  do vx <- get_vec h x; do vy <- get_vec h y;
  if negb (v_owner vy =? v_owner vx)%nat then Some (BAD_VECTORS, nZ 0)
  else
    do n <- h_space h (v_owner vx);
    do lx <- read_all (h_mem h) (v_data vx) n; do ly <- read_all (h_mem h) (v_data vy) n;
    Some (OK, k_dot c lx ly).

(** algebra.c 340-349 [opk_vdot3] *)
Definition opk_vdot3 (h : heap) (w x y : optr) : option (report * D) :=
  do vw <- get_vec h w; do vx <- get_vec h x; do vy <- get_vec h y;
  if negb (v_owner vx =? v_owner vw)%nat || negb (v_owner vy =? v_owner vw)%nat then Some (BAD_VECTORS, nZ 0)
  else
    do n <- h_space h (v_owner vw);
    do lw <- read_all (h_mem h) (v_data vw) n;
    do lx <- read_all (h_mem h) (v_data vx) n; do ly <- read_all (h_mem h) (v_data vy) n;
    Some (OK, k_dot3 c lw lx ly).

(** algebra.c 352-372 [opk_vnorm2], [opk_vnorm1], [opk_vnorminf] *)
Definition opk_vnorm (k : list E -> D) (h : heap) (x : optr) : option D :=
  do vx <- get_vec h x; do n <- h_space h (v_owner vx);
  do lx <- read_all (h_mem h) (v_data vx) n; Some (k lx).
Definition opk_vnorm2 := opk_vnorm (k_norm2 c).
Definition opk_vnorm1 := opk_vnorm (k_norm1 c).
Definition opk_vnorminf := opk_vnorm (k_norminf c).

(** algebra.c 376-385 [opk_vproduct] *)
Definition opk_vproduct (h : heap) (dst x y : optr) : option (report * heap) :=
  do vd <- get_vec h dst; do vx <- get_vec h x; do vy <- get_vec h y;
  if negb (v_owner vx =? v_owner vd)%nat || negb (v_owner vy =? v_owner vd)%nat then Some (BAD_VECTORS, h)
  else do n <- h_space h (v_owner vd); lift h (mk_product n (v_data vd) (v_data vx) (v_data vy) (h_mem h)).

(** algebra.c 389-411 [opk_vaxpby] *)
Definition opk_vaxpby (h : heap) (dst : optr) (alpha : D) (x : optr) (beta : D) (y : optr) : option (report * heap) :=
  do vd <- get_vec h dst; do vx <- get_vec h x; do vy <- get_vec h y;
  if negb (v_owner vx =? v_owner vd)%nat || negb (v_owner vy =? v_owner vd)%nat then Some (BAD_VECTORS, h)
  else
    do n <- h_space h (v_owner vd);
    let dst := v_data vd in let x := v_data vx in let y := v_data vy in let m := h_mem h in
    lift h (if alpha =? nZ 0 then
              if beta =? nZ 0 then mk_fill n (nZ 0) dst m else mk_scale n dst beta y m
            else
              if beta =? nZ 0 then mk_scale n dst alpha x m else mk_axpby n dst alpha x beta y m).

(** algebra.c 415-454 [opk_vaxpbypcz] *)
Definition opk_vaxpbypcz (h : heap) (dst : optr) (alpha : D) (x : optr) (beta : D) (y : optr)
           (gamma : D) (z : optr) : option (report * heap) :=
  do vd <- get_vec h dst; do vx <- get_vec h x; do vy <- get_vec h y; do vz <- get_vec h z;
  if negb (v_owner vx =? v_owner vd)%nat || negb (v_owner vy =? v_owner vd)%nat
     || negb (v_owner vz =? v_owner vd)%nat then Some (BAD_VECTORS, h)
  else
    do n <- h_space h (v_owner vd);
    let dst := v_data vd in let x := v_data vx in let y := v_data vy in let z := v_data vz in let m := h_mem h in
    lift h
      (if alpha =? nZ 0 then
         if beta =? nZ 0 then
           if gamma =? nZ 0 then mk_fill n (nZ 0) dst m else mk_scale n dst gamma z m
         else
           if gamma =? nZ 0 then mk_scale n dst beta y m else mk_axpby n dst beta y gamma z m
       else
         if beta =? nZ 0 then
           if gamma =? nZ 0 then mk_scale n dst alpha x m else mk_axpby n dst alpha x gamma z m
         else
           if gamma =? nZ 0 then mk_axpby n dst alpha x beta y m else mk_axpbypcz n dst alpha x beta y gamma z m).

(** algebra.c 162-172 [opk_vpeek]: [ptr] tells whether the address given for the result is valid. *)
Definition opk_vpeek (h : heap) (v : optr) (k : Z) (ptr : bool) : option (status * option D) :=
  match v with
  | None => Some (ILLEGAL_ADDRESS, None)
  | Some _ =>
    if negb ptr then Some (ILLEGAL_ADDRESS, None)
    else
      do vv <- get_vec h v; do n <- h_space h (v_owner vv);
      if (k <? 0)%Z || (k >=? Z.of_nat n)%Z then Some (OUT_OF_BOUNDS_INDEX, None)
      else do a <- rd (h_mem h) (v_data vv) (Z.to_nat k); Some (SUCCESS, Some (up c a))
  end.

(** algebra.c 175-185 [opk_vpoke] *)
Definition opk_vpoke (h : heap) (v : optr) (k : Z) (value : D) : option (status * heap) :=
  match v with
  | None => Some (ILLEGAL_ADDRESS, h)
  | Some _ =>
    do vv <- get_vec h v; do n <- h_space h (v_owner vv);
    if (k <? 0)%Z || (k >=? Z.of_nat n)%Z then Some (OUT_OF_BOUNDS_INDEX, h)
    else do m <- wr (h_mem h) (v_data vv) (Z.to_nat k) (dn c value); Some (SUCCESS, set_mem h m)
  end.

(** The array given to [opk_vimport]: NULL, an array of floats or an array of doubles.  Each element is
    converted to REAL; here the conversion [conv] is given with the array type [A]. *)
Definition opk_vimport {A : Type} (conv : A -> E) (h : heap) (dst : optr) (src : option (list A)) (type : eltype) (n : Z)
  : option (status * heap) :=
  (* algebra.c 188-204, simple_vector.c 124-141 *)
  match dst, src with
  | None, _ | _, None => Some (ILLEGAL_ADDRESS, h)
  | Some _, Some inp =>
    match type with
    | OTHER_TYPE => Some (INVALID_ARGUMENT, h)
    | _ =>
      do vv <- get_vec h dst; do size <- h_space h (v_owner vv);
      if negb (n =? Z.of_nat size)%Z then Some (INVALID_ARGUMENT, h)
      else
        do m <- for_n size (fun i m => do a <- nth_error inp i; wr m (v_data vv) i (conv a)) (h_mem h);
        Some (SUCCESS, set_mem h m)
    end
  end.

(** algebra.c 207-223, simple_vector.c 143-160: [opk_vexport]; returns the contents of the array [dst]
    after the call. *)
Fixpoint set_nth {A : Type} (l : list A) (i : nat) (a : A) : option (list A) :=
  match l, i with
  | [], _ => None
  | _ :: l, O => Some (a :: l)
  | b :: l, S i => do l' <- set_nth l i a; Some (b :: l')
  end.
Definition opk_vexport {A : Type} (conv : E -> A) (h : heap) (dst : option (list A)) (type : eltype) (n : Z) (src : optr)
  : option (status * option (list A)) :=
  match dst, src with
  | None, _ | _, None => Some (ILLEGAL_ADDRESS, dst)
  | Some out, Some _ =>
    match type with
    | OTHER_TYPE => Some (INVALID_ARGUMENT, dst)
    | _ =>
      do vv <- get_vec h src; do size <- h_space h (v_owner vv);
      if negb (n =? Z.of_nat size)%Z then Some (INVALID_ARGUMENT, dst)
      else
        do l <- for_n size (fun i out => do a <- rd (h_mem h) (v_data vv) i; set_nth out i (conv a)) out;
        Some (SUCCESS, Some l)
    end
  end.

(** algebra.c 656-680: the bounds of a box as given to the kernels *)
Definition get_bound (h : heap) (b : obound) : option mbound :=
  match b with
  | ONone => Some MNone
  | OScalar a => Some (MScalar a)
  | OVector v => do vv <- h_vec h v; Some (MVector (v_data vv))
  end.

(** optimpack.h [opk_orientation]: OPK_DESCENT = 1, OPK_ASCENT = -1; the kernels only test [orient > 0]. *)
Definition DESCENT : Z := 1.
Definition ASCENT : Z := -1.
Definition is_desc (orient : Z) : bool := (orient >? 0)%Z.

Definition lift_s (h : heap) (r : option mem) : option (status * heap) := do m <- r; Some (SUCCESS, set_mem h m).

(** algebra.c 539-556 [opk_project_variables] and 683-692 [box_projvar].  Box sets of simple vector spaces
    always implement all operations (algebra.c 837-840 with simple_vector.c 915-921), hence there is no
    NOT_IMPLEMENTED case. *)
Definition opk_project_variables (h : heap) (dst x set : optr) : option (status * heap) :=
  match dst, x, set with
  | None, _, _ | _, None, _ | _, _, None => Some (ILLEGAL_ADDRESS, h)
  | _, _, _ =>
    do vd <- get_vec h dst; do vx <- get_vec h x; do b <- get_box h set;
    if negb (v_owner vd =? b_space b)%nat || negb (v_owner vx =? b_space b)%nat then Some (BAD_SPACE, h)
    else
      do n <- h_space h (b_space b);
      do lo <- get_bound h (b_lower b); do hi <- get_bound h (b_upper b);
      lift_s h (mk_boxprojvar n (v_data vd) (v_data vx) lo hi (h_mem h))
  end.

(** algebra.c 559-578 [opk_project_direction] and 695-707 [box_projdir] *)
Definition opk_project_direction (h : heap) (dst x set d : optr) (orient : Z) : option (status * heap) :=
  match dst, x, set, d with
  | None, _, _, _ | _, None, _, _ | _, _, None, _ | _, _, _, None => Some (ILLEGAL_ADDRESS, h)
  | _, _, _, _ =>
    do vd <- get_vec h dst; do vx <- get_vec h x; do b <- get_box h set; do dir <- get_vec h d;
    if negb (v_owner vd =? b_space b)%nat || negb (v_owner vx =? b_space b)%nat
       || negb (v_owner dir =? b_space b)%nat then Some (BAD_SPACE, h)
    else
      do n <- h_space h (b_space b);
      do lo <- get_bound h (b_lower b); do hi <- get_bound h (b_upper b);
      lift_s h (mk_boxprojdir n (is_desc orient) (v_data vd) (v_data vx) lo hi (v_data dir) (h_mem h))
  end.

(** algebra.c 581-600 [opk_get_free_variables] and 710-722 [box_freevar] *)
Definition opk_get_free_variables (h : heap) (dst x set d : optr) (orient : Z) : option (status * heap) :=
  match dst, x, set, d with
  | None, _, _, _ | _, None, _, _ | _, _, None, _ | _, _, _, None => Some (ILLEGAL_ADDRESS, h)
  | _, _, _, _ =>
    do vd <- get_vec h dst; do vx <- get_vec h x; do b <- get_box h set; do dir <- get_vec h d;
    if negb (v_owner vd =? b_space b)%nat || negb (v_owner vx =? b_space b)%nat
       || negb (v_owner dir =? b_space b)%nat then Some (BAD_SPACE, h)
    else
      do n <- h_space h (b_space b);
      do lo <- get_bound h (b_lower b); do hi <- get_bound h (b_upper b);
      lift_s h (mk_boxfreevar n (is_desc orient) (v_data vd) (v_data vx) lo hi (v_data dir) (h_mem h))
  end.

(** algebra.c 603-622 [opk_get_step_limits] and 725-737 [box_steplim]; the three addresses for the
    results are assumed to be given. *)
Definition opk_get_step_limits (h : heap) (x set d : optr) (orient : Z) : option (status * option (D * D * D)) :=
  match x, set, d with
  | None, _, _ | _, None, _ | _, _, None => Some (ILLEGAL_ADDRESS, None)
  | _, _, _ =>
    do vx <- get_vec h x; do b <- get_box h set; do dir <- get_vec h d;
    if negb (v_owner vx =? b_space b)%nat || negb (v_owner dir =? b_space b)%nat then Some (BAD_SPACE, None)
    else
      do n <- h_space h (b_space b);
      do lo <- get_bound h (b_lower b); do hi <- get_bound h (b_upper b);
      do r <- mk_boxsteplim n (is_desc orient) (v_data vx) lo hi (v_data dir) (h_mem h);
      Some (SUCCESS, Some r)
  end.
End Mem.

Arguments mem : clear implicits.
Arguments heap : clear implicits.
Arguments boxset : clear implicits.
Arguments obound : clear implicits.
