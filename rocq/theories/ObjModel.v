(** * Reference counted objects

    The objects of the library with their reference counters, the constructors which build graphs of objects, and
    [opk_drop_object] with its cascade of finalizations.

    Simplifications:
    - addresses are never reused by [malloc] (an access to a released object is undefined behaviour, [None], here);
    - counters are unbounded integers ([opk_index] is a 64-bit signed integer);
    - [malloc] fails according to an arbitrary list of booleans which is part of the state;
    - the callbacks which release the data of the client do not call the library;
    - only the "simple" vector spaces of simple_vector.c (in single and double precision) are considered, so that
      finalize_space is NULL and import never fails;
    - the numerical state of line searches and optimizers is not represented here, only their references to objects. *)
From Coq Require Import List ZArith Bool Arith.
From Verif Require Import Base MemModel.
Import ListNotations.

Definition addr := nat.
(** A pointer to an object: None is NULL. *)
Definition ptr := option addr.

Section Obj.
Context {V : Type}.
(** the value 0, conversion of a value from a type to another (assignment between float and double) *)
Variable zero : V.
Variable convert : eltype -> eltype -> V -> V.

(** algebra.c 623-631 [opk_bound]: the union with its type (0, 's' or 'v') *)
Inductive bound := BNone | BScalar (x : V) | BVector (p : ptr).

(** simple_vector.c 73-78: member [data] of a simple vector: the memory after the structure, an array of the client
    (identified by a number), or the address of a local variable (driver.c 350, 357). *)
Inductive storage := Inner (l : list V) | Outer (i : nat) | Local.

(** vmlmb.c 112-163: the pointers to objects in [struct opk_vmlmb_] *)
Record vm := mkVm { vm_vspace : ptr; vm_lnsrch : ptr; vm_x0 : ptr; vm_g0 : ptr; vm_d : ptr; vm_w : ptr; vm_gp : ptr;
  vm_box : ptr; vm_save_memory : bool; vm_s : list ptr; vm_y : list ptr }.
(** nlcg.c 60-130: the pointers to objects in [struct opk_nlcg_] *)
Record cg := mkCg { cg_vspace : ptr; cg_lnsrch : ptr; cg_x0 : ptr; cg_g0 : ptr; cg_d : ptr; cg_y : ptr }.
(** driver.c 46-57: the pointers to objects in [struct opk_optimizer_] *)
Record dr := mkDr { dr_optimizer : ptr; dr_vspace : ptr; dr_x : ptr; dr_g : ptr; dr_box : ptr; dr_single : bool }.

(** optimpack-private.h: the different objects *)
Inductive content :=
| CSpace (t : eltype) (size : Z)
| CVector (owner : ptr) (data : storage) (free_client_data : option nat) (client_data : nat)
| CBox (space : ptr) (lower upper : bound)
| CLnsrch
| COperator (inpspace outspace : ptr)
| CVmlmb (r : vm)
| CNlcg (r : cg)
| CDriver (r : dr).

(** optimpack-private.h [struct opk_object_] *)
Record obj := mkObj { refs : Z; body : content }.

Inductive event :=
| Finalized (a : addr)            (* obj->finalize(obj) is called *)
| Freed (a : addr)                (* free(obj) *)
| Called (f : nat) (data : nat).  (* callback of the client *)

(** [objs]: None for released objects; [arrays]: the arrays of the client, with the type of their elements;
    [mallocs]: results of the next calls to malloc (success when the list is empty); [events]: most recent first. *)
Record st := mkSt { objs : list (option obj); arrays : list (eltype * list V); mallocs : list bool; events : list event }.

(** ** State monad with undefined behaviour *)
Definition M (A : Type) := st -> option (A * st).
Definition ret {A} (x : A) : M A := fun s => Some (x, s).
Definition ub {A} : M A := fun _ => None.
Definition bind {A B} (m : M A) (k : A -> M B) : M B := fun s => match m s with Some (x, s') => k x s' | None => None end.
Local Notation "'let*' x ':=' m 'in' k" := (bind m (fun x => k)) (at level 200, x pattern, right associativity).
Local Notation "m ';;' k" := (bind m (fun _ => k)) (at level 199, right associativity).

Definition get (s : st) (a : addr) : option obj := match nth_error (objs s) a with Some o => o | None => None end.
Fixpoint upd (l : list (option obj)) (a : addr) (o : option obj) : list (option obj) :=
  match l, a with
  | [], _ => []
  | _ :: l, 0 => o :: l
  | x :: l, S a => x :: upd l a o
  end.
Definition set (s : st) (a : addr) (o : option obj) : st := mkSt (upd (objs s) a o) (arrays s) (mallocs s) (events s).

(** Access to the object at address [a]; NULL or released: undefined behaviour. *)
Definition read (p : ptr) : M obj := fun s =>
  match p with None => None | Some a => match get s a with Some o => Some (o, s) | None => None end end.
Definition write (a : addr) (o : obj) : M unit := fun s =>
  match get s a with Some _ => Some (tt, set s a (Some o)) | None => None end.
Definition log (e : event) : M unit := fun s => Some (tt, mkSt (objs s) (arrays s) (mallocs s) (e :: events s)).
(** Change of the members of an object other than the counter. *)
Definition setc (a : addr) (c : content) : M unit :=
  let* o := read (Some a) in write a (mkObj (refs o) c).

(** result of malloc *)
Definition malloc : M bool := fun s =>
  match mallocs s with
  | [] => Some (true, s)
  | b :: l => Some (b, mkSt (objs s) (arrays s) l (events s))
  end.
Definition release (a : addr) : M unit := fun s =>
  match get s a with
  | Some _ => Some (tt, mkSt (upd (objs s) a None) (arrays s) (mallocs s) (Freed a :: events s))
  | None => None
  end.

(** algebra.c 44-59 [opk_allocate_object]: when malloc succeeds, a new object with one reference. *)
Definition allocate_object (c : content) : M addr := fun s =>
  Some (length (objs s), mkSt (objs s ++ [Some (mkObj 1 c)]) (arrays s) (mallocs s) (events s)).

(** algebra.c 61-66 [opk_hold_object] *)
Definition hold_object (p : ptr) : M ptr :=
  let* o := read p in
  match p with
  | None => ub
  | Some a => write a (mkObj (refs o + 1) (body o)) ;; ret p
  end.

(** algebra.c 79-83 [opk_get_object_references] *)
Definition get_object_references (p : ptr) : M Z :=
  match p with None => ret 0%Z | Some _ => let* o := read p in ret (refs o) end.

(** ** Finalization *)

(** The references dropped, in order, by the finalizer of an object:
    vector spaces algebra.c 87-95 (nothing in simple_vector.c), vectors 121-129, convex sets 458-467 and boxes 643-653,
    line searches lnsrch.c 88-95 (no finalizer in any method), operators algebra.c 860-869, vmlmb.c 180-208,
    nlcg.c 407-417, driver.c 279-288. *)
Definition bound_ref (b : bound) : list ptr := match b with BVector p => [p] | _ => [] end.
Definition dropped (c : content) : list ptr :=
  match c with
  | CSpace _ _ => []
  | CVector owner _ _ _ => [owner]
  | CBox space lower upper => bound_ref lower ++ bound_ref upper ++ [space]
  | CLnsrch => []
  | COperator i o => [i; o]
  | CVmlmb r =>
    [vm_vspace r; vm_lnsrch r] ++ (if vm_save_memory r then [] else [vm_x0 r; vm_g0 r]) ++
    [vm_d r; vm_w r; vm_gp r; vm_box r] ++ vm_s r ++ vm_y r
  | CNlcg r => [cg_vspace r; cg_lnsrch r; cg_x0 r; cg_g0 r; cg_d r; cg_y r]
  | CDriver r => [dr_optimizer r; dr_vspace r; dr_x r; dr_g r; dr_box r]
  end.

(** What the finalizer does before: simple_vector.c 98-106 [finalize], called through the space of the vector. *)
Definition before_drops (c : content) : M unit :=
  match c with
  | CVector owner _ free_client_data client_data =>
    let* o := read owner in
    match body o with
    | CSpace _ _ =>
      match free_client_data with Some f => log (Called f client_data) | None => ret tt end
    | _ => ub
    end
  | _ => ret tt
  end.

Fixpoint each {A} (f : A -> M unit) (l : list A) : M unit :=
  match l with [] => ret tt | x :: l => f x ;; each f l end.

(** algebra.c 68-77 [opk_drop_object].  The first argument bounds the depth of the recursion (undefined behaviour when it
    is exceeded). *)
Fixpoint drop_object (fuel : nat) (p : ptr) : M unit :=
  match fuel with
  | O => ub
  | S fuel =>
    match p with
    | None => ret tt
    | Some a =>
      let* o := read p in
      write a (mkObj (refs o - 1) (body o)) ;;
      if (refs o - 1 <? 1)%Z then
        log (Finalized a) ;;
        before_drops (body o) ;;
        each (drop_object fuel) (dropped (body o)) ;;
        release a
      else ret tt
    end
  end.
Definition drop (p : ptr) : M unit := drop_object 8 p.

(** ** Vector spaces and vectors *)

(** algebra.c 97-116 [opk_allocate_vector_space], simple_vector.c 924-928 *)
Definition new_vector_space (t : eltype) (n : Z) : M ptr :=
  if (n <? 1)%Z then ret None
  else
    let* ok := malloc in
    if ok then let* a := allocate_object (CSpace t n) in ret (Some a) else ret None.

(** algebra.c 131-145 [opk_allocate_vector]: the members set by the caller are given by [mk] *)
Definition allocate_vector (space : ptr) (data : storage) (free : option nat) (client : nat) : M ptr :=
  let* ok := malloc in
  if ok then
    let* owner := hold_object space in
    let* a := allocate_object (CVector owner data free client) in
    ret (Some a)
  else ret None.

Definition read_space (p : ptr) : M (eltype * Z) :=
  let* o := read p in match body o with CSpace t n => ret (t, n) | _ => ub end.

(** algebra.c 155-159 [opk_vcreate], simple_vector.c 83-96 [create] *)
Definition vcreate (space : ptr) : M ptr :=
  let* (t, n) := read_space space in
  allocate_vector space (Inner (repeat zero (Z.to_nat n))) None 0.

Definition eltype_eqb (a b : eltype) : bool :=
  match a, b with FLOAT, FLOAT | DOUBLE, DOUBLE | OTHER_TYPE, OTHER_TYPE => true | _, _ => false end.

(** simple_vector.c 930-951 [WRAP_VECTOR]; [data] is None for NULL *)
Definition wrap_vector (t : eltype) (space : ptr) (data : option storage) (free : option nat) (client : nat) : M ptr :=
  let* (ts, n) := read_space space in
  if negb (eltype_eqb t ts) then ret None
  else match data with
       | None => ret None
       | Some d => allocate_vector space d free client
       end.

Definition read_vector (p : ptr) : M (ptr * storage * option nat * nat) :=
  let* o := read p in match body o with CVector w d f c => ret (w, d, f, c) | _ => ub end.

Definition onat_eqb (a b : option nat) : bool :=
  match a, b with Some x, Some y => Nat.eqb x y | None, None => true | _, _ => false end.

(** simple_vector.c 993-1033 [REWRAP_VECTOR] *)
Definition rewrap_vector (t : eltype) (v : ptr) (new_data : option storage) (new_free : option nat) (new_client : nat) : M status :=
  match v with
  | None => ret ILLEGAL_ADDRESS
  | Some a =>
    let* (owner, data, old_free, old_client) := read_vector v in
    let* (ts, n) := read_space owner in
    if negb (eltype_eqb t ts) then ret BAD_SPACE
    else match new_data with
         | None => ret ILLEGAL_ADDRESS
         | Some d =>
           setc a (CVector owner data None 0) ;;
           (match old_free with
            | Some f =>
              if negb (onat_eqb old_free new_free) || negb (Nat.eqb old_client new_client)
              then log (Called f old_client) else ret tt
            | None => ret tt
            end) ;;
           setc a (CVector owner d new_free new_client) ;;
           ret SUCCESS
         end
  end.

Fixpoint put_nth (l : list V) (k : nat) (x : V) : list V :=
  match l, k with [], _ => [] | _ :: l, O => x :: l | y :: l, S k => y :: put_nth l k x end.
Fixpoint put_array (l : list (eltype * list V)) (i : nat) (x : list V) : list (eltype * list V) :=
  match l, i with [], _ => [] | (t, _) :: l, O => (t, x) :: l | y :: l, S i => y :: put_array l i x end.
Definition read_array (i : nat) : M (eltype * list V) := fun s =>
  match nth_error (arrays s) i with Some x => Some (x, s) | None => None end.
Definition write_array (i : nat) (l : list V) : M unit := fun s =>
  Some (tt, mkSt (objs s) (put_array (arrays s) i l) (mallocs s) (events s)).

(** algebra.c 175-186 [opk_vpoke], simple_vector.c 116-123 [poke]; the value has the type of the elements *)
Definition vpoke (v : ptr) (k : Z) (x : V) : M status :=
  match v with
  | None => ret ILLEGAL_ADDRESS
  | Some a =>
    let* (owner, data, f, c) := read_vector v in
    let* (t, n) := read_space owner in
    if ((k <? 0) || (n <=? k))%Z then ret OUT_OF_BOUNDS_INDEX
    else match data with
         | Inner l => setc a (CVector owner (Inner (put_nth l (Z.to_nat k) x)) f c) ;; ret SUCCESS
         | Outer i => let* (ta, l) := read_array i in write_array i (put_nth l (Z.to_nat k) x) ;; ret SUCCESS
         | Local => ub
         end
  end.

(** The elements of a vector. *)
Definition elements (v : ptr) : M (list V) :=
  let* (owner, data, f, c) := read_vector v in
  match data with
  | Inner l => ret l
  | Outer i => let* (t, l) := read_array i in ret l
  | Local => ub
  end.

(** ** Box sets *)

(** The value of a bound given by the client (a void pointer): NULL, the address of a scalar, an array, an object *)
Inductive vptr := PNull | PScalar (t : eltype) (x : V) | PArray (i : nat) | PObj (a : addr).

(** optimpack.h [opk_bound_type]: NONE 0, SCALAR_FLOAT 1, SCALAR_DOUBLE 2, STATIC_FLOAT 3, STATIC_DOUBLE 4,
    VOLATILE_FLOAT 5, VOLATILE_DOUBLE 6, VECTOR 7.
    algebra.c 739-804 [set_bound] *)
Definition set_bound (space : ptr) (type : Z) (value : vptr) : M (status * bound) :=
  if (type =? 0)%Z then
    match value with PNull => ret (SUCCESS, BNone) | _ => ret (INVALID_ARGUMENT, BNone) end
  else if ((type =? 1) || (type =? 2))%Z then
    match value with
    | PNull => ret (ILLEGAL_ADDRESS, BNone)
    | PScalar t x =>
      if eltype_eqb t (if (type =? 1)%Z then FLOAT else DOUBLE)
      then ret (SUCCESS, BScalar (convert t DOUBLE x)) else ub
    | _ => ub
    end
  else if (type =? 7)%Z then
    match value with
    | PNull => ret (ILLEGAL_ADDRESS, BNone)
    | PObj a =>
      let* (owner, data, f, c) := read_vector (Some a) in
      if negb (onat_eqb owner space) then ret (BAD_SPACE, BNone)
      else let* p := hold_object (Some a) in ret (SUCCESS, BVector p)
    | _ => ub
    end
  else if ((3 <=? type) && (type <=? 6))%Z then
    match value with
    | PNull => ret (ILLEGAL_ADDRESS, BNone)
    | PArray i =>
      let datatype := if ((type =? 5) || (type =? 3))%Z then FLOAT else DOUBLE in
      let* vector := vcreate space in
      match vector with
      | None => ret (INSUFFICIENT_MEMORY, BNone)
      | Some v =>
        (* algebra.c 789 [opk_vimport] *)
        let* (t, n) := read_space space in
        let* (ta, l) := read_array i in
        if negb (eltype_eqb ta datatype) || (length l <? Z.to_nat n)%nat then ub
        else
          let* (owner, data, f, c) := read_vector vector in
          setc v (CVector owner (Inner (map (convert ta t) (firstn (Z.to_nat n) l))) f c) ;;
          ret (SUCCESS, BVector vector)
      end
    | _ => ub
    end
  else ret (INVALID_ARGUMENT, BNone).

Definition is_success (s : status) : bool := match s with SUCCESS => true | _ => false end.

(** algebra.c 806-855 [opk_new_boxset], 469-512 [opk_allocate_convexset] *)
Definition new_boxset (space : ptr) (lower_type : Z) (lower : vptr) (upper_type : Z) (upper : vptr) : M ptr :=
  match space with
  | None => ret None
  | Some _ =>
    let* (t, n) := read_space space in
    let* ok := malloc in
    if ok then
      let* sp := hold_object space in
      let* box := allocate_object (CBox sp BNone BNone) in
      let* (s1, b1) := set_bound space lower_type lower in
      setc box (CBox sp b1 BNone) ;;
      if is_success s1 then
        let* (s2, b2) := set_bound space upper_type upper in
        setc box (CBox sp b1 b2) ;;
        if is_success s2 then ret (Some box) else drop (Some box) ;; ret None
      else drop (Some box) ;; ret None
    else ret None
  end.

(** ** Line searches, operators *)

(** lnsrch.c 97-122 [opk_allocate_line_search] and the constructors; [valid]: the parameters pass the checks (LsModel.v) *)
Definition new_lnsrch (valid : bool) : M ptr :=
  if valid then
    let* ok := malloc in
    if ok then let* a := allocate_object CLnsrch in ret (Some a) else ret None
  else ret None.

(** algebra.c 871-895 [opk_allocate_operator] *)
Definition new_operator (inp out : ptr) : M ptr :=
  match inp, out with
  | Some _, Some _ =>
    let* (t1, n1) := read_space inp in
    let* (t2, n2) := read_space out in
    let* ok := malloc in
    if ok then
      let* i := hold_object inp in
      let* o := hold_object out in
      let* a := allocate_object (COperator i o) in ret (Some a)
    else ret None
  | _, _ => ret None
  end.

(** ** VMLMB *)

Definition nonnull (p : ptr) : bool := match p with Some _ => true | None => false end.
(** Assign the result of [m] to a member of the object at [a]; the result tells whether it is not NULL. *)
Definition attach (a : addr) (m : M ptr) (c : ptr -> content) : M bool :=
  let* p := m in setc a (c p) ;; ret (nonnull p).

Definition set_sy (r : vm) (s y : list ptr) : vm :=
  mkVm (vm_vspace r) (vm_lnsrch r) (vm_x0 r) (vm_g0 r) (vm_d r) (vm_w r) (vm_gp r) (vm_box r) (vm_save_memory r) s y.
Fixpoint put_ptr (l : list ptr) (k : nat) (p : ptr) : list ptr :=
  match l, k with [], _ => [] | _ :: l, O => p :: l | q :: l, S k => q :: put_ptr l k p end.

(** vmlmb.c 316-325: loop on [k] from [m - n] *)
Fixpoint create_pairs (a : addr) (space : ptr) (r : vm) (n k : nat) : M (bool * vm) :=
  match n with
  | O => ret (true, r)
  | S n =>
    let* p := vcreate space in
    let r := set_sy r (put_ptr (vm_s r) k p) (vm_y r) in
    setc a (CVmlmb r) ;;
    if nonnull p then
      let* q := vcreate space in
      let r := set_sy r (vm_s r) (put_ptr (vm_y r) k q) in
      setc a (CVmlmb r) ;;
      if nonnull q then create_pairs a space r n (S k) else ret (false, r)
    else ret (false, r)
  end.

Definition set_lnsrch (r : vm) (v l : ptr) : vm :=
  mkVm v l (vm_x0 r) (vm_g0 r) (vm_d r) (vm_w r) (vm_gp r) (vm_box r) (vm_save_memory r) (vm_s r) (vm_y r).
Definition set_xg (r : vm) (x g : ptr) : vm :=
  mkVm (vm_vspace r) (vm_lnsrch r) x g (vm_d r) (vm_w r) (vm_gp r) (vm_box r) (vm_save_memory r) (vm_s r) (vm_y r).
Definition set_dwb (r : vm) (d w b : ptr) : vm :=
  mkVm (vm_vspace r) (vm_lnsrch r) (vm_x0 r) (vm_g0 r) d w (vm_gp r) b (vm_save_memory r) (vm_s r) (vm_y r).

(** vmlmb.c 326-358, the members after the pairs *)
Definition vmlmb_members (a : addr) (space lnsrch box : ptr) (r : vm) : M bool :=
  let* sp := hold_object space in
  let r := set_lnsrch r sp (vm_lnsrch r) in
  setc a (CVmlmb r) ;;
  let* l := (match lnsrch with Some _ => hold_object lnsrch | None => new_lnsrch true end) in
  let r := set_lnsrch r (vm_vspace r) l in
  setc a (CVmlmb r) ;;
  if negb (nonnull l) then ret false else
  let* (ok, r) := (
    if vm_save_memory r then ret (true, r)
    else
      let* x := vcreate space in
      let r := set_xg r x (vm_g0 r) in
      setc a (CVmlmb r) ;;
      if nonnull x then
        let* g := vcreate space in
        let r := set_xg r (vm_x0 r) g in
        setc a (CVmlmb r) ;; ret (nonnull g, r)
      else ret (false, r)) in
  if negb ok then ret false else
  let* d := vcreate space in
  let r := set_dwb r d (vm_w r) (vm_box r) in
  setc a (CVmlmb r) ;;
  if negb (nonnull d) then ret false else
  match box with
  | None => ret true
  | Some _ =>
    let* b := hold_object box in
    let r := set_dwb r (vm_d r) (vm_w r) b in
    setc a (CVmlmb r) ;;
    let* w := vcreate space in
    let r := set_dwb r (vm_d r) w (vm_box r) in
    setc a (CVmlmb r) ;; ret (nonnull w)
  end.

Definition read_box (p : ptr) : M ptr :=
  let* o := read p in match body o with CBox sp _ _ => ret sp | _ => ub end.

(** vmlmb.c 302-358 *)
Definition vmlmb_init (a : addr) (blmvm : bool) (m : nat) (space lnsrch box : ptr) (r : vm) : M bool :=
  let* (ok, r) := (
    match box with
    | Some _ =>
      if blmvm then
        let* gp := vcreate space in
        let r := mkVm (vm_vspace r) (vm_lnsrch r) (vm_x0 r) (vm_g0 r) (vm_d r) (vm_w r) gp (vm_box r) (vm_save_memory r) (vm_s r) (vm_y r) in
        setc a (CVmlmb r) ;; ret (nonnull gp, r)
      else ret (true, r)
    | None => ret (true, r)
    end) in
  if negb ok then ret false else
  let* (ok, r) := create_pairs a space r m 0 in
  if negb ok then ret false else
  vmlmb_members a space lnsrch box r.

(** vmlmb.c 235-368 [opk_new_vmlmb_optimizer]; [valid]: the options pass the checks *)
Definition new_vmlmb (valid : bool) (mem : Z) (save_memory blmvm : bool) (space lnsrch box : ptr) : M ptr :=
  if negb valid then ret None else
  match space with
  | None => ret None
  | Some _ =>
    let* (t, size) := read_space space in
    if ((size <? 1) || (mem <? 1))%Z then ret None else
    let m := Z.to_nat (if (size <? mem)%Z then size else mem) in
    let* bad := (match box with None => ret false | Some _ => let* sp := read_box box in ret (negb (onat_eqb sp space)) end) in
    if bad then ret None else
    let* ok := malloc in
    if negb ok then ret None else
    let r := mkVm None None None None None None None None save_memory (repeat None m) (repeat None m) in
    let* a := allocate_object (CVmlmb r) in
    let* ok := vmlmb_init a blmvm m space lnsrch box r in
    if ok then ret (Some a) else drop (Some a) ;; ret None
  end.

Definition read_vmlmb (p : ptr) : M vm :=
  let* o := read p in match body o with CVmlmb r => ret r | _ => ub end.

(** vmlmb.c 705-711: when saving memory, x0 and g0 become weak references to a saved pair *)
Definition vmlmb_slot (a : addr) (k : nat) : M unit :=
  let* r := read_vmlmb (Some a) in
  if vm_save_memory r then
    match nth_error (vm_s r) k, nth_error (vm_y r) k with
    | Some s, Some y => setc a (CVmlmb (set_xg r s y))
    | _, _ => ub
    end
  else ret tt.

(** ** NLCG *)

(** nlcg.c 449-499: (g0_needed, y_needed) for each update rule; None for an unknown rule *)
Definition nlcg_needs (flags : Z) : option (bool * bool) :=
  match Z.land flags 255 with
  | 1 => Some (false, false) | 2 => Some (true, true) | 3 => Some (true, true) | 4 => Some (false, false)
  | 5 => Some (true, true) | 6 => Some (true, true) | 7 => Some (true, true) | 8 => Some (true, true)
  | _ => None
  end%Z.
(** OPK_NLCG_DEFAULT = OPK_NLCG_POLAK_RIBIERE_POLYAK | OPK_NLCG_POWELL | OPK_NLCG_SHANNO_PHUA *)
Definition NLCG_DEFAULT : Z := 3 + 256 + 512.

(** nlcg.c 505-547 *)
Definition nlcg_init (a : addr) (g0_needed y_needed : bool) (space lnsrch : ptr) : M bool :=
  let* sp := hold_object space in
  setc a (CNlcg (mkCg sp None None None None None)) ;;
  let* l := (match lnsrch with Some _ => hold_object lnsrch | None => new_lnsrch true end) in
  setc a (CNlcg (mkCg sp l None None None None)) ;;
  if negb (nonnull l) then ret false else
  let* x := vcreate space in
  setc a (CNlcg (mkCg sp l x None None None)) ;;
  if negb (nonnull x) then ret false else
  let* (ok, g) := (
    if g0_needed then
      let* g := vcreate space in
      setc a (CNlcg (mkCg sp l x g None None)) ;; ret (nonnull g, g)
    else ret (true, None)) in
  if negb ok then ret false else
  let* d := vcreate space in
  setc a (CNlcg (mkCg sp l x g d None)) ;;
  if negb (nonnull d) then ret false else
  if y_needed then
    let* y := vcreate space in
    setc a (CNlcg (mkCg sp l x g d y)) ;; ret (nonnull y)
  else ret true.

(** nlcg.c 422-557 [opk_new_nlcg_optimizer] *)
Definition new_nlcg (valid : bool) (flags : Z) (space lnsrch : ptr) : M ptr :=
  if negb valid then ret None else
  match space with
  | None => ret None
  | Some _ =>
    match nlcg_needs (if (flags =? 0)%Z then NLCG_DEFAULT else flags) with
    | None => ret None
    | Some (g0_needed, y_needed) =>
      let* ok := malloc in
      if negb ok then ret None else
      let* a := allocate_object (CNlcg (mkCg None None None None None None)) in
      let* ok := nlcg_init a g0_needed y_needed space lnsrch in
      if ok then ret (Some a) else drop (Some a) ;; ret None
    end
  end.

(** ** Simple driver *)

(** the options of the driver: those of the algorithm *)
Inductive options :=
| ONlcg (valid : bool) (flags : Z)
| OVmlmb (valid : bool) (mem : Z) (save_memory blmvm : bool)
| OUnknown.

Definition is_null (v : vptr) : bool := match v with PNull => true | _ => false end.

(** driver.c 365-399: a static array is wrapped; the result tells whether to continue, with the new type and address *)
Definition wrap_static (single : bool) (space : ptr) (type : Z) (value : vptr) : M (bool * Z * vptr * ptr) :=
  if (type =? (if single then 3 else 4))%Z then
    match value with
    | PArray i =>
      let* (ta, l) := read_array i in
      let* v := wrap_vector (if single then FLOAT else DOUBLE) space (Some (Outer i)) None 0 in
      match v with
      | None => ret (false, type, value, None)
      | Some a => ret (true, 7%Z, PObj a, v)
      end
    | _ => ub
    end
  else ret (true, type, value, None).

(** driver.c 346-404: space, vectors and box; the members of the object *)
Definition driver_init (a : addr) (single bounded : bool) (n : Z) (lower_type : Z) (lower : vptr) (upper_type : Z) (upper : vptr)
  : M (bool * dr) :=
  let t := if single then FLOAT else DOUBLE in
  let r := mkDr None None None None None single in
  let* sp := new_vector_space t n in
  let r := mkDr None sp None None None single in
  setc a (CDriver r) ;;
  if negb (nonnull sp) then ret (false, r) else
  let* x := wrap_vector t sp (Some Local) None 0 in
  let r := mkDr None sp x None None single in
  setc a (CDriver r) ;;
  let* g := wrap_vector t sp (Some Local) None 0 in
  let r := mkDr None sp x g None single in
  setc a (CDriver r) ;;
  if negb (nonnull x && nonnull g) then ret (false, r) else
  if negb bounded then ret (true, r) else
  let* (ok1, lt, lv, lower_vector) := wrap_static single sp lower_type lower in
  if negb ok1 then ret (false, r) else
  let* (ok2, ut, uv, upper_vector) := wrap_static single sp upper_type upper in
  if negb ok2 then drop lower_vector ;; ret (false, r) else
  let* box := new_boxset sp lt lv ut uv in
  let r := mkDr None sp x g box single in
  setc a (CDriver r) ;;
  drop lower_vector ;;
  drop upper_vector ;;
  ret (nonnull box, r).

(** driver.c 293-423 [opk_new_optimizer].  The result of the allocation is not checked: driver.c 343-347 *)
Definition new_optimizer (opts : options) (t : eltype) (n : Z) (lower_type : Z) (lower : vptr) (upper_type : Z) (upper : vptr)
  (lnsrch : ptr) : M ptr :=
  if (n <? 1)%Z then ret None else
  let single := eltype_eqb t FLOAT in
  if negb single && negb (eltype_eqb t DOUBLE) then ret None else
  if negb ((0 <=? lower_type) && (lower_type <=? 7) && (0 <=? upper_type) && (upper_type <=? 7))%Z then ret None else
  if negb (Bool.eqb (lower_type =? 0)%Z (is_null lower)) || negb (Bool.eqb (upper_type =? 0)%Z (is_null upper)) then ret None else
  let bounded := negb (lower_type =? 0)%Z || negb (upper_type =? 0)%Z in
  if (match opts with ONlcg _ _ => bounded | OVmlmb _ _ _ _ => false | OUnknown => true end) then ret None else
  let* ok := malloc in
  if negb ok then ub else
  let* a := allocate_object (CDriver (mkDr None None None None None single)) in
  let* (ok, r) := driver_init a single bounded n lower_type lower upper_type upper in
  if negb ok then drop (Some a) ;; ret None else
  let* o := (match opts with
             | ONlcg valid flags => new_nlcg valid flags (dr_vspace r) lnsrch
             | OVmlmb valid mem save blmvm => new_vmlmb valid mem save blmvm (dr_vspace r) lnsrch (dr_box r)
             | OUnknown => ret None
             end) in
  setc a (CDriver (mkDr o (dr_vspace r) (dr_x r) (dr_g r) (dr_box r) single)) ;;
  if nonnull o then ret (Some a) else drop (Some a) ;; ret None.

Definition read_driver (p : ptr) : M dr :=
  let* o := read p in match body o with CDriver r => ret r | _ => ub end.

(** driver.c 432-479, the references to the arrays of the client in [opk_start] ([g] is None) and [opk_iterate]; the result
    is false in case of error *)
Definition driver_rewrap (p : ptr) (x : nat) (g : option nat) : M bool :=
  match p with
  | None => ret false
  | Some a =>
    let* r := read_driver p in
    let t := if dr_single r then FLOAT else DOUBLE in
    let* s := rewrap_vector t (dr_x r) (Some (Outer x)) None 0 in
    if is_success s then
      match g with
      | None => ret true
      | Some i => let* s := rewrap_vector t (dr_g r) (Some (Outer i)) None 0 in ret (is_success s)
      end
    else ret false
  end.

End Obj.

Arguments M : clear implicits.
Arguments st : clear implicits.
Arguments content : clear implicits.
Arguments obj : clear implicits.
Arguments bound : clear implicits.
Arguments storage : clear implicits.
Arguments vptr : clear implicits.
