(** * Clients of the reference counted objects: specification

    The calls a client can make, what a well-behaved client is, and the references, finalizations and callbacks which the
    properties C01, C02, C03 and C48 are about. *)
From Coq Require Import List ZArith Bool Arith.
From Verif Require Import Base MemModel ObjModel.
Import ListNotations.

(** ** Kinds of objects *)
Inductive kind := KSpace (t : eltype) (n : Z) | KVector (owner : ptr) | KBox (space : ptr) | KLnsrch | KOperator | KOptimizer | KVm | KDriver.
Definition shape {V} (c : content V) : kind :=
  match c with
  | CSpace t n => KSpace t n | CVector w _ _ _ => KVector w | CBox sp _ _ => KBox sp | CLnsrch => KLnsrch
  | COperator _ _ => KOperator | CVmlmb _ => KVm | CNlcg _ => KOptimizer | CDriver _ => KDriver
  end.
Definition krank (k : kind) : nat :=
  match k with KSpace _ _ => 0 | KLnsrch => 0 | KVector _ => 1 | KOperator => 1 | KBox _ => 2 | KOptimizer => 3 | KVm => 3 | KDriver => 4 end.
Definition is_space (k : kind) : Prop := match k with KSpace _ _ => True | _ => False end.
Definition is_vector (k : kind) : Prop := match k with KVector _ => True | _ => False end.
Definition is_box (k : kind) : Prop := match k with KBox _ => True | _ => False end.
Definition is_lnsrch (k : kind) : Prop := match k with KLnsrch => True | _ => False end.
Definition is_opt (k : kind) : Prop := match k with KOptimizer | KVm => True | _ => False end.


Section Spec.
Context {V : Type} (zero : V) (convert : eltype -> eltype -> V -> V).

(** The calls.  The arrays of the client are given by their index in [arrays]; [Slot] and [DriverRewrap] are what
    opk_iterate_vmlmb does when saving memory and opk_start, opk_iterate do with the arrays of the client. *)
Inductive op :=
| NewSpace (t : eltype) (n : Z)
| Create (sp : ptr)
| Wrap (t : eltype) (sp : ptr) (data : option nat) (free : option nat) (client : nat)
| Rewrap (t : eltype) (v : ptr) (data : option nat) (free : option nat) (client : nat)
| Poke (v : ptr) (k : Z) (x : V)
| WriteArray (i : nat) (l : list V)
| NewBox (sp : ptr) (lt : Z) (lv : vptr V) (ut : Z) (uv : vptr V)
| NewLnsrch (valid : bool)
| NewOperator (i o : ptr)
| NewVmlmb (valid : bool) (mem : Z) (save blmvm : bool) (sp ln box : ptr)
| NewNlcg (valid : bool) (flags : Z) (sp ln : ptr)
| NewOptimizer (opts : options) (t : eltype) (n : Z) (lt : Z) (lv : vptr V) (ut : Z) (uv : vptr V) (ln : ptr)
| Slot (a : addr) (k : nat)
| DriverRewrap (d : ptr) (x : nat) (g : option nat)
| Hold (p : ptr)
| Drop (p : ptr)
| Refs (p : ptr).

Inductive result := RPtr (p : ptr) | RStatus (e : status) | RBool (b : bool) | RZ (z : Z) | RUnit.

Definition fmap {A B} (f : A -> B) (m : M V A) : M V B := bind m (fun x => ret (f x)).

(** The function called. *)
Definition exec (c : op) : M V result :=
  match c with
  | NewSpace t n => fmap RPtr (new_vector_space t n)
  | Create sp => fmap RPtr (vcreate zero sp)
  | Wrap t sp d f c => fmap RPtr (wrap_vector t sp (option_map Outer d) f c)
  | Rewrap t v d f c => fmap RStatus (rewrap_vector t v (option_map Outer d) f c)
  | Poke v k x => fmap RStatus (vpoke v k x)
  | WriteArray i l => fmap (fun _ => RUnit) (write_array i l)
  | NewBox sp lt lv ut uv => fmap RPtr (new_boxset zero convert sp lt lv ut uv)
  | NewLnsrch valid => fmap RPtr (new_lnsrch valid)
  | NewOperator i o => fmap RPtr (new_operator i o)
  | NewVmlmb valid mem save blmvm sp ln box => fmap RPtr (new_vmlmb zero valid mem save blmvm sp ln box)
  | NewNlcg valid flags sp ln => fmap RPtr (new_nlcg zero valid flags sp ln)
  | NewOptimizer opts t n lt lv ut uv ln => fmap RPtr (new_optimizer zero convert opts t n lt lv ut uv ln)
  | Slot a k => fmap (fun _ => RUnit) (vmlmb_slot a k)
  | DriverRewrap d x g => fmap RBool (driver_rewrap d x g)
  | Hold p => fmap RPtr (hold_object p)
  | Drop p => fmap (fun _ => RUnit) (drop p)
  | Refs p => fmap RZ (get_object_references p)
  end.

Definition ptr_eq_dec (p q : ptr) : {p = q} + {p <> q}.
Proof. decide equality. apply Nat.eq_dec. Defined.

Fixpoint remove_one (p : ptr) (l : list ptr) : list ptr :=
  match l with [] => [] | q :: l => if ptr_eq_dec p q then l else q :: remove_one p l end.

(** The references owned by the client: those returned by the functions which create or hold an object, less those dropped. *)
Definition own_after (c : op) (r : result) (own : list ptr) : list ptr :=
  match c, r with
  | Drop p, _ => remove_one p own
  | _, RPtr p => p :: own
  | _, _ => own
  end.

(** [p] is NULL, or a reference owned by the client to an object of the given kind *)
Definition arg (s : st V) (own : list ptr) (p : ptr) (K : kind -> Prop) : Prop :=
  forall a, p = Some a -> In p own /\ forall o, get s a = Some o -> K (shape (body o)).

Definition nonnil (p : ptr) : Prop := p <> None.

(** A value of the type announced for a bound in a space of [n] elements *)
Definition bound_arg (s : st V) (own : list ptr) (n : Z) (type : Z) (v : vptr V) : Prop :=
  match type with
  | 1%Z => match v with PNull => True | PScalar t _ => t = FLOAT | _ => False end
  | 2%Z => match v with PNull => True | PScalar t _ => t = DOUBLE | _ => False end
  | 3%Z | 5%Z => match v with PNull => True | PArray i => exists l, nth_error (arrays s) i = Some (FLOAT, l) /\ Z.to_nat n <= length l | _ => False end
  | 4%Z | 6%Z => match v with PNull => True | PArray i => exists l, nth_error (arrays s) i = Some (DOUBLE, l) /\ Z.to_nat n <= length l | _ => False end
  | 7%Z => match v with PNull => True | PObj a => arg s own (Some a) is_vector | _ => False end
  | _ => True
  end.

Definition space_size (s : st V) (sp : ptr) (n : Z) : Prop :=
  exists a o t, sp = Some a /\ get s a = Some o /\ body o = CSpace t n.

(** What a well-behaved client can call: it only passes references it owns, to objects of the right kind. *)
Definition permitted (s : st V) (own : list ptr) (c : op) : Prop :=
  match c with
  | NewSpace t n => True
  | Create sp => nonnil sp /\ arg s own sp is_space
  | Wrap t sp d f c => nonnil sp /\ arg s own sp is_space
  | Rewrap t v d f c => arg s own v is_vector
  | Poke v k x => arg s own v is_vector /\
      forall a o w d f c, v = Some a -> get s a = Some o -> body o = CVector w d f c ->
        match d with Inner _ => True | Outer i => nth_error (arrays s) i <> None | Local => False end
  | WriteArray i l => True
  | NewBox sp lt lv ut uv => arg s own sp is_space /\ forall n, space_size s sp n -> bound_arg s own n lt lv /\ bound_arg s own n ut uv
  | NewLnsrch valid => True
  | NewOperator i o => arg s own i is_space /\ arg s own o is_space
  | NewVmlmb valid mem save blmvm sp ln box => arg s own sp is_space /\ arg s own ln is_lnsrch /\ arg s own box is_box
  | NewNlcg valid flags sp ln => arg s own sp is_space /\ arg s own ln is_lnsrch
  | NewOptimizer opts t n lt lv ut uv ln => arg s own ln is_lnsrch /\ bound_arg s own n lt lv /\ bound_arg s own n ut uv /\
      (forall l, mallocs s <> false :: l)
  | Slot a k => In (Some a) own /\ exists o r, get s a = Some o /\ body o = CVmlmb r /\ k < length (vm_s r) /\ k < length (vm_y r)
  | DriverRewrap d x g => arg s own d (fun k => k = KDriver)
  | Hold p => nonnil p /\ In p own
  | Drop p => p = None \/ In p own
  | Refs p => p = None \/ In p own
  end.

(** The callbacks installed: one more for each successful (re)wrapping with a callback which is not the one in place. *)
Definition inst_after (s : st V) (c : op) (r : result) (inst : list (nat * nat)) : list (nat * nat) :=
  match c, r with
  | Wrap _ _ _ (Some f) c, RPtr (Some _) => (f, c) :: inst
  | Rewrap _ (Some a) _ (Some f) c, RStatus SUCCESS =>
    match get s a with
    | Some o =>
      match body o with
      | CVector _ _ (Some f0) c0 => if Nat.eq_dec f0 f then if Nat.eq_dec c0 c then inst else (f, c) :: inst else (f, c) :: inst
      | _ => (f, c) :: inst
      end
    | None => inst
    end
  | _, _ => inst
  end.

(** The states reached by a well-behaved client: objects, references owned by the client, callbacks installed. *)
Inductive reach : st V -> list ptr -> list (nat * nat) -> Prop :=
| reach_init arrays mallocs : reach (mkSt [] arrays mallocs []) [] []
| reach_step s own inst c r s' : reach s own inst -> permitted s own c -> exec c s = Some (r, s') ->
    reach s' (own_after c r own) (inst_after s c r inst).

(** The continuations of a state by the same client. *)
Inductive later : st V -> list ptr -> st V -> list ptr -> Prop :=
| later_refl s own : later s own s own
| later_step s own s1 own1 c r s2 : later s own s1 own1 -> permitted s1 own1 c -> exec c s1 = Some (r, s2) ->
    later s own s2 (own_after c r own1).

(** The number of references to the object at [a]: by the client and by the members of the objects. *)
Definition references (s : st V) (own : list ptr) (a : addr) : nat :=
  count_occ ptr_eq_dec own (Some a) +
  list_sum (map (fun oo => match oo with Some o => count_occ ptr_eq_dec (dropped (body o)) (Some a) | None => 0 end) (objs s)).

Definition event_eq_dec (e1 e2 : event) : {e1 = e2} + {e1 <> e2}.
Proof. decide equality; apply Nat.eq_dec. Defined.
Definition happened (s : st V) (e : event) : nat := count_occ event_eq_dec (events s) e.

Definition pair_eq_dec (p q : nat * nat) : {p = q} + {p <> q}.
Proof. decide equality; apply Nat.eq_dec. Defined.

(** The number of objects on which a callback is installed *)
Definition holders (s : st V) (f c : nat) : nat :=
  list_sum (map (fun oo => match oo with Some o => match body o with CVector _ _ (Some g) d => if Nat.eq_dec g f then if Nat.eq_dec d c then 1 else 0 else 0 | _ => 0 end | None => 0 end) (objs s)).

(** Every pointer to an object stored in an object *)
Definition bound_members (b : bound V) : list ptr := match b with BVector p => [p] | _ => [] end.
Definition all_members (c : content V) : list ptr :=
  match c with
  | CSpace _ _ => []
  | CVector w _ _ _ => [w]
  | CBox sp lo up => sp :: bound_members lo ++ bound_members up
  | CLnsrch => []
  | COperator i o => [i; o]
  | CVmlmb r => [vm_vspace r; vm_lnsrch r; vm_x0 r; vm_g0 r; vm_d r; vm_w r; vm_gp r; vm_box r] ++ vm_s r ++ vm_y r
  | CNlcg r => [cg_vspace r; cg_lnsrch r; cg_x0 r; cg_g0 r; cg_d r; cg_y r]
  | CDriver r => [dr_optimizer r; dr_vspace r; dr_x r; dr_g r; dr_box r]
  end.

(** The callbacks called by the release of a pair, by a sequence of pairs installed one after the other (a pair which is
    already in place is not released), then by the destruction of the vector. *)
Definition released (p : option nat * nat) : list event := match p with (Some f, c) => [Called f c] | (None, _) => [] end.
Definition cb_eq_dec (p q : option nat * nat) : {p = q} + {p <> q}.
Proof. decide equality; [apply Nat.eq_dec|apply ptr_eq_dec]. Defined.
Fixpoint releases (cur : option nat * nat) (l : list (option nat * nat)) : list event :=
  match l with
  | [] => released cur
  | p :: l => (if cb_eq_dec cur p then [] else released cur) ++ releases p l
  end.
Definition is_called (e : event) : bool := match e with Called _ _ => true | _ => false end.

(** A sequence of re-wraps of the vector [v]; the pairs installed are those of the successful ones. *)
Fixpoint rewraps (v : ptr) (l : list (eltype * option nat * option nat * nat)) (s : st V) : option (list (option nat * nat) * st V) :=
  match l with
  | [] => Some ([], s)
  | (t, d, f, c) :: l =>
    match exec (Rewrap t v d f c) s with
    | Some (RStatus e, s) =>
      match rewraps v l s with
      | Some (ps, s) => Some (match e with SUCCESS => (f, c) :: ps | _ => ps end, s)
      | None => None
      end
    | _ => None
    end
  end.

(** The bound [b] of a box of the space [sp] (of [n] elements of type [t]) in the state [s] is the one described by the type
    and the value [v] given by the client when its arrays were [arr]. *)
Definition bound_given (arr : list (eltype * list V)) (t : eltype) (n : Z) (sp : ptr) (type : Z) (v : vptr V) (s : st V) (b : bound V) : Prop :=
  match type, v, b with
  | 0%Z, PNull, BNone => True
  | 1%Z, PScalar ta x, BScalar y | 2%Z, PScalar ta x, BScalar y => y = convert ta DOUBLE x
  | (3%Z | 4%Z | 5%Z | 6%Z), PArray i, BVector p =>
    exists a o ta l, p = Some a /\ nth_error arr i = Some (ta, l) /\ Z.to_nat n <= length l /\
      get s a = Some o /\ body o = CVector sp (Inner (map (convert ta t) (firstn (Z.to_nat n) l))) None 0
  | 7%Z, PObj a, BVector p => p = Some a /\ exists o, get s a = Some o /\ is_vector (shape (body o))
  | _, _, _ => False
  end.

End Spec.
Arguments op : clear implicits.
