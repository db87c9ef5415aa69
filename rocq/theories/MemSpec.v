(** * Specification vocabulary for vectors in memory *)
From Coq Require Import List ZArith Bool Arith.
From Verif Require Import Num VecModel MemModel.
Import ListNotations.

Section Spec.
Context {D E : Num}.

(** The data at [p] is the list [l]. *)
Definition holds (m : mem E) (p : ptr) (l : list E) : Prop :=
  forall j a, nth_error l j = Some a -> rd m p j = Some a.

(** The address (block [b], offset [o]) belongs to the [n] elements at [p]. *)
Definition in_area (p : ptr) (n b o : nat) : Prop := b = fst p /\ snd p <= o < snd p + n.

(** The memory is the same except possibly the [n] elements at [p]. *)
Definition same_outside (p : ptr) (n : nat) (m m' : mem E) : Prop :=
  forall b o, ~ in_area p n b o -> m' b o = m b o.

(** Two data areas of [n] elements are the same or have nothing in common. *)
Definition same_or_apart (p q : ptr) (n : nat) : Prop :=
  p = q \/ forall b o, in_area p n b o -> ~ in_area q n b o.

(** [v] is a vector of space [s] (of size [n]) whose data are at [p] and whose elements are [l]. *)
Definition is_vector (h : heap D E) (v : nat) (s n : nat) (p : ptr) (l : list E) : Prop :=
  h_vec h v = Some (mkVector s p) /\ h_space h s = Some n /\ length l = n /\ holds (h_mem h) p l.

(** The objects are the same in both heaps, only the memory may differ. *)
Definition same_objects (h h' : heap D E) : Prop :=
  h_space h' = h_space h /\ h_vec h' = h_vec h /\ h_box h' = h_box h.

(** The bound [b] of a box of space [s] (of size [n]) has the value [lb]. *)
Definition is_bound (h : heap D E) (s n : nat) (b : obound D) (lb : bound D E) : Prop :=
  match b with
  | ONone => lb = BNone
  | OScalar a => lb = BScalar a
  | OVector v => exists p l, lb = BVector l /\ is_vector h v s n p l
  end.

(** The data of the bound [b], if it is a vector, are at [p] or have nothing in common with the area at [p]. *)
Definition bound_apart (h : heap D E) (p : ptr) (n : nat) (b : obound D) : Prop :=
  match b with
  | OVector v => forall vv, h_vec h v = Some vv -> same_or_apart p (v_data vv) n
  | _ => True
  end.

(** [set] is a box set of space [s] (of size [n]) with bounds [lo] and [hi]. *)
Definition is_box (h : heap D E) (set s n : nat) (lo hi : bound D E) : Prop :=
  exists b, h_box h set = Some b /\ b_space b = s /\ h_space h s = Some n /\
    is_bound h s n (b_lower b) lo /\ is_bound h s n (b_upper b) hi.
Definition box_apart (h : heap D E) (set : nat) (p : ptr) (n : nat) : Prop :=
  forall b, h_box h set = Some b -> bound_apart h p n (b_lower b) /\ bound_apart h p n (b_upper b).

(** From [h] to [h'], the elements of the vector [v] become [l] and nothing else changes (except that
    vectors that share the memory of [v] see the change). *)
Definition writes (h : heap D E) (v : nat) (l : list E) (h' : heap D E) : Prop :=
  exists s n p l0, is_vector h v s n p l0 /\ is_vector h' v s n p l /\
    same_objects h h' /\ same_outside p n (h_mem h) (h_mem h').

(** The vector [v] belongs to the space [s]. *)
Definition in_space (h : heap D E) (v s : nat) : Prop := exists p, h_vec h v = Some (mkVector s p).
End Spec.
