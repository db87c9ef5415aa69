(** * Vector spaces and convex sets as seen by the optimizers

    The optimizers (vmlmb.c, nlcg.c) only use vectors through the operations of optimpack.h.  They are modelled over
    a record of operations: the implementation of the vectors is arbitrary, as in the C code where it is given by
    tables of functions ([opk_vspace_operations], [opk_convexset]).  The records carry no law.

    Simplifications: the vectors given by the caller belong to the space of the optimizer (otherwise the operations
    call [opk_error] and do nothing, see [MemModel]) and share no memory with the vectors of the optimizer. *)
From Coq Require Import List ZArith Bool Arith.
From Verif Require Import Num VecModel Base ListFacts BoxSpec BoxProofs.
Import ListNotations.
Local Open Scope num_scope.

(** The values returned or stored by the functions of algebra.c 280-454. *)
Record Space (N : Num) := mkSpace {
  vec       :> Type;
  vzeros    : vec;                                        (** contents of a new vector, opk_vcreate *)
  vdot      : vec -> vec -> N;                            (** opk_vdot *)
  vdot3     : vec -> vec -> vec -> N;                     (** opk_vdot3 *)
  vnorm2    : vec -> N;                                   (** opk_vnorm2 *)
  vproduct  : vec -> vec -> vec;                          (** opk_vproduct *)
  vscale    : N -> vec -> vec;                            (** opk_vscale *)
  vaxpby    : N -> vec -> N -> vec -> vec;                (** opk_vaxpby *)
  vaxpbypcz : N -> vec -> N -> vec -> N -> vec -> vec     (** opk_vaxpbypcz *)
}.
Arguments vec {_} _.
Arguments vzeros {_ _}.
Arguments vdot {_ _} _ _.
Arguments vdot3 {_ _} _ _ _.
Arguments vnorm2 {_ _} _.
Arguments vproduct {_ _} _ _.
Arguments vscale {_ _} _ _.
Arguments vaxpby {_ _} _ _ _ _.
Arguments vaxpbypcz {_ _} _ _ _ _ _ _.

(** A convex set, algebra.c 456-625 (struct _opk_convexset of optimpack-private.h): each function returns a status
    and the contents of its destination after the call.  The destination of the projections is one of their arguments
    in all the calls made by the optimizers.  The orientation is always OPK_ASCENT. *)
Record Convex {N : Num} (S : Space N) := mkConvex {
  projvar : S -> status * S;                      (** opk_project_variables(x, x, set) *)
  projdir : S -> S -> status * S;                 (** opk_project_direction(d, x, set, d, OPK_ASCENT), arguments x d *)
  freevar : S -> S -> status * S;                 (** opk_get_free_variables(w, x, set, g, OPK_ASCENT), arguments x g *)
  steplim : S -> S -> status * option (N * N * N) (** opk_get_step_limits, arguments x d; [None] if nothing is stored *)
}.
Arguments projvar {_ _} _ _.
Arguments projdir {_ _} _ _ _.
Arguments freevar {_ _} _ _ _.
Arguments steplim {_ _} _ _ _.

(** ** Simple vectors (simple_vector.c), called through algebra.c *)
Section Lists.
Context {D E : Num} (c : Cast D E) (n : nat).

(** algebra.c 294-310 [opk_vscale] *)
Definition l_scale (alpha : D) (x : list E) : list E :=
  if alpha =? nZ 1 then x
  else if alpha =? nZ 0 then k_fill c n (nZ 0)
  else k_scale c alpha x.

(** algebra.c 389-411 [opk_vaxpby] *)
Definition l_axpby (alpha : D) (x : list E) (beta : D) (y : list E) : list E :=
  if alpha =? nZ 0 then
    if beta =? nZ 0 then k_fill c n (nZ 0) else k_scale c beta y
  else
    if beta =? nZ 0 then k_scale c alpha x else k_axpby c alpha x beta y.

(** algebra.c 415-454 [opk_vaxpbypcz] *)
Definition l_axpbypcz (alpha : D) (x : list E) (beta : D) (y : list E) (gamma : D) (z : list E) : list E :=
  if alpha =? nZ 0 then
    if beta =? nZ 0 then
      if gamma =? nZ 0 then k_fill c n (nZ 0) else k_scale c gamma z
    else
      if gamma =? nZ 0 then k_scale c beta y else k_axpby c beta y gamma z
  else
    if beta =? nZ 0 then
      if gamma =? nZ 0 then k_scale c alpha x else k_axpby c alpha x gamma z
    else
      if gamma =? nZ 0 then k_axpby c alpha x beta y else k_axpbypcz c alpha x beta y gamma z.

Lemma l_scale_length alpha x : length x = n -> length (l_scale alpha x) = n.
Proof. intros. unfold l_scale. destruct (_ =? _); auto. destruct (_ =? _); [apply repeat_length|unfold k_scale; rewrite map_length; auto]. Qed.
Lemma l_axpby_length alpha x beta y : length x = n -> length y = n -> length (l_axpby alpha x beta y) = n.
Proof.
  intros. unfold l_axpby. destruct (_ =? _), (_ =? _); try apply repeat_length; unfold k_scale; rewrite ?map_length; auto.
  apply map2_length; auto.
Qed.
Lemma l_axpbypcz_length alpha x beta y gamma z : length x = n -> length y = n -> length z = n ->
  length (l_axpbypcz alpha x beta y gamma z) = n.
Proof.
  intros. unfold l_axpbypcz. destruct (_ =? _), (_ =? _), (_ =? _); try apply repeat_length; unfold k_scale; rewrite ?map_length; auto;
  try (apply map2_length; auto; fail). apply map3_length; auto.
Qed.

(** The vectors of [n] elements. *)
Definition lvec : Type := { l : list E | length l = n }.
Definition elts (v : lvec) : list E := proj1_sig v.

(** The space of the vectors of [n] elements.  simple_vector.c 255-263 is the copy, that is the identity. *)
Definition list_space : Space D := mkSpace D lvec
  (exist _ (repeat (nZ 0) n) (repeat_length _ n))
  (fun x y => k_dot c (elts x) (elts y))
  (fun w x y => k_dot3 c (elts w) (elts x) (elts y))
  (fun x => k_norm2 c (elts x))
  (fun w x => exist _ (k_product (elts w) (elts x)) (map2_length _ _ _ n (proj2_sig w) (proj2_sig x)))
  (fun a x => exist _ (l_scale a (elts x)) (l_scale_length a _ (proj2_sig x)))
  (fun a x b y => exist _ (l_axpby a (elts x) b (elts y)) (l_axpby_length a _ b _ (proj2_sig x) (proj2_sig y)))
  (fun a x b y g z => exist _ (l_axpbypcz a (elts x) b (elts y) g (elts z))
     (l_axpbypcz_length a _ b _ g _ (proj2_sig x) (proj2_sig y) (proj2_sig z))).

(** algebra.c 682-737: a box whose vector bounds are in the space; with vectors of the right space the functions succeed. *)
Section Box.
Context (lo hi : bound D E) (Hlo : bound_size n lo) (Hhi : bound_size n hi).
Lemma box_projvar_length (x : lvec) : length (k_boxprojvar c lo hi (elts x)) = n.
Proof. destruct x as [x Hx]. simpl. rewrite projvar_length; rewrite Hx; auto. Qed.
Lemma box_projdir_length (x d : lvec) : length (k_boxprojdir c false lo hi (elts x) (elts d)) = n.
Proof. destruct x as [x Hx], d as [d Hd]. simpl. rewrite projdir_length; rewrite Hx; auto. Qed.
Lemma box_freevar_length (x d : lvec) : length (k_boxfreevar c false lo hi (elts x) (elts d)) = n.
Proof. destruct x as [x Hx], d as [d Hd]. simpl. rewrite freevar_length; rewrite Hx; auto. Qed.

Definition list_box : Convex list_space := mkConvex D list_space
  (fun x => (SUCCESS, exist _ (k_boxprojvar c lo hi (elts x)) (box_projvar_length x)))
  (fun x d => (SUCCESS, exist _ (k_boxprojdir c false lo hi (elts x) (elts d)) (box_projdir_length x d)))
  (fun x g => (SUCCESS, exist _ (k_boxfreevar c false lo hi (elts x) (elts g)) (box_freevar_length x g)))
  (fun x d => (SUCCESS, Some (k_boxsteplim c false lo hi (elts x) (elts d)))).
End Box.

(** Two vectors with the same elements are equal. *)
Lemma elts_eq (v w : lvec) : elts v = elts w -> v = w.
Proof.
  destruct v as [v Hv], w as [w Hw]. simpl. intros E1. subst w. f_equal. apply Eqdep_dec.UIP_dec. apply Nat.eq_dec.
Qed.
End Lists.
Arguments elts {_ _} _.

(** ** Arrays of pointers or numbers, indexed by opk_index; [None]: access outside of the array *)
Definition nthZ {A : Type} (l : list A) (k : Z) : option A :=
  if (k <? 0)%Z then None else nth_error l (Z.to_nat k).
Fixpoint set_nat {A : Type} (l : list A) (k : nat) (a : A) : option (list A) :=
  match l, k with
  | [], _ => None
  | _ :: l, O => Some (a :: l)
  | b :: l, S k => do l' <- set_nat l k a; Some (b :: l')
  end.
Definition setZ {A : Type} (l : list A) (k : Z) (a : A) : option (list A) :=
  if (k <? 0)%Z then None else set_nat l (Z.to_nat k) a.
