(** * Properties of vector operations (C04, C05, C06, C07) *)
From Coq Require Import List ZArith Bool Arith Lia Reals Lra.
From Flocq Require Import Core BinarySingleNaN.
From Verif Require Import Num NumFacts VecModel MemModel MemSpec ListFacts BoxSpec MemProofs FloatFacts Casts VecProofs VecDemo.
Import ListNotations.

(** ** C04: element access *)

(** A peek with a valid vector and address succeeds exactly for 0 <= k < n, and returns the k-th element
    as a double.  NULL arguments are refused. *)
Theorem C04_peek (D E : Num) (c : Cast D E) (h : heap D E) v s n p l k :
  is_vector h v s n p l ->
  (forall a, (0 <= k)%Z -> nth_error l (Z.to_nat k) = Some a ->
     opk_vpeek c h (Some v) k true = Some (SUCCESS, Some (up c a))) /\
  (~ (0 <= k < Z.of_nat n)%Z -> opk_vpeek c h (Some v) k true = Some (OUT_OF_BOUNDS_INDEX, None)) /\
  opk_vpeek c h None k true = Some (ILLEGAL_ADDRESS, None) /\
  opk_vpeek c h (Some v) k false = Some (ILLEGAL_ADDRESS, None).
Proof. exact (fun H => conj (proj1 (vpeek_ok c h v s n p l k H)) (conj (proj2 (vpeek_ok c h v s n p l k H)) (conj eq_refl eq_refl))). Qed.
Print Assumptions C04_peek.

(** A poke succeeds exactly for 0 <= k < n; it then changes the k-th element only (to the value converted to the
    element type); otherwise the heap is unchanged. *)
Theorem C04_poke (D E : Num) (c : Cast D E) (h : heap D E) v s n p l k value :
  is_vector h v s n p l ->
  ((0 <= k < Z.of_nat n)%Z ->
    exists h' l', opk_vpoke c h (Some v) k value = Some (SUCCESS, h') /\ writes h v l' h' /\
      forall i, nth_error l' i = if (i =? Z.to_nat k)%nat then Some (dn c value) else nth_error l i) /\
  (~ (0 <= k < Z.of_nat n)%Z -> opk_vpoke c h (Some v) k value = Some (OUT_OF_BOUNDS_INDEX, h)) /\
  opk_vpoke c h None k value = Some (ILLEGAL_ADDRESS, h).
Proof. exact (fun H => conj (proj1 (vpoke_ok c h v s n p l k value H)) (conj (proj2 (vpoke_ok c h v s n p l k value H)) eq_refl)). Qed.
Print Assumptions C04_poke.

(** A peek after a poke returns the stored value. *)
Theorem C04_peek_poke (D E : Num) (c : Cast D E) (h h' : heap D E) v s n p l k value :
  is_vector h v s n p l -> opk_vpoke c h (Some v) k value = Some (SUCCESS, h') ->
  opk_vpeek c h' (Some v) k true = Some (SUCCESS, Some (up c (dn c value))).
Proof. exact (peek_poke c h h' v s n p l k value). Qed.
Print Assumptions C04_peek_poke.

(** Import: success exactly for an array of a known type announced with the size of the vector; the elements are
    those of the array, converted; in all other cases nothing changes. *)
Theorem C04_import (D E : Num) (A : Type) (conv : A -> E) (h : heap D E) v s n p l (src : list A) type k :
  is_vector h v s n p l ->
  (type <> OTHER_TYPE -> k = Z.of_nat n -> length src = n ->
    exists h', opk_vimport conv h (Some v) (Some src) type k = Some (SUCCESS, h') /\ writes h v (map conv src) h') /\
  (k <> Z.of_nat n -> opk_vimport conv h (Some v) (Some src) type k = Some (INVALID_ARGUMENT, h)) /\
  opk_vimport conv h (Some v) (Some src) OTHER_TYPE k = Some (INVALID_ARGUMENT, h) /\
  opk_vimport conv h None (Some src) type k = Some (ILLEGAL_ADDRESS, h) /\
  opk_vimport conv h (Some v) None type k = Some (ILLEGAL_ADDRESS, h).
Proof. exact (import_spec conv h v s n p l src type k). Qed.
Print Assumptions C04_import.

(** Export: likewise. *)
Theorem C04_export (D E : Num) (A : Type) (conv : E -> A) (h : heap D E) v s n p l (dst : list A) type k :
  is_vector h v s n p l ->
  (type <> OTHER_TYPE -> k = Z.of_nat n -> length dst = n ->
    opk_vexport conv h (Some dst) type k (Some v) = Some (SUCCESS, Some (map conv l))) /\
  (k <> Z.of_nat n -> opk_vexport conv h (Some dst) type k (Some v) = Some (INVALID_ARGUMENT, Some dst)) /\
  opk_vexport conv h (Some dst) OTHER_TYPE k (Some v) = Some (INVALID_ARGUMENT, Some dst) /\
  opk_vexport conv h (Some dst) type k None = Some (ILLEGAL_ADDRESS, Some dst) /\
  opk_vexport conv h None type k (Some v) = Some (ILLEGAL_ADDRESS, None).
Proof. exact (export_spec conv h v s n p l dst type k). Qed.
Print Assumptions C04_export.

(** Importing an array then exporting it with the element type of the space (no conversion) gives the array back. *)
Theorem C04_roundtrip (D E : Num) (h h' : heap D E) v s n p l (src dst : list E) type :
  is_vector h v s n p l -> type <> OTHER_TYPE -> length src = n -> length dst = n ->
  opk_vimport (fun a => a) h (Some v) (Some src) type (Z.of_nat n) = Some (SUCCESS, h') ->
  opk_vexport (fun a => a) h' (Some dst) type (Z.of_nat n) (Some v) = Some (SUCCESS, Some src).
Proof. exact (roundtrip h h' v s n p l src dst type). Qed.
Print Assumptions C04_roundtrip.

Example C04_example : forall N : Num, exists h',
  opk_vpoke (cast_id N) (demo N) (Some 10) 2 (nZ 9) = Some (SUCCESS, h') /\
  opk_vpeek (cast_id N) h' (Some 12) 2 true = Some (SUCCESS, Some (nZ 9)) /\
  opk_vpoke (cast_id N) (demo N) (Some 10) 3 (nZ 9) = Some (OUT_OF_BOUNDS_INDEX, demo N).
Proof. intros N. eexists. split; [reflexivity|]. split; reflexivity. Qed.

(** ** C05: linear combinations *)

(** In exact arithmetic: dst receives the mathematical combination, for all coefficients, also when dst is an operand or
    when operands coincide.  [writes] says that nothing else changes. *)
Theorem C05_scale_exact (H I : R) (h : heap (NumR H I) (NumR H I)) dst x s n pd px ld lx (alpha : R) :
  is_vector h dst s n pd ld -> is_vector h x s n px lx -> same_or_apart pd px n ->
  exists h', opk_vscale (cast_id _) h (Some dst) alpha (Some x) = Some (OK, h') /\
             writes h dst (map (fun a => alpha * a)%R (lx : list R)) h'.
Proof. exact (vscale_exact H I h dst x s n pd px ld lx alpha). Qed.
Print Assumptions C05_scale_exact.

Theorem C05_axpby_exact (H I : R) (h : heap (NumR H I) (NumR H I)) dst x y s n pd px py ld lx ly (alpha beta : R) :
  is_vector h dst s n pd ld -> is_vector h x s n px lx -> is_vector h y s n py ly ->
  same_or_apart pd px n -> same_or_apart pd py n ->
  exists h', opk_vaxpby (cast_id _) h (Some dst) alpha (Some x) beta (Some y) = Some (OK, h') /\
             writes h dst (map2 (fun a b => alpha * a + beta * b)%R (lx : list R) (ly : list R)) h'.
Proof. exact (vaxpby_exact H I h dst x y s n pd px py ld lx ly alpha beta). Qed.
Print Assumptions C05_axpby_exact.

Theorem C05_axpbypcz_exact (H I : R) (h : heap (NumR H I) (NumR H I)) dst x y z s n pd px py pz ld lx ly lz (alpha beta gamma : R) :
  is_vector h dst s n pd ld -> is_vector h x s n px lx -> is_vector h y s n py ly -> is_vector h z s n pz lz ->
  same_or_apart pd px n -> same_or_apart pd py n -> same_or_apart pd pz n ->
  exists h', opk_vaxpbypcz (cast_id _) h (Some dst) alpha (Some x) beta (Some y) gamma (Some z) = Some (OK, h') /\
             writes h dst (map3 (fun a b e => alpha * a + beta * b + gamma * e)%R (lx : list R) (ly : list R) (lz : list R)) h'.
Proof. exact (vaxpbypcz_exact H I h dst x y z s n pd px py pz ld lx ly lz alpha beta gamma). Qed.
Print Assumptions C05_axpbypcz_exact.

(** IEEE arithmetic, double precision vectors: with finite elements, each component of the result is that of the general
    formula (product and sums rounded to nearest), except perhaps for the sign of a zero.  No hypothesis on the
    coefficients. *)
Notation "x +d y" := (@Bplus 53 1024 Hp53 Hm53 mode_NE x y) (at level 50, left associativity).
Notation "x *d y" := (@Bmult 53 1024 Hp53 Hm53 mode_NE x y) (at level 40, left associativity).
Notation "x +s y" := (@Bplus 24 128 Hp24 Hm24 mode_NE x y) (at level 50, left associativity).
Notation "x *s y" := (@Bmult 24 128 Hp24 Hm24 mode_NE x y) (at level 40, left associativity).

Definition all_finite {p e : Z} (l : list (binary_float p e)) : Prop := forall i a, nth_error l i = Some a -> is_finite a = true.

Theorem C05_double (h : heap NumD NumD) dst x y z s n pd px py pz ld lx ly lz (alpha beta gamma : NumD) :
  is_vector h dst s n pd ld -> is_vector h x s n px lx -> is_vector h y s n py ly -> is_vector h z s n pz lz ->
  same_or_apart pd px n -> same_or_apart pd py n -> same_or_apart pd pz n ->
  all_finite lx -> all_finite ly -> all_finite lz ->
  (exists h' r, opk_vscale cast_DD h (Some dst) alpha (Some x) = Some (OK, h') /\ writes h dst r h' /\
    forall i a b, nth_error lx i = Some a -> nth_error r i = Some b -> eqz 53 1024 b (alpha *d a)) /\
  (exists h' r, opk_vaxpby cast_DD h (Some dst) alpha (Some x) beta (Some y) = Some (OK, h') /\ writes h dst r h' /\
    forall i a1 a2 b, nth_error lx i = Some a1 -> nth_error ly i = Some a2 -> nth_error r i = Some b ->
      eqz 53 1024 b (alpha *d a1 +d beta *d a2)) /\
  (exists h' r, opk_vaxpbypcz cast_DD h (Some dst) alpha (Some x) beta (Some y) gamma (Some z) = Some (OK, h') /\ writes h dst r h' /\
    forall i a1 a2 a3 b, nth_error lx i = Some a1 -> nth_error ly i = Some a2 -> nth_error lz i = Some a3 -> nth_error r i = Some b ->
      eqz 53 1024 b (alpha *d a1 +d beta *d a2 +d gamma *d a3)).
Proof. exact (lincomb_F 53 1024 Hp53 Hm53 cast_DD unit_cast_DD h dst x y z s n pd px py pz ld lx ly lz alpha beta gamma). Qed.
Print Assumptions C05_double.

(** Single precision vectors: the coefficients (doubles) are rounded to single precision first. *)
Definition to_float : binary_float 53 1024 -> binary_float 24 128 := conv 53 1024 24 128 Hp24 Hm24.

Theorem C05_single (h : heap NumD NumS) dst x y z s n pd px py pz ld lx ly lz (alpha beta gamma : NumD) :
  is_vector h dst s n pd ld -> is_vector h x s n px lx -> is_vector h y s n py ly -> is_vector h z s n pz lz ->
  same_or_apart pd px n -> same_or_apart pd py n -> same_or_apart pd pz n ->
  all_finite lx -> all_finite ly -> all_finite lz ->
  (exists h' r, opk_vscale cast_DS h (Some dst) alpha (Some x) = Some (OK, h') /\ writes h dst r h' /\
    forall i a b, nth_error lx i = Some a -> nth_error r i = Some b -> eqz 24 128 b (to_float alpha *s a)) /\
  (exists h' r, opk_vaxpby cast_DS h (Some dst) alpha (Some x) beta (Some y) = Some (OK, h') /\ writes h dst r h' /\
    forall i a1 a2 b, nth_error lx i = Some a1 -> nth_error ly i = Some a2 -> nth_error r i = Some b ->
      eqz 24 128 b (to_float alpha *s a1 +s to_float beta *s a2)) /\
  (exists h' r, opk_vaxpbypcz cast_DS h (Some dst) alpha (Some x) beta (Some y) gamma (Some z) = Some (OK, h') /\ writes h dst r h' /\
    forall i a1 a2 a3 b, nth_error lx i = Some a1 -> nth_error ly i = Some a2 -> nth_error lz i = Some a3 -> nth_error r i = Some b ->
      eqz 24 128 b (to_float alpha *s a1 +s to_float beta *s a2 +s to_float gamma *s a3)).
Proof. exact (lincomb_F 24 128 Hp24 Hm24 cast_DS unit_cast_DS h dst x y z s n pd px py pz ld lx ly lz alpha beta gamma). Qed.
Print Assumptions C05_single.

(** Operands other than dst: a vector whose data are apart from those of dst is the same after an operation that [writes] dst. *)
Theorem C05_operands_unchanged (D E : Num) (h h' : heap D E) dst l v s n p lv sd nd pd ld :
  is_vector h dst sd nd pd ld -> writes h dst l h' -> is_vector h v s n p lv ->
  (forall b o, in_area pd nd b o -> ~ in_area p n b o) -> is_vector h' v s n p lv.
Proof. exact (fun Hd Hw Hv => writes_frame h h' dst l v s n p lv sd nd pd Hw Hv (proj1 Hd) (proj1 (proj2 Hd))). Qed.
Print Assumptions C05_operands_unchanged.

(** Copy, exchange, fill and product (any arithmetic). *)
Theorem C05_copy_swap_fill_product (D E : Num) (c : Cast D E) (h : heap D E) x y z s n px py pz lx ly lz (alpha : D) :
  is_vector h x s n px lx -> is_vector h y s n py ly -> is_vector h z s n pz lz ->
  same_or_apart px py n -> same_or_apart px pz n ->
  (exists h', opk_vcopy h (Some x) (Some y) = Some (OK, h') /\ writes h x ly h') /\
  (exists h', opk_vswap h (Some x) (Some y) = Some (OK, h') /\ same_objects h h' /\
      is_vector h' x s n px ly /\ is_vector h' y s n py lx /\
      (forall b o, ~ in_area px n b o -> ~ in_area py n b o -> h_mem h' b o = h_mem h b o)) /\
  (exists h', opk_vfill c h (Some x) alpha = Some (OK, h') /\
      writes h x (repeat (if neq alpha (nZ 0) then nZ 0 else dn c alpha) n) h') /\
  (exists h', opk_vproduct h (Some x) (Some y) (Some z) = Some (OK, h') /\ writes h x (map2 nmul ly lz) h').
Proof. exact (other_ops c h x y z s n px py pz lx ly lz alpha). Qed.
Print Assumptions C05_copy_swap_fill_product.

(** The hypotheses hold for x := alpha*x + beta*y + gamma*x in place, with two vectors sharing their data. *)
Example C05_example : forall H I : R, exists h',
  opk_vaxpbypcz (cast_id _) (demo (NumR H I)) (Some 10) 2%R (Some 12) 1%R (Some 11) 0%R (Some 10) = Some (OK, h') /\
  writes (demo (NumR H I)) 10 [2 * 1 + 1 * 0 + 0 * 1; 2 * -2 + 1 * 3 + 0 * -2; 2 * 7 + 1 * -1 + 0 * 7]%R h'.
Proof.
  intros H I. exact (C05_axpbypcz_exact H I (demo _) 10 12 11 10 0 3 _ _ _ _ _ _ _ _ 2 1 0
    (demo_10 _) (demo_12 _) (demo_11 _) (demo_10 _) (demo_same 0) (demo_apart 0 1 ltac:(discriminate)) (demo_same 0)).
Qed.

(** ** C06: vectors of different spaces *)

Theorem C06_different_spaces (D E : Num) (c : Cast D E) (h : heap D E) x y z w s1 s2 s3 s4 a b g :
  in_space h x s1 -> in_space h y s2 -> in_space h z s3 -> in_space h w s4 ->
  let refused (r : option (report * heap D E)) := r = Some (BAD_VECTORS, h) in
  (s1 <> s2 ->
    refused (opk_vcopy h (Some x) (Some y)) /\
    refused (opk_vswap h (Some x) (Some y)) /\
    refused (opk_vscale c h (Some x) a (Some y)) /\
    opk_vdot c h (Some x) (Some y) = Some (BAD_VECTORS, nZ 0)) /\
  (~ (s1 = s2 /\ s1 = s3) ->
    opk_vdot3 c h (Some x) (Some y) (Some z) = Some (BAD_VECTORS, nZ 0) /\
    refused (opk_vproduct h (Some x) (Some y) (Some z)) /\
    refused (opk_vaxpby c h (Some x) a (Some y) b (Some z))) /\
  (~ (s1 = s2 /\ s1 = s3 /\ s1 = s4) ->
    refused (opk_vaxpbypcz c h (Some x) a (Some y) b (Some z) g (Some w))).
Proof. exact (different_spaces c h x y z w s1 s2 s3 s4 a b g). Qed.
Print Assumptions C06_different_spaces.

(** Projections: if the variables, the direction or the result is not in the space of the box: OPK_BAD_SPACE, no effect.
    A NULL argument gives OPK_ILLEGAL_ADDRESS, no effect. *)
Theorem C06_projections (D E : Num) (c : Cast D E) (h : heap D E) dst x d set b sd sx sdir orient :
  in_space h dst sd -> in_space h x sx -> in_space h d sdir -> h_box h set = Some b ->
  (sd <> b_space b \/ sx <> b_space b ->
     opk_project_variables c h (Some dst) (Some x) (Some set) = Some (BAD_SPACE, h)) /\
  (sd <> b_space b \/ sx <> b_space b \/ sdir <> b_space b ->
     opk_project_direction c h (Some dst) (Some x) (Some set) (Some d) orient = Some (BAD_SPACE, h) /\
     opk_get_free_variables c h (Some dst) (Some x) (Some set) (Some d) orient = Some (BAD_SPACE, h)) /\
  (sx <> b_space b \/ sdir <> b_space b ->
     opk_get_step_limits c h (Some x) (Some set) (Some d) orient = Some (BAD_SPACE, None)).
Proof. exact (projections_refused c h dst x d set b sd sx sdir orient). Qed.
Print Assumptions C06_projections.

Theorem C06_null (D E : Num) (c : Cast D E) (h : heap D E) (dst x set d : optr) orient :
  (dst = None \/ x = None \/ set = None -> opk_project_variables c h dst x set = Some (ILLEGAL_ADDRESS, h)) /\
  (dst = None \/ x = None \/ set = None \/ d = None ->
     opk_project_direction c h dst x set d orient = Some (ILLEGAL_ADDRESS, h) /\
     opk_get_free_variables c h dst x set d orient = Some (ILLEGAL_ADDRESS, h)) /\
  (x = None \/ set = None \/ d = None -> opk_get_step_limits c h x set d orient = Some (ILLEGAL_ADDRESS, None)).
Proof. exact (projections_null c h dst x set d orient). Qed.
Print Assumptions C06_null.

Example C06_example : forall N : Num, in_space (demo N) 10 0 /\ in_space (demo N) 13 1 /\ (0 <> 1)%nat /\
  opk_vcopy (demo N) (Some 10) (Some 13) = Some (BAD_VECTORS, demo N) /\
  opk_project_variables (cast_id N) (demo N) (Some 13) (Some 10) (Some 20) = Some (BAD_SPACE, demo N).
Proof. intros N. split; [eexists; reflexivity|]. split; [eexists; reflexivity|]. split; [discriminate|]. split; reflexivity. Qed.

(** ** C07: dot products and norms in exact arithmetic *)

Section C07.
Variables H I : R.
Notation N := (NumR H I).
Notation c := (cast_id N).
Local Open Scope R_scope.

(** The values are the sum of products, the sum and the maximum of absolute values, the square root of the sum of squares. *)
Theorem C07_values (h : heap N N) w x y s n pw px py (lw lx ly : list R) :
  is_vector h w s n pw lw -> is_vector h x s n px lx -> is_vector h y s n py ly ->
  opk_vdot c h (Some x) (Some y) = Some (OK, rsum (map2 Rmult lx ly)) /\
  opk_vdot3 c h (Some w) (Some x) (Some y) = Some (OK, rsum (map3 (fun a b e => a * b * e) lw lx ly)) /\
  opk_vnorm1 c h (Some x) = Some (rsum (map Rabs lx)) /\
  opk_vnorm2 c h (Some x) = Some (R_sqrt.sqrt (rsum (map (fun a => a * a) lx))) /\
  exists m, opk_vnorminf c h (Some x) = Some m /\
    (forall a, In a lx -> Rabs a <= m) /\ (lx = [] -> m = 0) /\ (lx <> [] -> exists a, In a lx /\ Rabs a = m).
Proof. exact (dot_values H I h w x y s n pw px py lw lx ly). Qed.

(** Symmetry, bilinearity, norm2^2 = dot(x,x), the ordering of the norms and the Cauchy-Schwarz inequality. *)
Theorem C07_laws (h : heap N N) x y z s n px py pz (lx ly lz : list R) (a b : R) dxy dyx dzy dxx n1 n2 n2y ni dlin h' pd dst ld :
  is_vector h x s n px lx -> is_vector h y s n py ly -> is_vector h z s n pz lz ->
  is_vector h dst s n pd ld -> same_or_apart pd px n -> same_or_apart pd pz n ->
  (forall bl o, in_area pd n bl o -> ~ in_area py n bl o) ->
  opk_vdot c h (Some x) (Some y) = Some (OK, dxy) -> opk_vdot c h (Some y) (Some x) = Some (OK, dyx) ->
  opk_vdot c h (Some z) (Some y) = Some (OK, dzy) -> opk_vdot c h (Some x) (Some x) = Some (OK, dxx) ->
  opk_vnorm1 c h (Some x) = Some n1 -> opk_vnorm2 c h (Some x) = Some n2 -> opk_vnorminf c h (Some x) = Some ni ->
  opk_vnorm2 c h (Some y) = Some n2y ->
  (* dst = a*x + b*z *)
  opk_vaxpby c h (Some dst) a (Some x) b (Some z) = Some (OK, h') ->
  opk_vdot c h' (Some dst) (Some y) = Some (OK, dlin) ->
  dxy = dyx /\ dlin = a * dxy + b * dzy /\ n2 * n2 = dxx /\ 0 <= ni <= n2 /\ n2 <= n1 /\ Rabs dxy <= n2 * n2y /\
  (n2 = 0 -> forall i e, nth_error lx i = Some e -> e = 0).
Proof. exact (dot_laws H I h x y z s n px py pz lx ly lz a b dxy dyx dzy dxx n1 n2 n2y ni dlin h' pd dst ld). Qed.
End C07.
Print Assumptions C07_values.
Print Assumptions C07_laws.

Example C07_example : forall H I : R,
  opk_vdot (cast_id _) (demo (NumR H I)) (Some 10) (Some 11) = Some (OK, (1 * 0 + (-2 * 3 + (7 * -1 + 0)))%R).
Proof.
  intros H I. exact (proj1 (C07_values H I (demo _) 10 10 11 0 3 _ _ _ _ _ _ (demo_10 _) (demo_10 _) (demo_11 _))).
Qed.
