(** * Properties of box constraints (C09, C10, C11, C12) *)
From Coq Require Import List ZArith Bool Arith Lia Reals Lra.
From Flocq Require Import Core BinarySingleNaN.
From Verif Require Import Num NumFacts VecModel MemModel MemSpec ListFacts BoxSpec OrdFacts BoxProofs BoxRProofs MemProofs FloatFacts Casts VecProofs VecDemo BoxFinal.
Import ListNotations.

(** ** C09: projection of the variables

    For every arithmetic whose comparisons behave as in IEEE 754 ([OrdLaws]: NumS, NumD, exact reals, see C09_ieee), every
    kind of bounds.  [same_or_apart pd px n] allows working in place. *)
Theorem C09_projection (D E : Num) (c : Cast D E) (O : OrdLaws E) (h : heap D E) dst x set s n pd px ld lx lo hi :
  is_vector h dst s n pd ld -> is_vector h x s n px lx -> is_box h set s n lo hi ->
  same_or_apart pd px n -> box_apart h set pd n ->
  good_box c n lo hi -> (forall i xi, nth_error lx i = Some xi -> is_num xi) ->
  exists h' p, opk_project_variables c h (Some dst) (Some x) (Some set) = Some (SUCCESS, h') /\ writes h dst p h' /\
    (* inside the bounds; unchanged where x was inside; equal to the violated bound elsewhere *)
    feasible c lo hi p /\ is_projection c lo hi lx p /\
    (* nearest: between x and every feasible point *)
    (forall i xi pi z, nth_error lx i = Some xi -> nth_error p i = Some pi -> is_num z -> inside c lo hi i z ->
       ((xi <=? pi)%num = true /\ (pi <=? z)%num = true) \/ ((z <=? pi)%num = true /\ (pi <=? xi)%num = true)) /\
    (* idempotent *)
    (is_box h' set s n lo hi -> exists h'', opk_project_variables c h' (Some dst) (Some dst) (Some set) = Some (SUCCESS, h'') /\
       writes h' dst p h'').
Proof. exact (project_variables_final c O h dst x set s n pd px ld lx lo hi). Qed.
Print Assumptions C09_projection.

(** The arithmetics of C float, C double and the exact reals satisfy [OrdLaws]. *)
Theorem C09_ieee : inhabited (OrdLaws NumS) /\ inhabited (OrdLaws NumD) /\ forall H I, inhabited (OrdLaws (NumR H I)).
Proof. exact (conj (inhabits OrdS) (conj (inhabits OrdD) (fun H I => inhabits (OrdR H I)))). Qed.
Print Assumptions C09_ieee.

(** In exact arithmetic the projection is the closest feasible point. *)
Theorem C09_nearest (H I : R) lo hi (x p z : list R) :
  is_projection (cast_id (NumR H I)) lo hi (x : list (NumR H I)) p ->
  length z = length x -> feasible (cast_id (NumR H I)) lo hi (z : list (NumR H I)) ->
  (rsum (map2 (fun a b => (a - b) * (a - b)) x p) <= rsum (map2 (fun a b => (a - b) * (a - b)) x z))%R.
Proof. exact (projection_nearest H I lo hi x p z). Qed.
Print Assumptions C09_nearest.

Example C09_example : exists h' p,
  opk_project_variables cast_DD (demo NumD) (Some 10) (Some 12) (Some 20) = Some (SUCCESS, h') /\
  writes (demo NumD) 10 p h' /\ feasible cast_DD (BVector [nZ 0; nZ 0; nZ 1]) (BScalar (nZ 5)) p.
Proof.
  assert (G : good_box cast_DD 3 (BVector [nZ 0; nZ 0; nZ 1]) (BScalar (nZ 5))).
  { split; [reflexivity|]. split; [exact Logic.I|]. split; [|split].
    - intros [|[|[|i]]] a Ha; try (injection Ha as <-; reflexivity). simpl in Ha. destruct i; discriminate.
    - intros i b Hb. injection Hb as <-. reflexivity.
    - intros i a b Hi Ha Hb. injection Hb as <-. destruct i as [|[|[|i]]]; [| | |lia]; injection Ha as <-; reflexivity. }
  destruct (C09_projection NumD NumD cast_DD OrdD (demo NumD) 10 12 20 0 3 _ _ _ _ _ _
    (demo_10 _) (demo_12 _) (demo_box _) (demo_same 0) (demo_box_apart _ 0 ltac:(discriminate)) G) as (h' & p & E1 & W & F & _).
  - intros [|[|[|i]]] a Ha; try (injection Ha as <-; reflexivity). simpl in Ha. destruct i; discriminate.
  - exists h', p. auto.
Qed.

(** A scalar bound is a double which is first rounded to the type of the elements: with single precision variables the
    result may be outside of the bound given by the user (0.1 here; 1 is projected to the float nearest to 0.1). *)
Theorem C09_single_scalar_bound_refuted : exists (b : NumD) (x p : NumS),
  k_boxprojvar cast_DS BNone (BScalar b) [x] = [p] /\ (up cast_DS p >? b)%num = true.
Proof. exists (nQ 1 10), (nZ 1). eexists. split; [reflexivity|]. vm_compute. reflexivity. Qed.
Print Assumptions C09_single_scalar_bound_refuted.

(** ** C10: projection of the direction *)
Theorem C10_direction (D E : Num) (c : Cast D E) (O : OrdLaws E) (h : heap D E) dst x set d s n pd px pdir ld lx ldir lo hi orient :
  is_vector h dst s n pd ld -> is_vector h x s n px lx -> is_vector h d s n pdir ldir -> is_box h set s n lo hi ->
  same_or_apart pd px n -> same_or_apart pd pdir n -> box_apart h set pd n ->
  is_num (nZ 0 : E) -> good_box c n lo hi ->
  (forall i xi, nth_error lx i = Some xi -> is_num xi) -> (forall i di, nth_error ldir i = Some di -> is_num di) ->
  exists h' p, opk_project_direction c h (Some dst) (Some x) (Some set) (Some d) orient = Some (SUCCESS, h') /\ writes h dst p h' /\
    forall i xi di pi, nth_error lx i = Some xi -> nth_error ldir i = Some di -> nth_error p i = Some pi ->
      (blocked c (is_desc orient) lo hi i xi di -> pi = nZ 0) /\
      (~ blocked c (is_desc orient) lo hi i xi di -> pi = di \/ (di =? nZ 0)%num = true /\ pi = nZ 0).
Proof. exact (project_direction_final c O h dst x set d s n pd px pdir ld lx ldir lo hi orient). Qed.
Print Assumptions C10_direction.

(** Exact arithmetic: small steps along the projected direction are feasible; <p,d> = <p,p> >= 0. *)
Theorem C10_feasible_steps (H I : R) (h : heap (NumR H I) (NumR H I)) dst x set d s n pd px pdir ld lx ldir lo hi orient :
  is_vector h dst s n pd ld -> is_vector h x s n px lx -> is_vector h d s n pdir ldir -> is_box h set s n lo hi ->
  same_or_apart pd px n -> same_or_apart pd pdir n -> box_apart h set pd n ->
  feasible (cast_id _) lo hi lx ->
  exists h' (p : list (NumR H I)), opk_project_direction (cast_id _) h (Some dst) (Some x) (Some set) (Some d) orient = Some (SUCCESS, h') /\ writes h dst p h' /\
    (exists eps, (0 < eps)%R /\ forall al, (0 <= al <= eps)%R -> feasible (cast_id _) lo hi (moved (is_desc orient) al lx p : list (NumR H I))) /\
    (0 <= rsum (map2 Rmult (p : list R) (ldir : list R)))%R /\
    rsum (map2 Rmult (p : list R) (ldir : list R)) = rsum (map2 Rmult (p : list R) (p : list R)).
Proof. exact (project_direction_R H I h dst x set d s n pd px pdir ld lx ldir lo hi orient). Qed.
Print Assumptions C10_feasible_steps.

(** The point (2,2,2) of the demonstration heap is in the box [0,5]x[0,5]x[1,5]. *)
Lemma demo_feasible (H I : R) : feasible (cast_id (NumR H I)) (BVector [nZ 0; nZ 0; nZ 1]) (BScalar (nZ 5)) [nZ 2; nZ 2; nZ 2].
Proof.
  intros [|[|[|i]]] xi Hx; try (destruct i; discriminate); injection Hx as <-;
    (split; intros a Ha; injection Ha as <-; apply Rle_bool_true; simpl; lra).
Qed.

Example C10_example (H I : R) : exists h' (p : list (NumR H I)),
  opk_project_direction (cast_id _) (demo (NumR H I)) (Some 10) (Some 15) (Some 20) (Some 11) DESCENT = Some (SUCCESS, h') /\
  writes (demo (NumR H I)) 10 p h'.
Proof.
  destruct (C10_feasible_steps H I (demo _) 10 15 20 11 0 3 _ _ _ _ _ _ _ _ DESCENT (demo_10 _) (demo_15 _) (demo_11 _) (demo_box _)
    (demo_apart 0 4 ltac:(discriminate)) (demo_apart 0 1 ltac:(discriminate)) (demo_box_apart _ 0 ltac:(discriminate))
    (demo_feasible H I)) as (h' & p & E1 & W & _). exists h', p. auto.
Qed.

(** ** C11: free variables

    Partial: the property as stated fails for a box without any bound and a direction with a zero component
    (C11_free_variables_refuted); it holds in all other cases (no NaN in the direction). *)
Theorem C11_free_variables_partial (D E : Num) (c : Cast D E) (O : OrdLaws E) (h : heap D E) dst x set d s n pd px pdir ld lx ldir lo hi orient :
  is_vector h dst s n pd ld -> is_vector h x s n px lx -> is_vector h d s n pdir ldir -> is_box h set s n lo hi ->
  same_or_apart pd px n -> same_or_apart pd pdir n -> box_apart h set pd n ->
  is_num (nZ 0 : E) ->
  (lo = BNone -> hi = BNone -> forall i di, nth_error ldir i = Some di -> (di =? nZ 0)%num = false) ->
  (forall i di, nth_error ldir i = Some di -> is_num di) ->
  exists h1 h2 p f,
    opk_project_direction c h (Some dst) (Some x) (Some set) (Some d) orient = Some (SUCCESS, h1) /\ writes h dst p h1 /\
    opk_get_free_variables c h (Some dst) (Some x) (Some set) (Some d) orient = Some (SUCCESS, h2) /\ writes h dst f h2 /\
    forall i pi fi, nth_error p i = Some pi -> nth_error f i = Some fi ->
      (fi = nZ 1 /\ (pi =? nZ 0)%num = false) \/ (fi = nZ 0 /\ (pi =? nZ 0)%num = true).
Proof. exact (free_variables_final c O h dst x set d s n pd px pdir ld lx ldir lo hi orient). Qed.
Print Assumptions C11_free_variables_partial.

Example C11_example : exists h1 h2 p f,
  opk_project_direction cast_DD (demo NumD) (Some 10) (Some 15) (Some 20) (Some 11) ASCENT = Some (SUCCESS, h1) /\ writes (demo NumD) 10 p h1 /\
  opk_get_free_variables cast_DD (demo NumD) (Some 10) (Some 15) (Some 20) (Some 11) ASCENT = Some (SUCCESS, h2) /\ writes (demo NumD) 10 f h2.
Proof.
  destruct (C11_free_variables_partial NumD NumD cast_DD OrdD (demo _) 10 15 20 11 0 3 _ _ _ _ _ _ _ _ ASCENT (demo_10 _) (demo_15 _) (demo_11 _) (demo_box _)
    (demo_apart 0 4 ltac:(discriminate)) (demo_apart 0 1 ltac:(discriminate)) (demo_box_apart _ 0 ltac:(discriminate)))
    as (h1 & h2 & p & f & A1 & A2 & A3 & A4 & _).
  - reflexivity.
  - discriminate.
  - intros [|[|[|i]]] a Ha; try (injection Ha as <-; reflexivity). simpl in Ha. destruct i; discriminate.
  - exists h1, h2, p, f. auto.
Qed.

(** The first component of vector 11 is zero: it is "free" for the unbounded box 21 though the projected direction is zero. *)
Theorem C11_free_variables_refuted : exists h1 h2,
  opk_project_direction cast_DD (demo NumD) (Some 10) (Some 15) (Some 21) (Some 11) DESCENT = Some (SUCCESS, h1) /\
  opk_vpeek cast_DD h1 (Some 10) 0 true = Some (SUCCESS, Some (nZ 0)) /\
  opk_get_free_variables cast_DD (demo NumD) (Some 10) (Some 15) (Some 21) (Some 11) DESCENT = Some (SUCCESS, h2) /\
  opk_vpeek cast_DD h2 (Some 10) 0 true = Some (SUCCESS, Some (nZ 1)).
Proof. eexists; eexists. split; [reflexivity|]. split; [reflexivity|]. split; reflexivity. Qed.
Print Assumptions C11_free_variables_refuted.

(** ** C12: step limits (exact arithmetic; H stands for DBL_MAX, the value of the limits when there is none) *)
Theorem C12_step_limits (H I : R) (h : heap (NumR H I) (NumR H I)) x set d s n px pdir (lx ldir : list R) lo hi orient :
  is_vector h x s n px lx -> is_vector h d s n pdir ldir -> is_box h set s n lo hi ->
  (0 < H)%R -> feasible (cast_id (NumR H I)) lo hi (lx : list (NumR H I)) ->
  exists smin1 smin2 smax : R,
  opk_get_step_limits (cast_id _) h (Some x) (Some set) (Some d) orient = Some (SUCCESS, Some (smin1, smin2, smax)) /\
  let step al : list (NumR H I) := moved (is_desc orient) al lx ldir in
  let proj (al : R) (p : list R) := is_projection (cast_id (NumR H I)) lo hi (step al) p in
  (0 <= smin1 <= smin2)%R /\ (0 < smin2)%R /\
  (forall al, (0 <= al <= smin1)%R -> feasible (cast_id _) lo hi (step al)) /\
  ((smin1 < H)%R -> forall al, (smin1 < al)%R -> ~ feasible (cast_id _) lo hi (step al)) /\
  (bounded_motion (is_desc orient) lo hi ldir -> forall al p q, (smax <= al)%R -> proj al p -> proj smax q -> p = q) /\
  (bounded_motion (is_desc orient) lo hi ldir -> lo <> BNone \/ hi <> BNone -> forall al p q, (0 <= al < smax)%R -> proj al p -> proj smax q -> p <> q) /\
  (~ bounded_motion (is_desc orient) lo hi ldir -> (H <= smax)%R) /\
  (forall dst pd ld h' d0 pdir0 ldir0, is_vector h dst s n pd ld -> is_vector h d0 s n pdir0 ldir0 ->
     same_or_apart pd px n -> same_or_apart pd pdir0 n -> box_apart h set pd n ->
     opk_project_direction (cast_id _) h (Some dst) (Some x) (Some set) (Some d0) orient = Some (SUCCESS, h') ->
     writes h dst ldir h' -> smin1 = smin2).
Proof. exact (step_limits_final H I h x set d s n px pdir lx ldir lo hi orient). Qed.
Print Assumptions C12_step_limits.

Example C12_example (H I : R) : (0 < H)%R -> exists smin1 smin2 smax : R,
  opk_get_step_limits (cast_id _) (demo (NumR H I)) (Some 15) (Some 20) (Some 11) DESCENT = Some (SUCCESS, Some (smin1, smin2, smax)) /\ (0 < smin2)%R.
Proof.
  intros HH. destruct (C12_step_limits H I (demo _) 15 20 11 0 3 _ _ _ _ _ _ DESCENT (demo_15 _) (demo_11 _) (demo_box _) HH (demo_feasible H I))
    as (s1 & s2 & s3 & E1 & _ & E2 & _). exists s1, s2, s3. auto.
Qed.

(** In double precision the largest feasible step smin1 may lead (slightly) outside of the box, because of rounding. *)
Theorem C12_double_refuted : exists (x d hi smin1 smin2 smax : NumD),
  feasible cast_DD BNone (BScalar hi) [x] /\
  k_boxsteplim cast_DD true BNone (BScalar hi) [x] [d] = (smin1, smin2, smax) /\
  (x + smin1 * d >? hi)%num = true.
Proof.
  exists (nZ 0), (nZ 25), (nZ 7). do 3 eexists. split; [|split; [reflexivity|vm_compute; reflexivity]].
  intros [|i] xi Hx; [|destruct i; discriminate]. injection Hx as <-. split; [discriminate|]. intros b Hb. injection Hb as <-. reflexivity.
Qed.
Print Assumptions C12_double_refuted.
