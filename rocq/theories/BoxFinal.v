(** * Box operations at the level of the API: lemmas behind BoxProps.v *)
From Coq Require Import List ZArith Bool Arith Lia Reals Lra.
From Flocq Require Import Core BinarySingleNaN.
From Verif Require Import Num NumFacts VecModel MemModel MemSpec ListFacts BoxSpec OrdFacts BoxProofs BoxRProofs MemProofs FloatFacts Casts VecProofs VecDemo.
Import ListNotations.

Lemma is_vector_det {D E : Num} (h : heap D E) v s s' n n' p p' l l' :
  is_vector h v s n p l -> is_vector h v s' n' p' l' -> l = l'.
Proof.
  intros (V1 & V2 & V3 & V4) (W1 & W2 & W3 & W4). rewrite V1 in W1. injection W1 as <- <-. rewrite V2 in W2. injection W2 as <-.
  apply list_eq_nth_error. intros i. destruct (lt_dec i n) as [Hi|Hi].
  - destruct (nth_error_Some_ex l i) as [a Ha]; [lia|]. destruct (nth_error_Some_ex l' i) as [b Hb]; [lia|].
    rewrite Ha, Hb. rewrite <- (V4 i a Ha). exact (W4 i b Hb).
  - transitivity (@None E); [|symmetry]; apply nth_error_None; lia.
Qed.

Section Ord.
Context {D E : Num} (c : Cast D E) (O : OrdLaws E).
Notation heap := (heap D E).

Lemma project_variables_final (h : heap) dst x set s n pd px ld lx lo hi :
  is_vector h dst s n pd ld -> is_vector h x s n px lx -> is_box h set s n lo hi ->
  same_or_apart pd px n -> box_apart h set pd n ->
  good_box c n lo hi -> (forall i xi, nth_error lx i = Some xi -> is_num xi) ->
  exists h' p, opk_project_variables c h (Some dst) (Some x) (Some set) = Some (SUCCESS, h') /\ writes h dst p h' /\
    feasible c lo hi p /\ is_projection c lo hi lx p /\
    (forall i xi pi z, nth_error lx i = Some xi -> nth_error p i = Some pi -> is_num z -> inside c lo hi i z ->
       ((xi <=? pi)%num = true /\ (pi <=? z)%num = true) \/ ((z <=? pi)%num = true /\ (pi <=? xi)%num = true)) /\
    (is_box h' set s n lo hi -> exists h'', opk_project_variables c h' (Some dst) (Some dst) (Some set) = Some (SUCCESS, h'') /\
       writes h' dst p h'').
Proof.
  intros Hd Hx Hb Sx Sb Hg Hn. assert (Lx : length lx = n) by exact (proj1 (proj2 (proj2 Hx))).
  destruct (project_variables_ok c h dst x set s n pd px ld lx lo hi Hd Hx Hb Sx Sb) as (h' & E1 & W).
  destruct (project_variables_spec c O lo hi lx) as (P1 & P2 & P3 & P4); [rewrite Lx; exact Hg|exact Hn|].
  exists h', (k_boxprojvar c lo hi lx). split; [exact E1|]. split; [exact W|]. split; [exact P2|].
  split; [apply (projvar_is_projection c O); [rewrite Lx; exact Hg|exact Hn]|]. split.
  - intros i xi pi z Hi Hp Hz Hin. apply (P4 i xi pi Hi Hp); auto.
  - intros Hb'.
    assert (Hd' : is_vector h' dst s n pd (k_boxprojvar c lo hi lx)).
    { destruct W as (s0 & n0 & p0 & l0 & (V1 & V2 & _) & V' & _). destruct Hd as (D1 & D2 & _).
      rewrite D1 in V1. injection V1 as <- <-. rewrite D2 in V2. injection V2 as <-. exact V'. }
    destruct (project_variables_ok c h' dst dst set s n pd pd _ _ lo hi Hd' Hd' Hb') as (h'' & E2 & W2).
    + left; reflexivity.
    + destruct W as (s0 & n0 & p0 & l0 & _ & _ & (O1 & O2 & O3) & _).
      intros b Hbx. rewrite O3 in Hbx. specialize (Sb b Hbx). unfold bound_apart in *. rewrite O2. exact Sb.
    + exists h''. split; [exact E2|]. rewrite P3 in W2. exact W2.
Qed.

Lemma project_direction_final (h : heap) dst x set d s n pd px pdir ld lx ldir lo hi orient :
  is_vector h dst s n pd ld -> is_vector h x s n px lx -> is_vector h d s n pdir ldir -> is_box h set s n lo hi ->
  same_or_apart pd px n -> same_or_apart pd pdir n -> box_apart h set pd n ->
  is_num (nZ 0 : E) -> good_box c n lo hi ->
  (forall i xi, nth_error lx i = Some xi -> is_num xi) -> (forall i di, nth_error ldir i = Some di -> is_num di) ->
  exists h' p, opk_project_direction c h (Some dst) (Some x) (Some set) (Some d) orient = Some (SUCCESS, h') /\ writes h dst p h' /\
    forall i xi di pi, nth_error lx i = Some xi -> nth_error ldir i = Some di -> nth_error p i = Some pi ->
      (blocked c (is_desc orient) lo hi i xi di -> pi = nZ 0) /\
      (~ blocked c (is_desc orient) lo hi i xi di -> pi = di \/ (di =? nZ 0)%num = true /\ pi = nZ 0).
Proof.
  intros Hd Hx Hdir Hb Sx Sdir Sb N0 Hg Nx Nd.
  assert (Lx : length lx = n) by exact (proj1 (proj2 (proj2 Hx))).
  assert (Ld : length ldir = n) by exact (proj1 (proj2 (proj2 Hdir))).
  destruct (project_direction_ok c h dst x set d s n pd px pdir ld lx ldir lo hi orient Hd Hx Hdir Hb Sx Sdir Sb) as (h' & E1 & W).
  exists h', (k_boxprojdir c (is_desc orient) lo hi lx ldir). split; [exact E1|]. split; [exact W|].
  apply (projdir_spec c O); auto; congruence.
Qed.

Lemma free_variables_final (h : heap) dst x set d s n pd px pdir ld lx ldir lo hi orient :
  is_vector h dst s n pd ld -> is_vector h x s n px lx -> is_vector h d s n pdir ldir -> is_box h set s n lo hi ->
  same_or_apart pd px n -> same_or_apart pd pdir n -> box_apart h set pd n ->
  is_num (nZ 0 : E) ->
  (lo = BNone -> hi = BNone -> forall i di, nth_error ldir i = Some di -> (di =? nZ 0)%num = false) ->
  (forall i di, nth_error ldir i = Some di -> is_num di) ->
  exists h1 h2 p f,
    opk_project_direction c h (Some dst) (Some x) (Some set) (Some d) orient = Some (SUCCESS, h1) /\ writes h dst p h1 /\
    opk_get_free_variables c h (Some dst) (Some x) (Some set) (Some d) orient = Some (SUCCESS, h2) /\ writes h dst f h2 /\
    forall i pi fi, nth_error p i = Some pi -> nth_error f i = Some fi ->
      (fi = nZ 1 /\ (pi =? nZ 0)%num = false) \/ (fi = nZ 0 /\ (pi =? nZ 0)%num = true).
Proof.
  intros Hd Hx Hdir Hb Sx Sdir Sb N0 Hnb Nd.
  assert (Lx : length lx = n) by exact (proj1 (proj2 (proj2 Hx))).
  assert (Ld : length ldir = n) by exact (proj1 (proj2 (proj2 Hdir))).
  destruct (project_direction_ok c h dst x set d s n pd px pdir ld lx ldir lo hi orient Hd Hx Hdir Hb Sx Sdir Sb) as (h1 & E1 & W1).
  destruct (get_free_variables_ok c h dst x set d s n pd px pdir ld lx ldir lo hi orient Hd Hx Hdir Hb Sx Sdir Sb) as (h2 & E2 & W2).
  exists h1, h2, (k_boxprojdir c (is_desc orient) lo hi lx ldir), (k_boxfreevar c (is_desc orient) lo hi lx ldir).
  split; [exact E1|]. split; [exact W1|]. split; [exact E2|]. split; [exact W2|].
  destruct Hb as (b & B1 & B2 & B3 & Blo & Bhi).
  assert (Hc : (lo <> BNone \/ hi <> BNone) \/ (lo = BNone /\ hi = BNone))
    by (destruct lo; [destruct hi; [right; auto| |]| |]; left; auto; first [left; discriminate | right; discriminate]).
  destruct Hc as [Hc|[-> ->]].
  - apply (freevar_spec c O); auto; try congruence; rewrite Lx; eapply is_bound_size; eauto.
  - intros i pi fi Hp Hf. left. simpl in Hp, Hf. rewrite nth_error_map, Hp in Hf. injection Hf as <-.
    split; [reflexivity|]. eapply Hnb; eauto.
Qed.
End Ord.

Section R.
Variables H I : R.
Notation N := (NumR H I).
Notation c := (cast_id N).
Local Open Scope R_scope.

Lemma sq_between (x a z : R) : x <= a <= z \/ z <= a <= x -> (x - a) * (x - a) <= (x - z) * (x - z).
Proof. intros [Q|Q]; nra. Qed.

Lemma sq_self (x z : R) : (x - x) * (x - x) <= (x - z) * (x - z).
Proof. pose proof (Rle_0_sqr (x - z)). unfold Rsqr in *. lra. Qed.

(** Nearest point in exact arithmetic. *)
Lemma projection_nearest lo hi (x p z : list R) :
  is_projection c lo hi (x : list N) p -> length z = length x -> feasible c lo hi (z : list N) ->
  rsum (map2 (fun a b => (a - b) * (a - b)) x p) <= rsum (map2 (fun a b => (a - b) * (a - b)) x z).
Proof.
  intros [Lp Hp] Lz Hz. change (@length R p = @length R x) in Lp.
  assert (Q : forall i xi pi zi, nth_error x i = Some xi -> nth_error p i = Some pi -> nth_error z i = Some zi ->
     (xi - pi) * (xi - pi) <= (xi - zi) * (xi - zi)).
  { intros i xi pi zi Hx Hpi Hzi. destruct (Hp i xi pi Hx Hpi) as (P1 & P2 & P3 & P4). specialize (Hz i zi Hzi). destruct Hz as [Z1 Z2].
    destruct (bound_at c lo i) as [a|] eqn:Ea.
    - destruct (Rlt_dec xi a) as [Hlt|Hge].
      + assert (pi = a) by (apply P3; auto; apply Rlt_bool_true; exact Hlt). subst.
        specialize (Z1 a eq_refl). simpl in Z1; revert Z1; case Rle_bool_spec; intros Z1 Z1'; [|discriminate]. apply sq_between; lra.
      + destruct (bound_at c hi i) as [b|] eqn:Eb.
        * destruct (Rlt_dec b xi) as [Hlt|Hge'].
          -- assert (pi = b) by (apply P4; auto; apply Rlt_bool_true; exact Hlt). subst.
             specialize (Z2 b eq_refl). simpl in Z2; revert Z2; case Rle_bool_spec; intros Z2 Z2'; [|discriminate]. apply sq_between; lra.
          -- rewrite P2; [apply sq_self|]. split; intros q Hq; rewrite ?Ea, ?Eb in Hq; injection Hq as <-; apply Rle_bool_true; lra.
        * rewrite P2; [apply sq_self|]. split; intros q Hq; rewrite ?Ea, ?Eb in Hq; try discriminate; injection Hq as <-; apply Rle_bool_true; lra.
    - destruct (bound_at c hi i) as [b|] eqn:Eb.
      + destruct (Rlt_dec b xi) as [Hlt|Hge'].
        * assert (pi = b) by (apply P4; auto; apply Rlt_bool_true; exact Hlt). subst.
          specialize (Z2 b eq_refl). simpl in Z2; revert Z2; case Rle_bool_spec; intros Z2 Z2'; [|discriminate]. apply sq_between; lra.
        * rewrite P2; [apply sq_self|]. split; intros q Hq; rewrite ?Ea, ?Eb in Hq; try discriminate; injection Hq as <-; apply Rle_bool_true; lra.
      + rewrite P2; [apply sq_self|]. split; intros q Hq; rewrite ?Ea, ?Eb in Hq; discriminate. }
  clear Hp Hz. revert p z Lp Lz Q. induction x as [|xi x IH]; intros [|pi p] [|zi z] Lp Lz Q; try discriminate; simpl; [lra|].
  assert (Q0 := Q O xi pi zi eq_refl eq_refl eq_refl).
  specialize (IH p z ltac:(simpl in *; congruence) ltac:(simpl in *; congruence) (fun i => Q (S i))).
  unfold map2 in *. lra.
Qed.

Lemma project_direction_R (h : heap N N) dst x set d s n pd px pdir ld lx ldir lo hi orient :
  is_vector h dst s n pd ld -> is_vector h x s n px lx -> is_vector h d s n pdir ldir -> is_box h set s n lo hi ->
  same_or_apart pd px n -> same_or_apart pd pdir n -> box_apart h set pd n ->
  feasible c lo hi lx ->
  exists h' p, opk_project_direction c h (Some dst) (Some x) (Some set) (Some d) orient = Some (SUCCESS, h') /\ writes h dst p h' /\
    (exists eps, 0 < eps /\ forall al, 0 <= al <= eps -> feasible c lo hi (moved (is_desc orient) al lx p : list N)) /\
    0 <= rsum (map2 Rmult (p : list R) (ldir : list R)) /\
    rsum (map2 Rmult (p : list R) (ldir : list R)) = rsum (map2 Rmult (p : list R) (p : list R)).
Proof.
  intros Hd Hx Hdir Hb Sx Sdir Sb Hf.
  assert (Lx : length lx = n) by exact (proj1 (proj2 (proj2 Hx))).
  assert (Ld : length ldir = n) by exact (proj1 (proj2 (proj2 Hdir))).
  destruct (project_direction_ok c h dst x set d s n pd px pdir ld lx ldir lo hi orient Hd Hx Hdir Hb Sx Sdir Sb) as (h' & E1 & W).
  destruct Hb as (b & B1 & B2 & B3 & Blo & Bhi). apply is_bound_size in Blo. apply is_bound_size in Bhi. rewrite <- Lx in Blo, Bhi.
  exists h', (k_boxprojdir c (is_desc orient) lo hi lx ldir). split; [exact E1|]. split; [exact W|].
  assert (Ldx : length ldir = length lx) by congruence.
  split; [exact (projected_direction_feasible H I (is_desc orient) lo hi lx ldir Ldx Blo Bhi Hf)|].
  assert (Q := projdir_dot H I (is_desc orient) lo hi lx ldir Ldx Blo Bhi). cbv zeta in Q.
  assert (Lp : length (k_boxprojdir c (is_desc orient) lo hi lx ldir) = length ldir)
    by (etransitivity; [exact (projdir_length c (is_desc orient) lo hi lx ldir Ldx Blo Bhi)|congruence]).
  set (p := k_boxprojdir c (is_desc orient) lo hi lx ldir) in *.
  clear - Q Lp. revert Q Lp. generalize p. clear p. change (num N) with R in *.
  induction ldir as [|a l IH]; intros [|b p] Q Lp; simpl; try discriminate; [lra|].
  destruct (IH p (fun i => Q (S i)) ltac:(simpl in Lp; congruence)) as [I1 I2].
  destruct (Q O a b eq_refl eq_refl) as [->| ->]; unfold map2 in *; nra.
Qed.

Lemma step_limits_final (h : heap N N) x set d s n px pdir (lx ldir : list R) lo hi orient :
  is_vector h x s n px lx -> is_vector h d s n pdir ldir -> is_box h set s n lo hi ->
  0 < H -> feasible c lo hi (lx : list N) ->
  exists smin1 smin2 smax : R,
  opk_get_step_limits c h (Some x) (Some set) (Some d) orient = Some (SUCCESS, Some (smin1, smin2, smax)) /\
  let step al : list N := moved (is_desc orient) al lx ldir in
  let proj (al : R) (p : list R) := is_projection c lo hi (step al) p in
  0 <= smin1 <= smin2 /\ 0 < smin2 /\
  (forall al, 0 <= al <= smin1 -> feasible c lo hi (step al)) /\
  (smin1 < H -> forall al, smin1 < al -> ~ feasible c lo hi (step al)) /\
  (bounded_motion (is_desc orient) lo hi ldir -> forall al p q, smax <= al -> proj al p -> proj smax q -> p = q) /\
  (bounded_motion (is_desc orient) lo hi ldir -> lo <> BNone \/ hi <> BNone -> forall al p q, 0 <= al < smax -> proj al p -> proj smax q -> p <> q) /\
  (~ bounded_motion (is_desc orient) lo hi ldir -> H <= smax) /\
  (forall dst pd ld h' d0 pdir0 ldir0, is_vector h dst s n pd ld -> is_vector h d0 s n pdir0 ldir0 ->
     same_or_apart pd px n -> same_or_apart pd pdir0 n -> box_apart h set pd n ->
     opk_project_direction c h (Some dst) (Some x) (Some set) (Some d0) orient = Some (SUCCESS, h') ->
     writes h dst ldir h' -> smin1 = smin2).
Proof.
  intros Hx Hdir Hb Hpos Hf.
  assert (Lx : length lx = n) by exact (proj1 (proj2 (proj2 Hx))).
  assert (Ld : length ldir = length lx) by (rewrite Lx; exact (proj1 (proj2 (proj2 Hdir)))).
  rewrite (get_step_limits_ok c h x set d s n px pdir lx ldir lo hi orient Hx Hdir Hb).
  destruct (k_boxsteplim c (is_desc orient) lo hi lx ldir) as [[smin1 smin2] smax] eqn:Hk.
  exists smin1, smin2, smax. split; [reflexivity|].
  assert (Hb' := Hb). destruct Hb' as (b & B1 & B2 & B3 & Blo & Bhi). apply is_bound_size in Blo. apply is_bound_size in Bhi. rewrite <- Lx in Blo, Bhi.
  destruct (step_limits_spec' H I (is_desc orient) lo hi lx ldir Hpos Ld Blo Bhi Hf smin1 smin2 smax Hk) as (S1 & S2 & S3 & S4 & S5 & S6 & S7 & S8).
  cbv zeta. repeat (split; [assumption|]).
  intros dst pd ld h' d0 pdir0 ldir0 Hdst Hd0 Sx Sd0 Sb E1 W.
  destruct (project_direction_ok c h dst x set d0 s n pd px pdir0 ld lx ldir0 lo hi orient Hdst Hx Hd0 Hb Sx Sd0 Sb) as (h1 & E1' & W').
  rewrite E1 in E1'. injection E1' as <-.
  apply (S8 (ldir0 : list R)). { rewrite Lx. exact (proj1 (proj2 (proj2 Hd0))). }
  destruct W as (s0 & n0 & p0 & l0 & _ & V & _). destruct W' as (s1 & n1 & p1 & l1 & _ & V' & _).
  exact (is_vector_det h' dst s0 s1 n0 n1 p0 p1 _ _ V V').
Qed.
End R.
