(** * The steps of NEWUOA and the trust region: proofs *)
From Coq Require Import ZArith List Reals Bool Lia Lra.
Import ListNotations.
From Flocq Require Import Core.
From Verif Require Import Num BqLang BqModel NwModel NumE MemE NwVec.
Local Open Scope Z_scope.

Section Trust.
Variables (H J : R).
Local Notation N := (NumE H J).
(** The functions COS and SIN *)
Variables (ncos nsin : N -> N).
Hypothesis circle : forall (t : N) (x y : R), ncos t = Some x -> nsin t = Some y -> (x * x + y * y = 1)%R.

Section Tr.
Variables (n npt xopt xpt gq hq pq : Z) (dl : R) (step d g hd hs : Z).
Hypothesis n1 : 1 <= n.
Hypothesis dl0 : dl <> 0%R.
Hypotheses (sd : apart n step d) (sg : apart n step g) (shd : apart n step hd) (shs : apart n step hs) (dg : apart n d g)
  (dhd : apart n d hd) (dhs : apart n d hs) (ghd : apart n g hd) (ghs : apart n g hs) (hdhs : apart n hd hs).
Let delta : N := Some dl.
Local Notation nn := (Z.to_nat n).
Local Notation dot := (vdot n).
Local Notation vec := (NwVec.vec n).
Local Notation v_ s p i := (val s (at1 p i)).

Ltac ne := first
  [ solve [unfold at1; lia]
  | match goal with A : apart n ?p ?q |- at1 ?p _ <> at1 ?q _ => apply (apart_at n p q); [exact A|lia|lia]
                  | A : apart n ?q ?p |- at1 ?p _ <> at1 ?q _ => apply not_eq_sym, (apart_at n q p); [exact A|lia|lia] end ].
Ltac vv := repeat match goal with |- context [val (upd ?s ?a ?v) ?b] =>
  first [constr_eq a b; rewrite (val_eq s a v) | rewrite (val_ne s a v b) by ne] end.

(** The gradient at the end of the step *)
Definition gr (s : mst N) (i : Z) : N := nadd (v_ s g i) (v_ s hs i).
Definition ggok (s : mst N) (gg : N) : Prop := gg = osum (fun i => nmul (gr s i) (gr s i)) nn.
Lemma gg_pos s gg r : ggok s gg -> gg = Some r -> (0 <= r)%R.
Proof.
  unfold ggok. intros E ->. symmetry in E. rewrite (osum_rsum _ _ _ E). apply rsum_nonneg. intros i Hi.
  pose proof (osum_inv _ _ _ E i Hi) as K. apply e_mul in K as (x & y & -> & [= <-] & ->). apply Rle_0_sqr.
Qed.

(** Between the passes of the first loop *)
Definition cgI (v : avars (N := N)) (s : mst N) : Prop :=
  ggok s (a_gg v) /\
  forall u e, vec s step u -> vec s d e ->
    a_ss v = Some (dot u u) /\ a_ds v = Some (dot e u) /\ a_dd v = Some (dot e e) /\
    (dot u u < dl * dl)%R /\ (0 <= dot e u)%R /\ (dot e u = 0 -> dot e e <> 0)%R.
Definition inside (s : mst N) : Prop := forall u, vec s step u -> (dot u u <= dl * dl)%R.
Definition onit (s : mst N) : Prop := forall u, vec s step u -> dot u u = (dl * dl)%R.

Lemma tra_init_ok s r s' : tra_init n npt xopt xpt gq hq pq step d g hd hs s = Ret r s' ->
  match r with None => inside s' | Some v => cgI v s' end.
Proof.
  intros E. unfold tra_init in E. apply b_inv in E as ([] & s1 & _ & E). apply b_inv in E as (dd & s2 & E2 & E).
  apply (LOOP_inv (fun k (dd : N) s => (forall i, 1 <= i <= Z.of_nat k ->
    v_ s step i = Some 0%R /\ v_ s hs i = Some 0%R /\ v_ s d i = nopp (v_ s g i)) /\
    dd = osum (fun i => nmul (v_ s d i) (v_ s d i)) k)) in E2.
  - destruct E2 as [A B]. rewrite Z2Nat.id in A by lia.
    assert (G : ggok s2 dd).
    { unfold ggok. rewrite B. apply osum_ext. intros i Hi. unfold gr. destruct (A i) as (_ & -> & ->); [lia|].
      destruct (v_ s2 g i); cbn; [|reflexivity]. f_equal. ring. }
    assert (U : forall u, vec s2 step u -> dot u u = 0%R).
    { intros u Hu. unfold vdot. rewrite (rsum_ext _ (fun _ => 0%R)); [apply rsum_0|]. intros i Hi.
      specialize (Hu i ltac:(lia)). destruct (A i) as (A1 & _); [lia|]. rewrite A1 in Hu. injection Hu as <-. ring. }
    assert (DD : (0 < dl * dl)%R) by (destruct (Rdichotomy _ _ dl0); nra).
    destruct (neq dd zero) eqn:Ez; rt E.
    + intros u Hu. rewrite (U u Hu). lra.
    + split; [exact G|]. cbn [a_ss a_ds a_dd]. intros u e Hu He. rewrite (U u Hu).
      assert (DU : dot e u = 0%R).
      { unfold vdot. rewrite (rsum_ext _ (fun _ => 0%R)); [apply rsum_0|]. intros i Hi.
        specialize (Hu i ltac:(lia)). destruct (A i) as (A1 & _); [lia|]. rewrite A1 in Hu. injection Hu as <-. ring. }
      rewrite DU. assert (DE : osum (fun i => nmul (v_ s2 d i) (v_ s2 d i)) nn = Some (dot e e)).
      { apply osum_some. intros i Hi. rewrite (He i) by lia. reflexivity. }
      rewrite DE in B. rewrite B in Ez |- *. cbn [a_ss a_ds a_dd]. repeat split; try lra.
      intros _ K. rewrite K in Ez. cbn in Ez. rewrite Req_bool_true in Ez by reflexivity. discriminate.
  - split; [intros; lia|reflexivity].
  - intros j a s3 a' s3' Hj [A B] E3. do 4 st E3. fe E3. split.
    + intros i Hi. destruct (Z.eq_dec i (Z.of_nat (S j))) as [->|Ne]; vv; [auto|]. apply A. lia.
    + cbn [osum]. subst a. vv. f_equal. apply osum_ext. intros i Hi. vv. reflexivity.
Qed.

Lemma tra_cg_ok ggbeg v s r s' : cgI v s -> tra_cg n npt xpt hq pq delta step d g hd hs ggbeg v s = Ret r s' ->
  match r with
  | inl v => cgI v s'
  | inr (v, true) => inside s'
  | inr (v, false) => onit s' /\ ggok s' (a_gg v)
  end.
Proof.
  destruct v as [crv ds ss dd gg qred iterc]. intros [G C] E. cbn [a_gg a_ss a_ds a_dd] in G, C.
  unfold tra_cg in E. cbv zeta in E.
  set (temp := nsub (nmul delta delta) ss) in *.
  set (bstep := ndiv temp (nadd ds (nsqrt (nadd (nmul ds ds) (nmul dd temp))))) in *.
  apply b_inv in E as ([] & s1 & E1 & E).
  assert (K1 : forall p i, In p [step; d; g; hs] -> 1 <= i <= n -> v_ s1 p i = v_ s p i).
  { intros p i Hp Hi. refine (sethd_keeps (fun b => exists p i, In p [step; d; g; hs] /\ 1 <= i <= n /\ b = at1 p i) _ _ _ _ _ _ _ _ _ _ _ E1 _ _).
    - intros b i' (p' & i2 & Hp' & Hi2 & ->) Hi'. cbn [In] in Hp'. destruct Hp' as [<-|[<-|[<-|[<-|[]]]]]; ne.
    - exists p, i. auto. }
  clear E1. apply b_inv in E as (dhd_ & s2 & E2 & E).
  assert (s2 = s1).
  { eassert (K : evals _ s1 _). 2: destruct (K _ _ E2) as [_ ->]; reflexivity.
    apply (ev_LOOP n _ _ s1 (osum (fun j => nmul (v_ s1 d j) (v_ s1 hd j)))); [reflexivity|]. intros j Hj. cbn [osum]. ev. }
  subst s2. clear E2.
  set (ca := if nlt zero dhd_ then _ else _) in E. 
  assert (AL : forall u e al, vec s step u -> vec s d e -> snd ca = Some al -> exists b, bstep = Some b /\
    (dot u u + 2 * b * dot e u + b * b * dot e e = dl * dl)%R /\ (0 <= al <= b)%R /\ (0 <= dot e u)%R).
  { clear E. intros u e al Hu He Ha. destruct (C u e Hu He) as (Es & Ed & Edd & A1 & A2 & A3).
    destruct (bstep_ok (dot u u) (dot e u) (dot e e) (dl * dl) A1 A2 (vdot_pos n e) A3) as (B1 & B2 & B3 & B4).
    assert (Eb : bstep = Some ((dl * dl - dot u u) / (dot e u + R_sqrt.sqrt (dot e u * dot e u + dot e e * (dl * dl - dot u u))))%R).
    { unfold bstep, temp, delta. rewrite Es, Ed, Edd. cbn [NumE nmul nsub nadd o2]. rewrite s_sqrt by exact B1. cbn [NumE nadd o2].
      apply s_div. lra. }
    eexists. split; [exact Eb|]. split; [exact B4|]. split; [|exact A2]. subst ca. rewrite Eb in Ha.
    set (b := ((dl * dl - dot u u) / _)%R) in *. clearbody b. destruct (nlt zero dhd_) eqn:Ez; cbn [snd] in Ha.
    - unfold bmin in Ha. destruct (nle _ _) eqn:Ele.
      + injection Ha as <-. lra.
      + apply e_div in Ha as (x & y & Ex & Ey & Hy & ->). rewrite Ex, Ey in Ele. rewrite s_div in Ele by exact Hy.
        apply nle_f in Ele. split; [|lra]. rewrite Ey in Ez. apply nlt_e in Ez. pose proof (gg_pos s gg x G Ex) as P.
        apply Rmult_le_pos; [exact P|]. apply Rlt_le, Rinv_0_lt_compat. exact Ez.
    - injection Ha as <-. lra. }
  assert (AB : forall b, snd ca = Some b -> bstep = Some b -> nlt (snd ca) bstep = false).
  { intros b -> ->. cbn. apply Rlt_bool_false. lra. }
  clearbody ca. destruct ca as [crv1 alpha]. cbn [snd] in *.
  apply b_inv in E as (gg1 & s2 & E2 & E).
  apply (LOOP_inv (fun k (gg : N) t =>
    (forall i, 1 <= i <= n -> v_ t d i = v_ s d i /\ v_ t g i = v_ s g i) /\
    (forall i, 1 <= i <= Z.of_nat k -> v_ t step i = nadd (v_ s step i) (nmul alpha (v_ s d i))) /\
    (forall i, Z.of_nat k < i <= n -> v_ t step i = v_ s step i) /\
    gg = osum (fun i => nmul (gr t i) (gr t i)) k)) in E2.
  2: { split; [intros i Hi; rewrite !K1 by (cbn; auto; lia); auto|]. split; [intros; lia|]. split; [|reflexivity].
       intros i Hi. apply K1; [cbn; auto|lia]. }
  2: { intros j a t a' t' Hj (A1 & A2 & A3 & A4) E3. do 3 st E3. fe E3. unfold gr. split; [|split; [|split]].
       - intros i Hi. vv. apply A1, Hi.
       - intros i Hi. destruct (Z.eq_dec i (Z.of_nat (S j))) as [->|Ne]; vv; [|apply A2; lia].
         rewrite A3 by lia. rewrite (proj1 (A1 (Z.of_nat (S j)) ltac:(lia))). reflexivity.
       - intros i Hi. vv. apply A3. lia.
       - cbn [osum]. subst a. unfold gr. vv. f_equal. apply osum_ext. intros i Hi. vv. reflexivity. }
  destruct E2 as (A1 & A2 & _ & A4). rewrite Z2Nat.id in A2 by lia. clear K1.
  assert (ST : forall u', vec s2 step u' -> exists u e al b, vec s step u /\ vec s d e /\ alpha = Some al /\ bstep = Some b /\
    dot u' u' = (dot u u + 2 * al * dot e u + al * al * dot e e)%R /\
    (dot u u + 2 * b * dot e u + b * b * dot e e = dl * dl)%R /\ (0 <= al <= b)%R /\ (0 <= dot e u)%R).
  { intros u' Hu'. assert (D : forall i, 1 <= i <= n -> exists x y z, v_ s step i = Some x /\ alpha = Some y /\ v_ s d i = Some z /\ u' i = (x + y * z)%R).
    { intros i Hi. specialize (Hu' i Hi). rewrite (A2 i Hi) in Hu'. apply e_add in Hu' as (x & t & Ex & Et & ->).
      apply e_mul in Et as (y & z & Ey & Ez & ->). exists x, y, z. auto. }
    destruct (D 1 ltac:(lia)) as (_ & al & _ & _ & Ea & _).
    assert (Hu : vec s step (fun i => dv (v_ s step i))) by (intros i Hi; destruct (D i Hi) as (x & y & z & -> & _); reflexivity).
    assert (He : vec s d (fun i => dv (v_ s d i))) by (intros i Hi; destruct (D i Hi) as (x & y & z & _ & _ & -> & _); reflexivity).
    destruct (AL _ _ al Hu He Ea) as (b & Eb & B1 & B2 & B3). eexists _, _, al, b. split; [exact Hu|]. split; [exact He|].
    split; [exact Ea|]. split; [exact Eb|]. split; [|split; [exact B1|split; [exact B2|exact B3]]].
    unfold vdot. rewrite (rsum_ext _ (fun i => (1 * dv (v_ s step i) + al * dv (v_ s d i)) * (1 * dv (v_ s step i) + al * dv (v_ s d i)))%R).
    - rewrite rsum_comb. rewrite (rsum_ext (fun i => dv (v_ s step i) * dv (v_ s d i))%R (fun i => dv (v_ s d i) * dv (v_ s step i))%R) by (intros; ring). ring.
    - intros i Hi. destruct (D i ltac:(lia)) as (x & y & z & -> & Ey & -> & ->). rewrite Ea in Ey. injection Ey as <-. cbn [dv]. ring. }
  assert (IN : inside s2).
  { intros u' Hu'. destruct (ST u' Hu') as (u & e & al & b & _ & _ & _ & _ & -> & B1 & B2 & B3).
    eapply alpha_ok; [exact B3|apply (vdot_pos n)|exact B2|exact B1]. }
  destruct (nlt alpha bstep) eqn:Elt.
  2: { rt E. split; [|exact A4]. intros u' Hu'. destruct (ST u' Hu') as (u & e & al & b & _ & _ & Ea & Eb & -> & B1 & B2 & B3).
       rewrite Ea, Eb in Elt. apply nlt_f in Elt. replace al with b by lra. exact B1. }
  destruct (_ || _ || _)%bool; [rt E; exact IN|].
  apply b_inv in E as ([[dd1 ds1] ss1] & s3 & E3 & E).
  apply (LOOP_inv (fun k (a : N * N * N) t =>
    (forall i, 1 <= i <= n -> v_ t step i = v_ s2 step i /\ v_ t g i = v_ s2 g i /\ v_ t hs i = v_ s2 hs i) /\
    a = (osum (fun i => nmul (v_ t d i) (v_ t d i)) k, osum (fun i => nmul (v_ t d i) (v_ t step i)) k,
         osum (fun i => nmul (v_ t step i) (v_ t step i)) k))) in E3.
  2: { split; [auto|reflexivity]. }
  2: { intros j a t a' t' Hj (C1 & ->) E4. do 4 st E4. rt E4. split.
       - intros i Hi. vv. apply C1, Hi.
       - cbn [osum]. vv. (apply f_equal2; [apply f_equal2|]); apply add_ext; intros i Hi; vv; reflexivity. }
  destruct E3 as (C1 & [= Edd Eds Ess]).
  assert (V : forall u, vec s3 step u -> vec s2 step u) by (intros u Hu i Hi; rewrite <- (proj1 (C1 i Hi)); exact (Hu i Hi)).
  assert (IN3 : inside s3) by (intros u Hu; apply IN, V, Hu).
  assert (G3 : ggok s3 gg1).
  { unfold ggok. rewrite A4. apply osum_ext. intros i Hi. unfold gr. destruct (C1 i ltac:(lia)) as (_ & -> & ->). reflexivity. }
  assert (SS : forall u, vec s3 step u -> ss1 = Some (dot u u)).
  { intros u Hu. rewrite Ess. apply osum_some. intros i Hi. rewrite (Hu i) by lia. reflexivity. }
  destruct (nle ds1 zero) eqn:Eds0; [rt E; exact IN3|]. destruct (nlt ss1 _) eqn:Ess0; rt E.
  - split; [exact G3|]. cbn [a_ss a_ds a_dd]. intros u e Hu He.
    assert (D1 : ds1 = Some (dot e u)).
    { rewrite Eds. apply osum_some. intros i Hi. rewrite (Hu i), (He i) by lia. reflexivity. }
    assert (D2 : dd1 = Some (dot e e)).
    { rewrite Edd. apply osum_some. intros i Hi. rewrite (He i) by lia. reflexivity. }
    rewrite (SS u Hu) in Ess0. rewrite D1 in Eds0. apply nlt_e in Ess0. apply nle_f in Eds0.
    repeat split; auto; lra.
  - split; [|exact G3]. intros u Hu. rewrite (SS u Hu) in Ess0. apply nlt_f in Ess0. specialize (IN3 u Hu). lra.
Qed.

Lemma tra_alt_ok ggbeg l s r s' : onit s -> ggok s (fst (fst l)) ->
  tra_alt ncos nsin n npt xpt hq pq delta step d g hd hs ggbeg l s = Ret r s' ->
  match r with inl l => onit s' /\ ggok s' (fst (fst l)) | inr _ => onit s' end.
Proof.
  destruct l as [[gg qred] iterc]. cbn [fst]. intros O G E. unfold tra_alt in E. cbv zeta in E.
  destruct (nle gg _); [rt E; exact O|].
  apply b_inv in E as ([sg0 shs0] & s1 & E1 & E).
  apply (LOOP_inv (fun k (a : N * N) t => t = s /\
    a = (osum (fun i => nmul (v_ s step i) (v_ s g i)) k, osum (fun i => nmul (v_ s step i) (v_ s hs i)) k))) in E1;
    [|split; reflexivity|intros j a t a' t' Hj (-> & ->) E4; do 2 st E4; rt E4; split; reflexivity].
  destruct E1 as (-> & [= Esg Eshs]).
  destruct (nle _ (nQ (-99) 100)); [rt E; exact O|].
  set (sgk := nadd sg0 shs0) in *. set (temp := nsqrt _) in E.
  set (tempa := ndiv (nmul delta delta) temp) in *. set (tempb := ndiv sgk temp) in *.
  apply b_inv in E as ([] & s2 & E2 & E).
  apply (LOOP__inv (fun k t =>
    (forall i, 1 <= i <= n -> v_ t step i = v_ s step i /\ v_ t g i = v_ s g i /\ v_ t hs i = v_ s hs i) /\
    (forall i, 1 <= i <= Z.of_nat k -> v_ t d i = nsub (nmul tempa (gr s i)) (nmul tempb (v_ s step i))))) in E2.
  2: { split; [auto|intros; lia]. }
  2: { intros j t a' t' Hj (A1 & A2) E3. eapply as_inv in E3; [|ev]. subst t'. split.
       - intros i Hi. vv. apply A1, Hi.
       - intros i Hi. destruct (Z.eq_dec i (Z.of_nat (S j))) as [->|Ne]; vv; [|apply A2; lia].
         destruct (A1 (Z.of_nat (S j))) as (-> & -> & ->); [lia|]. reflexivity. }
  destruct E2 as (A1 & A2). rewrite Z2Nat.id in A2 by lia.
  apply b_inv in E as ([] & s3 & E3 & E).
  assert (K1 : forall p i, In p [step; d; g; hs] -> 1 <= i <= n -> v_ s3 p i = v_ s2 p i).
  { intros p i Hp Hi. refine (sethd_keeps (fun b => exists p i, In p [step; d; g; hs] /\ 1 <= i <= n /\ b = at1 p i) _ _ _ _ _ _ _ _ _ _ _ E3 _ _).
    - intros b i' (p' & i2 & Hp' & Hi2 & ->) Hi'. cbn [In] in Hp'. destruct Hp' as [<-|[<-|[<-|[<-|[]]]]]; ne.
    - exists p, i. auto. }
  clear E3. apply b_inv in E as ([[dg0 dhd0] dhs0] & s4 & E4 & E).
  apply (LOOP_inv (fun k (a : N * N * N) t => t = s3)) in E4;
    [|reflexivity|intros j a t a' t' Hj -> E5; destruct a as [[? ?] ?]; do 3 st E5; rt E5; reflexivity].
  subst s4. apply b_inv in E as ([[[[qsav qmin] isave] ta] tb] & s4 & E4 & E).
  apply (LOOP_inv (fun k a t => t = s3)) in E4; [|reflexivity|].
  2: { intros j [[[[? ?] ?] ?] ?] t a' t' Hj -> E5. apply b_inv in E5 as ([sth cth] & t2 & E5 & E6).
       assert (t2 = s3).
       { unfold get_sin_cos in E5. destruct (_ <? 0); [discriminate|]. destruct (nth_error _ _) as [[? ?]|]; [|discriminate].
         injection E5 as _ _ <-. reflexivity. }
       subst t2. st E6. destruct (nlt _ _); [rt E6; reflexivity|]. destruct (_ =? _); rt E6; reflexivity. }
  subst s4. set (angle := best_angle _ _ _ _ _ _) in E. clearbody angle.
  apply b_inv in E as (gg1 & s4 & E4 & E).
  apply (LOOP_inv (fun k (gg : N) t =>
    (forall i, 1 <= i <= n -> v_ t d i = v_ s2 d i) /\
    (forall i, 1 <= i <= Z.of_nat k -> v_ t step i = nadd (nmul (ncos angle) (v_ s step i)) (nmul (nsin angle) (v_ s2 d i))) /\
    (forall i, Z.of_nat k < i <= n -> v_ t step i = v_ s step i) /\
    gg = osum (fun i => nmul (gr t i) (gr t i)) k)) in E4.
  2: { split; [intros i Hi; apply K1; cbn; auto|]. split; [intros; lia|]. split; [|reflexivity].
       intros i Hi. rewrite K1 by (cbn; auto; lia). apply A1. lia. }
  2: { intros j a t a' t' Hj (B1 & B2 & B3 & B4) E5. do 3 st E5. fe E5. unfold gr. split; [|split; [|split]].
       - intros i Hi. vv. apply B1, Hi.
       - intros i Hi. destruct (Z.eq_dec i (Z.of_nat (S j))) as [->|Ne]; vv; [|apply B2; lia].
         rewrite B3 by lia. rewrite (B1 (Z.of_nat (S j)) ltac:(lia)). reflexivity.
       - intros i Hi. vv. apply B3. lia.
       - cbn [osum]. subst a. unfold gr. vv. apply add_ext. intros i Hi. vv. reflexivity. }
  destruct E4 as (B1 & B2 & _ & B4). rewrite Z2Nat.id in B2 by lia.
  assert (O4 : onit s4).
  { clear E K1. intros u' Hu'.
    assert (D : forall i, 1 <= i <= n -> exists c t x w a b, ncos angle = Some c /\ nsin angle = Some t /\ v_ s step i = Some x /\
      gr s i = Some w /\ tempa = Some a /\ tempb = Some b /\ u' i = (c * x + t * (a * w - b * x))%R).
    { intros i Hi. specialize (Hu' i Hi). rewrite (B2 i Hi) in Hu'. apply e_add in Hu' as (y & z & Ey & Ez & ->).
      apply e_mul in Ey as (c & x & Ec & Ex & ->). apply e_mul in Ez as (t & e & Et & Ee & ->). rewrite (A2 i Hi) in Ee.
      apply e_sub in Ee as (y & z & Ey & Ez & ->). apply e_mul in Ey as (a & w & Ea & Ew & ->). apply e_mul in Ez as (b & x' & Eb & Ex' & ->).
      rewrite Ex in Ex'. injection Ex' as <-. exists c, t, x, w, a, b. repeat split; assumption. }
    destruct (D 1 ltac:(lia)) as (c & t & _ & _ & a & b & Ec & Et & _ & _ & Ea & Eb & _).
    set (u := fun i => dv (v_ s step i)). set (w := fun i => dv (gr s i)).
    assert (Hu : forall i, 1 <= i <= n -> v_ s step i = Some (u i)).
    { intros i Hi. unfold u. destruct (D i Hi) as (? & ? & ? & ? & ? & ? & _ & _ & -> & _). reflexivity. }
    assert (Hw : forall i, 1 <= i <= n -> gr s i = Some (w i)).
    { intros i Hi. unfold w. destruct (D i Hi) as (? & ? & ? & ? & ? & ? & _ & _ & _ & -> & _). reflexivity. }
    assert (Eu : forall i, 1 <= i <= n -> u' i = (c * u i + t * (a * w i - b * u i))%R).
    { intros i Hi. destruct (D i Hi) as (c1 & t1 & x1 & w1 & a1 & b1 & F1 & F2 & F3 & F4 & F5 & F6 & ->).
      rewrite Ec in F1. injection F1 as <-. rewrite Et in F2. injection F2 as <-. rewrite Ea in F5. injection F5 as <-.
      rewrite Eb in F6. injection F6 as <-. rewrite Hu in F3 by exact Hi. injection F3 as <-. rewrite Hw in F4 by exact Hi.
      injection F4 as <-. reflexivity. }
    assert (Egg : gg = Some (dot w w)).
    { rewrite G. apply osum_some. intros i Hi. rewrite Hw by lia. reflexivity. }
    assert (Ek : sgk = Some (dot u w)).
    { assert (Hg : forall i, 1 <= i <= n -> exists x y, v_ s g i = Some x /\ v_ s hs i = Some y /\ w i = (x + y)%R)
        by (intros i Hi; pose proof (Hw i Hi) as K; apply e_add in K; exact K).
      unfold sgk. rewrite Esg, Eshs.
      rewrite (osum_some _ (fun i => u i * dv (v_ s g i))%R), (osum_some _ (fun i => u i * dv (v_ s hs i))%R).
      - cbn [NumE nadd o2]. rewrite <- rsum_plus. f_equal. apply rsum_ext. intros i Hi.
        destruct (Hg i ltac:(lia)) as (x & y & -> & -> & ->). cbn [dv]. ring.
      - intros i Hi. rewrite Hu by lia. destruct (Hg i ltac:(lia)) as (x & y & _ & -> & _). reflexivity.
      - intros i Hi. rewrite Hu by lia. destruct (Hg i ltac:(lia)) as (x & y & -> & _). reflexivity. }
    pose proof (O u Hu) as Huu. set (q := (dl * dl)%R) in *. set (k := dot u w) in *. set (W := dot w w) in *.
    unfold tempa, delta in Ea. apply e_div in Ea as (x & T & Ex & ET & HT & ->). injection Ex as <-.
    unfold tempb in Eb. rewrite Ek, ET in Eb. rewrite s_div in Eb by exact HT. injection Eb as <-.
    unfold temp in ET. rewrite Egg, Ek in ET. unfold delta in ET. apply e_sqrt in ET as (x & Ex & Hx & ->). injection Ex as <-.
    fold q in Hx, HT, Eu |- *. set (T := R_sqrt.sqrt _) in *.
    assert (HTT : (T * T = q * W - k * k)%R) by (apply sqrt_sqrt, Hx).
    set (e := fun i => (q / T * w i + (- k / T) * u i)%R).
    assert (Ee : dot e e = q).
    { unfold vdot, e. rewrite rsum_comb. fold (dot w w) (dot w u) (dot u u). rewrite (vdot_comm n w u), Huu. fold W k.
      replace (_ + _)%R with (q * (q * W - k * k) / (T * T))%R by (field; exact HT). rewrite <- HTT. field. exact HT. }
    assert (Eue : dot u e = 0%R).
    { rewrite (vdot_comm n). unfold vdot, e. rewrite rsum_dot. fold (dot w u) (dot u u). rewrite (vdot_comm n w u), Huu. fold k. field. exact HT. }
    rewrite (vdot_ext n u' u' (fun i => c * u i + t * e i)%R (fun i => c * u i + t * e i)%R).
    - apply (rot_ok n); try assumption. exact (circle angle c t Ec Et).
    - intros i Hi. rewrite (Eu i Hi). unfold e. field. exact HT.
    - intros i Hi. rewrite (Eu i Hi). unfold e. field. exact HT. }
  st E. destruct (_ && _)%bool; rt E; [split; [exact O4|exact B4]|exact O4].
Qed.

Theorem trsapp_ok fuel s r s' : trsapp ncos nsin n npt xopt xpt gq hq pq delta step d g hd hs fuel s = Ret r s' -> inside s'.
Proof.
  intros E. unfold trsapp in E. apply b_inv in E as (v & s1 & E1 & E). apply tra_init_ok in E1. destruct v as [v|]; [|rt E; exact E1].
  apply b_inv in E as ([v1 stop] & s2 & E2 & E).
  apply (machine_inv cgI (fun r s => if snd r : bool then inside s else onit s /\ ggok s (a_gg (fst r)))) in E2; [| |exact E1].
  - cbn [fst snd] in E2. destruct stop; [rt E; exact E2|]. destruct E2 as [O G].
    apply b_inv in E as ([] & s3 & E3 & E). rt E.
    assert (O3 : onit s3).
    { apply (machine_inv (fun l s => onit s /\ ggok s (fst (fst l))) (fun _ s => onit s)) in E3; [exact E3| |split; [exact O|exact G]].
      intros l t r0 t' [O1 G1] E4. pose proof (tra_alt_ok _ _ _ _ _ O1 G1 E4) as K. destruct r0; exact K. }
    intros u Hu. rewrite (O3 u Hu). lra.
  - intros l t r0 t' HI E4. pose proof (tra_cg_ok _ _ _ _ _ HI E4) as K. destruct r0 as [v2|[v2 [|]]]; exact K.
Qed.
End Tr.
End Trust.
