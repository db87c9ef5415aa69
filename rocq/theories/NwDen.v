(** * The step of BIGDEN keeps its length: proofs *)
From Coq Require Import ZArith List Reals Bool Lia Lra.
Import ListNotations.
From Flocq Require Import Core.
From Verif Require Import Num BqLang BqModel NwModel NumE MemE NwVec NwLag.
Local Open Scope Z_scope.

(** Arrays of [l] and [m] elements with no element in common *)
Definition away (p l q m : Z) : Prop := p + l <= q \/ q + m <= p.
Lemma at2_in p ldim m k j : 1 <= k <= ldim -> 1 <= j <= m -> p <= at2 p ldim k j < p + m * ldim.
Proof. intros A B. unfold at2. nia. Qed.

Lemma away_at p l q m i j : away p l q m -> 1 <= i <= l -> 1 <= j <= m -> at1 p i <> at1 q j.
Proof. unfold away, at1. lia. Qed.

Section Den.
Variables (H J : R).
Local Notation N := (NumE H J).
(** The functions COS and SIN *)
Variables (ncos nsin : N -> N).
Hypothesis circle : forall (t : N) (x y : R), ncos t = Some x -> nsin t = Some y -> (x * x + y * y = 1)%R.
Local Notation v_ s p i := (val s (at1 p i)).

Lemma k_loop1 {A} (K : Z -> Prop) m body (a : A) : (forall i a, 1 <= i <= m -> keeps (H := H) (J := J) K (body i a)) ->
  keeps (H := H) (J := J) K (loop 1 m body a).
Proof. apply (k_LOOP K m body a). Qed.
Lemma sin_cos_keeps (K : Z -> Prop) i : keeps (H := H) (J := J) K (get_sin_cos i).
Proof. intros s a s' E b _. apply sin_cos_ev in E. subst s'. reflexivity. Qed.
Ltac kd := repeat first [ apply k_ret | apply k_ld | apply sin_cos_keeps | (apply k_assign; [intros ? ?|]) | (apply k_assign_add; [intros ? ?|])
  | apply k_lift1 | apply k_lift2 | (apply k_LOOP_; intros ? ?) | (apply k_LOOP; intros ? ? ?) | (apply k_loop1; intros ? ? ?)
  | (apply k_bind; [|intros ?])
  | match goal with |- keeps _ (if ?b then _ else _) => destruct b
                  | |- keeps _ (match ?p with (_, _) => _ end) => destruct p end ].

Section Bigden.
Variables (n npt xopt xpt bmat zmat idz ndim kopt knew d w vlag s_ wvec prod : Z).
Hypothesis n1 : 1 <= n.
Hypothesis nd : ndim = npt + n.
Hypotheses (hk : 1 <= knew <= npt) (hko : 1 <= kopt <= npt).
Hypotheses (ds_ : apart n d s_) (dw : away d n w ndim) (dvlag : away d n vlag ndim) (dwvec : away d n wvec (5 * ndim))
  (dprod : away d n prod (5 * ndim)) (sw : away s_ n w ndim) (svlag : away s_ n vlag ndim) (swvec : away s_ n wvec (5 * ndim))
  (sprod : away s_ n prod (5 * ndim)) (sxopt : apart n s_ xopt) (sxpt : away s_ n xpt (n * npt)).
Local Notation nn := (Z.to_nat n).
Local Notation dot := (vdot n).
Local Notation vec := (NwVec.vec n).
Ltac ne := first
  [ solve [unfold at1; lia]
  | match goal with A : apart n ?p ?q |- at1 ?p _ <> at1 ?q _ => apply (apart_at n p q); [exact A|lia|lia]
                  | A : apart n ?q ?p |- at1 ?p _ <> at1 ?q _ => apply not_eq_sym, (apart_at n q p); [exact A|lia|lia]
                  | A : away ?p n ?q _ |- at1 ?p _ <> at1 ?q _ => apply (away_at _ _ _ _ _ _ A); lia
                  end
  | match goal with |- at2 xpt npt ?k ?i <> at1 s_ _ => pose proof (at2_in xpt npt n k i ltac:(lia) ltac:(lia)); unfold away, at1 in *; lia end ].
Ltac vv := repeat match goal with |- context [val (upd ?s ?a ?v) ?b] =>
  first [constr_eq a b; rewrite (val_eq s a v) | rewrite (val_ne s a v b) by ne] end.

(** The cells of [d] and of [s] *)
Definition ds_cells (b : Z) : Prop := exists i, 1 <= i <= n /\ (b = at1 d i \/ b = at1 s_ i).
Lemma c_w i b : 1 <= i <= ndim -> ds_cells b -> b <> at1 w i.
Proof. intros Hi (j & Hj & [->| ->]); unfold at1, away in *; lia. Qed.
Lemma c_vlag i b : 1 <= i <= ndim -> ds_cells b -> b <> at1 vlag i.
Proof. intros Hi (j & Hj & [->| ->]); unfold at1, away in *; lia. Qed.
Lemma c_wvec i k b : 1 <= i <= ndim -> 1 <= k <= 5 -> ds_cells b -> b <> at2 wvec ndim i k.
Proof. intros Hi Hk (j & Hj & [->| ->]); pose proof (at2_in wvec ndim 5 i k Hi Hk); unfold at1, away in *; lia. Qed.
Lemma c_prod i k b : 1 <= i <= ndim -> 1 <= k <= 5 -> ds_cells b -> b <> at2 prod ndim i k.
Proof. intros Hi Hk (j & Hj & [->| ->]); pose proof (at2_in prod ndim 5 i k Hi Hk); unfold at1, away in *; lia. Qed.
Ltac cs := try (first [apply c_w | apply c_vlag | apply c_wvec | apply c_prod]; try assumption; lia).
Lemma keep_d A (p : prog N A) s a s' i : keeps ds_cells p -> p s = Ret a s' -> 1 <= i <= n -> v_ s' d i = v_ s d i.
Proof. intros K E Hi. apply (K _ _ _ E). exists i. auto. Qed.
Lemma keep_s A (p : prog N A) s a s' i : keeps ds_cells p -> p s = Ret a s' -> 1 <= i <= n -> v_ s' s_ i = v_ s s_ i.
Proof. intros K E Hi. apply (K _ _ _ E). exists i. auto. Qed.

Lemma den_wvec_keeps : keeps (H := H) (J := J) ds_cells (den_wvec n npt xopt xpt ndim d s_ wvec).
Proof. unfold den_wvec. cbv zeta. kd; cs. Qed.
Lemma den_prod_keeps : keeps (H := H) (J := J) ds_cells (den_prod n npt bmat zmat idz ndim wvec prod).
Proof. unfold den_prod. cbv zeta. kd; cs. Qed.
Lemma den_beta_keeps den : keeps (H := H) (J := J) ds_cells (den_beta ndim wvec prod den).
Proof. unfold den_beta. kd. Qed.
Lemma den_denex_keeps alpha den : keeps (H := H) (J := J) ds_cells (den_denex ndim knew prod alpha den).
Proof. unfold den_denex. kd. Qed.
Lemma den_angle_keeps denex a b : keeps (H := H) (J := J) ds_cells (den_angle denex a b).
Proof. unfold den_angle. cbv zeta. kd. Qed.

(** At the label L70 *)
Definition denI (q : R) (v : dvars (N := N)) (s : mst N) : Prop :=
  (forall u, vec s d u -> dot u u = q) /\
  d_dd v = osum (fun i => nmul (v_ s d i) (v_ s d i)) nn /\
  d_ds v = osum (fun i => nmul (v_ s d i) (v_ s s_ i)) nn /\
  d_ssden v = nsub (nmul (d_dd v) (osum (fun i => nmul (v_ s s_ i) (v_ s s_ i)) nn)) (nmul (d_ds v) (d_ds v)).
Definition onden (q : R) (s : mst N) : Prop := forall u, vec s d u -> dot u u = q.

Lemma den_init_ok q s r s' : onden q s -> den_init n npt xopt xpt zmat idz kopt knew d w s_ s = Ret r s' ->
  denI q (snd r) s'.
Proof.
  intros O E. unfold den_init in E. cbv zeta in E.
  apply b_inv in E as ([] & s1 & E1 & E). apply b_inv in E as ([] & s2 & E2 & E). apply b_inv in E as (alpha & s2' & E3 & E).
  destruct (ev_ld _ _ _ _ E3) as [_ ->]. clear E3.
  assert (K2 : forall i, 1 <= i <= n -> v_ s2 d i = v_ s d i).
  { intros i Hi. match type of E2 with ?p _ = _ => assert (KA : keeps ds_cells p) by (kd; cs) end.
    match type of E1 with ?p _ = _ => assert (KB : keeps ds_cells p) by (kd; cs) end.
    rewrite (keep_d _ _ _ _ _ i KA E2 Hi). exact (keep_d _ _ _ _ _ i KB E1 Hi). }
  assert (O2 : onden q s2) by (intros u Hu; apply O; intros i Hi; rewrite <- (K2 i Hi); exact (Hu i Hi)).
  clear E1 E2 K2 O s. rename s2 into s. clear s1.
  apply b_inv in E as ([[[dd ds] ss] xoptsq] & s1 & E1 & E).
  apply (LOOP_inv (fun k (a : N * N * N * N) t =>
    (forall i, 1 <= i <= n -> v_ t d i = v_ s d i /\ v_ t xopt i = v_ s xopt i) /\
    (forall k i, 1 <= k <= npt -> 1 <= i <= n -> val t (at2 xpt npt k i) = val s (at2 xpt npt k i)) /\
    (forall i, 1 <= i <= Z.of_nat k -> v_ t s_ i = nsub (val s (at2 xpt npt knew i)) (v_ s xopt i)) /\
    fst a = (osum (fun i => nmul (v_ t d i) (v_ t d i)) k, osum (fun i => nmul (v_ t d i) (v_ t s_ i)) k,
         osum (fun i => nmul (v_ t s_ i) (v_ t s_ i)) k))) in E1.
  2: { split; [auto|]. split; [auto|]. split; [intros; lia|reflexivity]. }
  2: { intros j [[[? ?] ?] ?] t a' t' Hj (A1 & A2 & A3 & A4) E4. cbn [fst] in A4. injection A4 as -> -> ->.
       do 5 st E4. rt E4. cbn [fst]. split; [|split; [|split]].
       - intros i Hi. vv. apply A1, Hi.
       - intros k i Hk Hi. vv. apply A2; assumption.
       - intros i Hi. destruct (Z.eq_dec i (Z.of_nat (S j))) as [->|Ne]; vv; [|apply A3; lia].
         rewrite A2 by lia. rewrite (proj2 (A1 (Z.of_nat (S j)) ltac:(lia))). reflexivity.
       - cbn [osum]. vv. (apply f_equal2; [apply f_equal2|]); apply add_ext; intros i Hi; vv; reflexivity. }
  destruct E1 as (A1 & A2 & A3 & A4). cbn [fst] in A4. injection A4 as Edd Eds Ess. rewrite Z2Nat.id in A3 by lia.
  assert (O1 : onden q s1) by (intros u Hu; apply O2; intros i Hi; rewrite <- (proj1 (A1 i Hi)); exact (Hu i Hi)).
  assert (A3' : forall i, 1 <= i <= n -> v_ s1 s_ i = nsub (val s1 (at2 xpt npt knew i)) (v_ s1 xopt i)).
  { intros i Hi. rewrite A3, A2, (proj2 (A1 i Hi)) by lia. reflexivity. }
  apply b_inv in E as ([ds1 ss1] & s3 & E3 & E). rt E. cbn [snd]. unfold denI. cbn [d_dd d_ds d_ssden].
  destruct (nlt _ _) in E3.
  2: { apply r_inv in E3. destruct E3 as ([= -> ->] & ->). split; [exact O1|]. split; [exact Edd|]. split; [exact Eds|]. rewrite Ess. reflexivity. }
  apply b_inv in E3 as ([[[ksav dtest] ds2] ss2] & s4 & E4 & E3).
  apply (LOOP_inv (fun k (a : Z * N * N * N) t => let '(ksav, _, ds, ss) := a in t = s1 /\ 1 <= ksav <= npt /\
    ds = osum (fun i => nmul (v_ s1 d i) (nsub (val s1 (at2 xpt npt ksav i)) (v_ s1 xopt i))) nn /\
    ss = osum (fun i => nmul (nsub (val s1 (at2 xpt npt ksav i)) (v_ s1 xopt i)) (nsub (val s1 (at2 xpt npt ksav i)) (v_ s1 xopt i))) nn)) in E4.
  2: { split; [reflexivity|]. split; [exact hk|]. split; [rewrite Eds|rewrite Ess]; apply osum_ext; intros i Hi; rewrite A3' by lia; reflexivity. }
  2: { intros j [[[ks dt] ds3] ss3] t a' t' Hj (-> & B1 & B2 & B3) E5. match type of E5 with (if ?b then _ else _) _ = _ => destruct b end.
       { rt E5. auto. }
       apply b_inv in E5 as ([dst sst] & t2 & E6 & E5).
       apply (LOOP_inv (fun k (a : N * N) t => t = s1 /\
         a = (osum (fun i => nmul (v_ s1 d i) (nsub (val s1 (at2 xpt npt (Z.of_nat (S j)) i)) (v_ s1 xopt i))) k,
              osum (fun i => nmul (nsub (val s1 (at2 xpt npt (Z.of_nat (S j)) i)) (v_ s1 xopt i))
                       (nsub (val s1 (at2 xpt npt (Z.of_nat (S j)) i)) (v_ s1 xopt i))) k))) in E6.
       2: { split; reflexivity. }
       2: { intros j' a t3 a2 t3' Hj' (-> & ->) E7. do 3 st E7. rt E7. split; reflexivity. }
       destruct E6 as (-> & [= Edst Esst]). match type of E5 with (if ?b then _ else _) _ = _ => destruct b end; rt E5.
       - split; [reflexivity|]. split; [lia|]. split; assumption.
       - auto. }
  destruct E4 as (-> & B1 & B2 & B3). apply b_inv in E3 as ([] & s4 & E4 & E3). apply r_inv in E3. destruct E3 as ([= -> ->] & ->).
  apply (LOOP__inv (fun k t =>
    (forall i, 1 <= i <= n -> v_ t d i = v_ s1 d i /\ v_ t xopt i = v_ s1 xopt i) /\
    (forall k i, 1 <= k <= npt -> 1 <= i <= n -> val t (at2 xpt npt k i) = val s1 (at2 xpt npt k i)) /\
    (forall i, 1 <= i <= Z.of_nat k -> v_ t s_ i = nsub (val s1 (at2 xpt npt ksav i)) (v_ s1 xopt i)))) in E4.
  2: { split; [auto|]. split; [auto|]. intros; lia. }
  2: { intros j t a' t' Hj (C1 & C2 & C3) E5. eapply as_inv in E5; [|ev]. subst t'. split; [|split].
       - intros i Hi. vv. apply C1, Hi.
       - intros k i Hk Hi. vv. apply C2; assumption.
       - intros i Hi. destruct (Z.eq_dec i (Z.of_nat (S j))) as [->|Ne]; vv; [|apply C3; lia].
         rewrite C2 by lia. rewrite (proj2 (C1 (Z.of_nat (S j)) ltac:(lia))). reflexivity. }
  destruct E4 as (C1 & _ & C3). rewrite Z2Nat.id in C3 by lia.
  assert (X : osum (fun i => nmul (v_ s4 s_ i) (v_ s4 s_ i)) nn = ss2).
  { rewrite B3. apply osum_ext. intros i Hi. rewrite C3 by lia. reflexivity. }
  rewrite X. split; [|split; [|split; [|reflexivity]]].
  - intros u Hu. apply O1. intros i Hi. rewrite <- (proj1 (C1 i Hi)). exact (Hu i Hi).
  - rewrite Edd. apply osum_ext. intros i Hi. rewrite (proj1 (C1 i ltac:(lia))). reflexivity.
  - rewrite B2. apply osum_ext. intros i Hi. rewrite (proj1 (C1 i ltac:(lia))), C3 by lia. reflexivity.
Qed.

Lemma den_pass_ok q alpha xoptsq v s r s' : denI q v s ->
  den_pass ncos nsin n npt xopt xpt bmat zmat idz ndim knew d w vlag s_ wvec prod alpha xoptsq v s = Ret r s' ->
  match r with inl v => denI q v s' | inr _ => onden q s' end.
Proof.
  destruct v as [dd ds ssden densav iterc]. intros (O & Edd & Eds & Ess) E. cbn [d_dd d_ds d_ssden] in *. unfold den_pass in E. cbv zeta in E.
  set (temp := ndiv one (nsqrt ssden)) in *.
  apply b_inv in E as ([xoptd xopts] & s1 & E1 & E).
  apply (LOOP_inv (fun k (_ : N * N) t =>
    (forall i, 1 <= i <= n -> v_ t d i = v_ s d i) /\
    (forall i, 1 <= i <= Z.of_nat k -> v_ t s_ i = nmul temp (nsub (nmul dd (v_ s s_ i)) (nmul ds (v_ s d i)))) /\
    (forall i, Z.of_nat k < i <= n -> v_ t s_ i = v_ s s_ i))) in E1.
  2: { split; [auto|]. split; [intros; lia|auto]. }
  2: { intros j [? ?] t a' t' Hj (A1 & A2 & A3) E4. do 3 st E4. rt E4. split; [|split]; intros i Hi.
       - vv. apply A1, Hi.
       - destruct (Z.eq_dec i (Z.of_nat (S j))) as [->|Ne]; vv; [|apply A2; lia]. rewrite A1, A3 by lia. reflexivity.
       - vv. apply A3. lia. }
  destruct E1 as (A1 & A2 & _). rewrite Z2Nat.id in A2 by lia.
  do 7 st E.
  apply b_inv in E as ([] & s2 & E2 & E). apply b_inv in E as ([] & s3 & E3 & E). apply b_inv in E as (den & s4 & E4 & E).
  apply b_inv in E as (denex & s5 & E5 & E). apply b_inv in E as ([denold angle] & s6 & E6 & E).
  destruct den as [[[[[[[[e0 e1] e2] e3] e4] e5] e6] e7] e8].
  apply b_inv in E as ([] & s7 & E7 & E). apply b_inv in E as (tau & s7' & E7' & E). destruct (ev_ld _ _ _ _ E7') as [_ ->]. clear E7'.
  match type of E7 with ?p _ = _ => assert (KV : keeps ds_cells p) by (kd; cs) end.
  assert (K7 : forall i, 1 <= i <= n -> v_ s7 d i = v_ s1 d i /\ v_ s7 s_ i = v_ s1 s_ i).
  { intros i Hi. split.
    - rewrite (keep_d _ _ _ _ _ i KV E7 Hi), (keep_d _ _ _ _ _ i (den_angle_keeps _ _ _) E6 Hi),
        (keep_d _ _ _ _ _ i (den_denex_keeps _ _) E5 Hi), (keep_d _ _ _ _ _ i (den_beta_keeps _) E4 Hi),
        (keep_d _ _ _ _ _ i den_prod_keeps E3 Hi). exact (keep_d _ _ _ _ _ i den_wvec_keeps E2 Hi).
    - rewrite (keep_s _ _ _ _ _ i KV E7 Hi), (keep_s _ _ _ _ _ i (den_angle_keeps _ _ _) E6 Hi),
        (keep_s _ _ _ _ _ i (den_denex_keeps _ _) E5 Hi), (keep_s _ _ _ _ _ i (den_beta_keeps _) E4 Hi),
        (keep_s _ _ _ _ _ i den_prod_keeps E3 Hi). exact (keep_s _ _ _ _ _ i den_wvec_keeps E2 Hi). }
  clear KV E7 E6 E5 E4 E3 E2.
  apply b_inv in E as ([[dd1 ta] tb] & s8 & E8 & E).
  apply (LOOP_inv (fun k (a : N * N * N) t =>
    (forall i, 1 <= i <= Z.of_nat k -> v_ t d i = nadd (nmul (ncos angle) (v_ s d i)) (nmul (nsin angle) (v_ s1 s_ i))) /\
    (forall i, Z.of_nat k < i <= n -> v_ t d i = v_ s d i) /\ (forall i, 1 <= i <= n -> v_ t s_ i = v_ s1 s_ i) /\
    fst (fst a) = osum (fun i => nmul (v_ t d i) (v_ t d i)) k)) in E8.
  2: { split; [intros; lia|]. split; [|split; [|reflexivity]]; intros i Hi.
       - rewrite (proj1 (K7 i ltac:(lia))), A1 by lia. reflexivity.
       - apply K7. exact Hi. }
  2: { intros j [[? ?] ?] t a' t' Hj (B1 & B2 & B3 & B4) E9. cbn [fst] in B4. match type of B4 with ?a = _ => subst a end. do 5 st E9. rt E9. cbn [fst]. split; [|split; [|split]].
       - intros i Hi. destruct (Z.eq_dec i (Z.of_nat (S j))) as [->|Ne]; vv; [|apply B1; lia]. rewrite B2, B3 by lia. reflexivity.
       - intros i Hi. vv. apply B2. lia.
       - intros i Hi. vv. apply B3, Hi.
       - cbn [osum]. vv. apply add_ext. intros i Hi. vv. reflexivity. }
  destruct E8 as (B1 & _ & _ & Edd1). cbn [fst] in Edd1. rewrite Z2Nat.id in B1 by lia.
  assert (O8 : onden q s8).
  { clear E K7. intros u' Hu'.
    assert (D : forall i, 1 <= i <= n -> exists c t x y q k T, ncos angle = Some c /\ nsin angle = Some t /\ v_ s d i = Some x /\
      v_ s s_ i = Some y /\ dd = Some q /\ ds = Some k /\ temp = Some T /\
      u' i = (c * x + t * (T * (q * y - k * x)))%R).
    { intros i Hi. specialize (Hu' i Hi). rewrite (B1 i Hi) in Hu'. apply e_add in Hu' as (a & b & Ea & Eb & ->).
      apply e_mul in Ea as (c & x & Ec & Ex & ->). apply e_mul in Eb as (t & e & Et & Ee & ->). rewrite (A2 i Hi) in Ee.
      apply e_mul in Ee as (T & z & ET & Ez & ->). apply e_sub in Ez as (a & b & Ea & Eb & ->).
      apply e_mul in Ea as (q1 & y & Eq & Ey & ->). apply e_mul in Eb as (k & x' & Ek & Ex' & ->).
      rewrite Ex in Ex'. injection Ex' as <-. exists c, t, x, y, q1, k, T. repeat split; assumption. }
    destruct (D 1 ltac:(lia)) as (c & t & _ & _ & q1 & k & T & Ec & Et & _ & _ & Eq & Ek & ET & _).
    set (u := fun i => dv (v_ s d i)). set (v := fun i => dv (v_ s s_ i)).
    assert (Hu : forall i, 1 <= i <= n -> v_ s d i = Some (u i)).
    { intros i Hi. unfold u. destruct (D i Hi) as (? & ? & ? & ? & ? & ? & ? & _ & _ & -> & _). reflexivity. }
    assert (Hv : forall i, 1 <= i <= n -> v_ s s_ i = Some (v i)).
    { intros i Hi. unfold v. destruct (D i Hi) as (? & ? & ? & ? & ? & ? & ? & _ & _ & _ & -> & _). reflexivity. }
    assert (Eu : forall i, 1 <= i <= n -> u' i = (c * u i + t * (T * (q1 * v i - k * u i)))%R).
    { intros i Hi. destruct (D i Hi) as (c1 & t1 & x1 & y1 & q2 & k1 & T1 & F1 & F2 & F3 & F4 & F5 & F6 & F7 & ->).
      rewrite Ec in F1. injection F1 as <-. rewrite Et in F2. injection F2 as <-. rewrite Eq in F5. injection F5 as <-.
      rewrite Ek in F6. injection F6 as <-. rewrite ET in F7. injection F7 as <-. rewrite Hu in F3 by exact Hi.
      injection F3 as <-. rewrite Hv in F4 by exact Hi. injection F4 as <-. reflexivity. }
    assert (Q : q1 = dot u u).
    { rewrite Edd in Eq. rewrite (osum_some _ (fun i => u i * u i)%R) in Eq; [injection Eq as <-; reflexivity|].
      intros i Hi. rewrite Hu by lia. reflexivity. }
    assert (QK : k = dot u v).
    { rewrite Eds in Ek. rewrite (osum_some _ (fun i => u i * v i)%R) in Ek; [injection Ek as <-; reflexivity|].
      intros i Hi. rewrite Hu, Hv by lia. reflexivity. }
    rewrite (osum_some _ (fun i => v i * v i)%R) in Ess by (intros i Hi; rewrite Hv by lia; reflexivity). fold (dot v v) in Ess.
    rewrite Eq, Ek in Ess. unfold temp in ET. rewrite Ess in ET. apply e_div in ET as (x & P & Ex & EP & HP & ->). injection Ex as <-.
    apply e_sqrt in EP as (x & Ex & Hx & ->). injection Ex as <-. set (P := R_sqrt.sqrt _) in *.
    assert (TT : (P * P = q1 * dot v v - k * k)%R) by (apply sqrt_sqrt, Hx).
    rewrite Q, QK in TT. destruct (orth_ok n u v P HP TT) as (Fe & Fue). cbv zeta in Fe, Fue.
    assert (Eu' : forall i, 1 <= i <= n -> u' i = (c * u i + t * ((dot u u * v i - dot u v * u i) / P))%R).
    { intros i Hi. rewrite Eu by exact Hi. rewrite Q, QK. field. exact HP. }
    rewrite (vdot_ext n u' u' _ _ Eu' Eu'). apply (rot_ok n u (fun i => (dot u u * v i - dot u v * u i) / P)%R).
    - exact (circle angle c t Ec Et).
    - apply O. exact Hu.
    - rewrite Fe. apply O. exact Hu.
    - exact Fue. }
  destruct (n <=? iterc + 1); [rt E; exact O8|].
  match type of E with (if ?b then _ else _) _ = _ => destruct b end; [rt E; exact O8|].
  apply b_inv in E as ([] & s9 & E9 & E). apply b_inv in E as ([] & s10 & E10 & E).
  assert (K10 : forall i, 1 <= i <= n -> v_ s10 d i = v_ s8 d i).
  { intros i Hi.
    assert (Hc : forall j b, 1 <= j <= n -> (exists i, 1 <= i <= n /\ b = at1 d i) -> b <> at1 s_ j).
    { intros j b Hj (i' & Hi' & ->). ne. }
    match type of E10 with ?p _ = _ => assert (KA : keeps (fun b => exists i, 1 <= i <= n /\ b = at1 d i) p) by (kd; apply Hc; assumption) end.
    match type of E9 with ?p _ = _ => assert (KB : keeps (fun b => exists i, 1 <= i <= n /\ b = at1 d i) p) by (kd; apply Hc; assumption) end.
    rewrite (KA _ _ _ E10) by (exists i; auto). apply (KB _ _ _ E9). exists i. auto. }
  clear E9 E10. apply b_inv in E as ([ss1 ds1] & s11 & E11 & E).
  apply (LOOP_inv (fun k (a : N * N) t => t = s10 /\
    a = (osum (fun i => nmul (v_ s10 s_ i) (v_ s10 s_ i)) k, osum (fun i => nmul (v_ s10 d i) (v_ s10 s_ i)) k))) in E11;
    [|split; reflexivity|intros j a t a' t' Hj (-> & ->) E4; do 2 st E4; rt E4; split; reflexivity].
  destruct E11 as (-> & [= Ess1 Eds1]).
  assert (O10 : onden q s10) by (intros u Hu; apply O8; intros i Hi; rewrite <- (K10 i Hi); exact (Hu i Hi)).
  match type of E with (if ?b then _ else _) _ = _ => destruct b end; rt E; [|exact O10].
  unfold denI. cbn [d_dd d_ds d_ssden]. split; [exact O10|]. split; [|split; [exact Eds1|rewrite Ess1; reflexivity]].
  rewrite Edd1. apply osum_ext. intros i Hi. rewrite K10 by lia. reflexivity.
Qed.

Theorem bigden_ok q fuel s r s' : onden q s ->
  bigden ncos nsin n npt xopt xpt bmat zmat idz ndim kopt knew d w vlag s_ wvec prod fuel s = Ret r s' -> onden q s'.
Proof.
  intros O E. unfold bigden in E. apply b_inv in E as ([[alpha xoptsq] v] & s1 & E1 & E). apply (den_init_ok q) in E1; [|exact O].
  cbn [snd] in E1. apply b_inv in E as ([par beta] & s2 & E2 & E).
  apply (machine_inv (denI q) (fun _ s => onden q s)) in E2; [| |exact E1].
  2: { intros l t r0 t' HI E3. pose proof (den_pass_ok _ _ _ _ _ _ _ HI E3) as K. destruct r0; exact K. }
  match type of E with ?p _ = _ => assert (KV : keeps ds_cells p) by (kd; cs) end.
  intros u Hu. apply E2. intros i Hi. rewrite <- (keep_d _ _ _ _ _ i KV E Hi). exact (Hu i Hi).
Qed.
End Bigden.
End Den.
