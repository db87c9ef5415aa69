(** * The steps of NEWUOA that improve the geometry, and their lengths: proofs *)
From Coq Require Import ZArith List Reals Bool Lia Lra.
Import ListNotations.
From Flocq Require Import Core.
From Verif Require Import Num BqLang BqModel NwModel NumE MemE NwVec.
Local Open Scope Z_scope.

(** The cells that are left unchanged *)
Ltac kp := repeat first [ apply k_ret | apply k_ld | (apply k_assign; [intros ? ?|]) | (apply k_assign_add; [intros ? ?|]) | apply k_lift1
  | apply k_lift2 | (apply k_LOOP_; intros ? ?) | (apply k_LOOP; intros ? ? ?) | (apply k_bind; [|intros ?])
  | match goal with |- keeps _ (if ?b then _ else _) => destruct b
                  | |- keeps _ (match ?p with (_, _) => _ end) => destruct p end ].

Section Lag.
Variables (H J : R).
Local Notation N := (NumE H J).
(** The functions COS and SIN *)
Variables (ncos nsin : N -> N).
Hypothesis circle : forall (t : N) (x y : R), ncos t = Some x -> nsin t = Some y -> (x * x + y * y = 1)%R.
Local Notation v_ s p i := (val s (at1 p i)).

Lemma sin_cos_ev i (s : mst N) a s' : get_sin_cos i s = Ret a s' -> s' = s.
Proof.
  unfold get_sin_cos. destruct (_ <? 0); [discriminate|]. destruct (nth_error _ _) as [[? ?]|]; [|discriminate].
  intros [= _ <-]. reflexivity.
Qed.

Section Biglag.
Variables (n npt xopt xpt bmat zmat idz ndim knew : Z) (dl : R) (d hcol gc gd s_ w : Z).
Hypothesis n1 : 1 <= n.
Hypotheses (dgc : apart n d gc) (dgd : apart n d gd) (dsp : apart n d s_) (dw : apart n d w) (spw : apart n s_ w)
  (spgd : apart n s_ gd).
Let delta : N := Some dl.
Local Notation nn := (Z.to_nat n).
Local Notation dot := (vdot n).
Local Notation vec := (NwVec.vec n).
Ltac ne := first
  [ solve [unfold at1; lia]
  | match goal with A : apart n ?p ?q |- at1 ?p _ <> at1 ?q _ => apply (apart_at n p q); [exact A|lia|lia]
                  | A : apart n ?q ?p |- at1 ?p _ <> at1 ?q _ => apply not_eq_sym, (apart_at n q p); [exact A|lia|lia] end ].
Ltac vv := repeat match goal with |- context [val (upd ?s ?a ?v) ?b] =>
  first [constr_eq a b; rewrite (val_eq s a v) | rewrite (val_ne s a v b) by ne] end.

(** The length of [d] is that of the trust region *)
Definition onlag (s : mst N) : Prop := forall u, vec s d u -> dot u u = (dl * dl)%R.
Definition cells (l : list Z) (b : Z) : Prop := exists p i, In p l /\ 1 <= i <= n /\ b = at1 p i.
Lemma in_cells l p i : In p l -> 1 <= i <= n -> cells l (at1 p i).
Proof. intros A B. exists p, i. auto. Qed.
Lemma cells_ne l p i b : (forall q, In q l -> apart n q p) -> 1 <= i <= n -> cells l b -> b <> at1 p i.
Proof. intros A Hi (q & j & Hq & Hj & ->). apply (apart_at n q p j i); auto. Qed.

Lemma lag_init_ok s r s' : lag_init n npt xopt xpt bmat zmat idz ndim knew delta d hcol gc gd s_ s = Ret r s' -> onlag s'.
Proof.
  intros E. unfold lag_init in E. cbv zeta in E. apply b_inv in E as ([] & s01 & _ & E). apply b_inv in E as ([] & s02 & _ & E). apply b_inv in E as (alpha & s0 & _ & E).
  apply b_inv in E as (dd & s1 & E1 & E).
  apply (LOOP_inv (fun k (dd : N) t => dd = osum (fun i => nmul (v_ t d i) (v_ t d i)) k)) in E1; [|reflexivity|].
  2: { intros j a t a' t' Hj -> E2. do 3 st E2. fe E2. cbn [osum]. vv. apply add_ext. intros i Hi. vv. reflexivity. }
  apply b_inv in E as ([] & s2 & E2 & E).
  assert (K2 : forall i, 1 <= i <= n -> v_ s2 d i = v_ s1 d i).
  { intros i Hi. match type of E2 with ?p _ = _ => assert (K : keeps (cells [d]) p) end.
    { kp; apply (cells_ne [d]); try lia; try assumption; intros q [<-|[]]; assumption. }
    exact (K _ _ _ E2 _ (in_cells [d] d i (or_introl eq_refl) Hi)). }
  clear E2. apply b_inv in E as ([[gg sp] dhd] & s3 & E3 & E).
  apply (LOOP_inv (fun _ (_ : N * N * N) t => t = s2)) in E3; [|reflexivity|].
  2: { intros j [[? ?] ?] t a' t' Hj -> E4. do 3 st E4. rt E4. reflexivity. }
  subst s3. set (sc0 := ndiv delta (nsqrt dd)) in E. set (scale := if nlt (nmul sp dhd) zero then _ else _) in E.
  apply b_inv in E as ([] & s3 & E3 & E). rt E.
  apply (LOOP__inv (fun k t => (forall i, 1 <= i <= Z.of_nat k -> v_ t d i = nmul scale (v_ s1 d i)) /\
    (forall i, Z.of_nat k < i <= n -> v_ t d i = v_ s1 d i))) in E3.
  2: { split; [intros; lia|]. intros i Hi. apply K2. lia. }
  2: { intros j t a' t' Hj (A1 & A2) E4. do 2 st E4. eapply as_inv in E4; [|ev]. subst t'. split; intros i Hi.
       - destruct (Z.eq_dec i (Z.of_nat (S j))) as [->|Ne]; vv; [|apply A1; lia]. rewrite A2 by lia. reflexivity.
       - vv. apply A2. lia. }
  destruct E3 as (A1 & _). rewrite Z2Nat.id in A1 by lia. intros u Hu.
  assert (D : forall i, 1 <= i <= n -> exists c x, scale = Some c /\ v_ s1 d i = Some x /\ u i = (c * x)%R).
  { intros i Hi. specialize (Hu i Hi). rewrite (A1 i Hi) in Hu. apply e_mul in Hu. exact Hu. }
  destruct (D 1 ltac:(lia)) as (c & _ & Ec & _). set (x := fun i => dv (v_ s1 d i)).
  assert (Ed : dd = Some (dot x x)).
  { rewrite E1. apply osum_some. intros i Hi. unfold x. destruct (D i ltac:(lia)) as (? & y & _ & -> & _). reflexivity. }
  rewrite (vdot_ext n u u (fun i => c * x i + 0 * x i)%R (fun i => c * x i + 0 * x i)%R).
  2, 3: intros i Hi; destruct (D i Hi) as (c' & y & Ec' & Ey & ->); rewrite Ec in Ec'; injection Ec' as <-; unfold x; rewrite Ey;
    cbn [dv]; ring.
  unfold vdot. rewrite rsum_comb. fold (dot x x).
  assert (Ecc : exists t, (sc0 = Some t /\ (c = t \/ c = - t))%R).
  { unfold scale in Ec. destruct (nlt _ _); [|exists c; auto]. apply e_opp in Ec as (t & Et & ->). exists t. auto. }
  destruct Ecc as (t & Et & Ect). unfold sc0, delta in Et. apply e_div in Et as (a & b & Ea & Eb & Hb & ->). injection Ea as <-.
  rewrite Ed in Eb. apply e_sqrt in Eb as (y & Ey & Hy & ->). injection Ey as <-. set (q := dot x x) in *.
  assert (Hq : (R_sqrt.sqrt q * R_sqrt.sqrt q = q)%R) by (apply sqrt_sqrt, Hy). set (T := R_sqrt.sqrt q) in *.
  rewrite <- Hq. destruct Ect as [->| ->]; field; exact Hb.
Qed.

Lemma lag_pass_ok l s r s' : onlag s -> lag_pass ncos nsin n npt xpt d hcol gc gd s_ w l s = Ret r s' -> onlag s'.
Proof.
  destruct l as [ta0 tb0]. intros O E. unfold lag_pass in E. cbv zeta in E.
  apply b_inv in E as ([[dd sp] ss] & s1 & E1 & E).
  apply (LOOP_inv (fun k (a : N * N * N) t => t = s /\
    a = (osum (fun i => nmul (v_ s d i) (v_ s d i)) k, osum (fun i => nmul (v_ s d i) (v_ s s_ i)) k,
         osum (fun i => nmul (v_ s s_ i) (v_ s s_ i)) k))) in E1;
    [|split; reflexivity|intros j a t a' t' Hj (-> & ->) E4; do 3 st E4; rt E4; split; reflexivity].
  destruct E1 as (-> & [= Edd Esp Ess]).
  destruct (nle _ _); [rt E; exact O|]. set (temp := nsub (nmul dd ss) (nmul sp sp)) in *. set (denom := nsqrt temp) in *.
  apply b_inv in E as ([] & s2 & E2 & E).
  apply (LOOP__inv (fun k t =>
    (forall i, 1 <= i <= n -> v_ t d i = v_ s d i) /\
    (forall i, 1 <= i <= Z.of_nat k -> v_ t s_ i = ndiv (nsub (nmul dd (v_ s s_ i)) (nmul sp (v_ s d i))) denom) /\
    (forall i, Z.of_nat k < i <= n -> v_ t s_ i = v_ s s_ i))) in E2.
  2: { split; [auto|]. split; [intros; lia|auto]. }
  2: { intros j t a' t' Hj (A1 & A2 & A3) E4. st E4. eapply as_inv in E4; [|ev]. subst t'. split; [|split]; intros i Hi.
       - vv. apply A1, Hi.
       - destruct (Z.eq_dec i (Z.of_nat (S j))) as [->|Ne]; vv; [|apply A2; lia]. rewrite A1, A3 by lia. reflexivity.
       - vv. apply A3. lia. }
  destruct E2 as (A1 & A2 & _). rewrite Z2Nat.id in A2 by lia.
  apply b_inv in E as ([] & s3 & E3 & E).
  assert (K3 : forall p i, In p [d; s_] -> 1 <= i <= n -> v_ s3 p i = v_ s2 p i).
  { intros p i Hp Hi. match type of E3 with ?q _ = _ => assert (K : keeps (cells [d; s_]) q) end.
    { kp; apply (cells_ne [d; s_]); try lia; try assumption; intros q [<-|[<-|[]]]; assumption. }
    exact (K _ _ _ E3 _ (in_cells [d; s_] p i Hp Hi)). }
  clear E3. apply b_inv in E as ([[[[cf1 cf2] cf3] cf4] cf5] & s4 & E4 & E).
  apply (LOOP_inv (fun _ (_ : N * N * N * N * N) t => t = s3)) in E4; [|reflexivity|].
  2: { intros j [[[[? ?] ?] ?] ?] t a' t' Hj -> E5. do 5 st E5. rt E5. reflexivity. }
  subst s4. apply b_inv in E as ([[[[tauold taumax] isave] ta] tb] & s4 & E4 & E).
  apply (LOOP_inv (fun _ (_ : N * N * Z * N * N) t => t = s3)) in E4; [|reflexivity|].
  2: { intros j [[[[? ?] ?] ?] ?] t a' t' Hj -> E5. apply b_inv in E5 as ([sth cth] & t2 & E5 & E6).
       apply sin_cos_ev in E5. subst t2. st E6. repeat match type of E6 with (if ?b then _ else _) _ = _ => destruct b end; rt E6; reflexivity. }
  subst s4. set (angle := best_angle _ _ _ _ _ _) in E. clearbody angle. st E.
  apply b_inv in E as ([] & s4 & E4 & E).
  apply (LOOP__inv (fun k t =>
    (forall i, 1 <= i <= Z.of_nat k -> v_ t d i = nadd (nmul (ncos angle) (v_ s d i)) (nmul (nsin angle) (v_ s2 s_ i))) /\
    (forall i, Z.of_nat k < i <= n -> v_ t d i = v_ s d i /\ v_ t s_ i = v_ s2 s_ i))) in E4.
  2: { split; [intros; lia|]. intros i Hi. rewrite !K3 by (cbn; auto; lia). rewrite A1 by lia. auto. }
  2: { intros j t a' t' Hj (B1 & B2) E5. do 2 st E5. eapply as_inv in E5; [|ev]. subst t'. split; intros i Hi.
       - destruct (Z.eq_dec i (Z.of_nat (S j))) as [->|Ne]; vv; [|apply B1; lia].
         destruct (B2 (Z.of_nat (S j))) as (-> & ->); [lia|]. reflexivity.
       - vv. apply B2. lia. }
  destruct E4 as (B1 & _). rewrite Z2Nat.id in B1 by lia.
  assert (O4 : onlag s4).
  { clear E K3. intros u' Hu'.
    assert (D : forall i, 1 <= i <= n -> exists c t x y q k T, ncos angle = Some c /\ nsin angle = Some t /\ v_ s d i = Some x /\
      v_ s s_ i = Some y /\ dd = Some q /\ sp = Some k /\ denom = Some T /\ T <> 0%R /\
      u' i = (c * x + t * ((q * y - k * x) / T))%R).
    { intros i Hi. specialize (Hu' i Hi). rewrite (B1 i Hi) in Hu'. apply e_add in Hu' as (a & b & Ea & Eb & ->).
      apply e_mul in Ea as (c & x & Ec & Ex & ->). apply e_mul in Eb as (t & e & Et & Ee & ->). rewrite (A2 i Hi) in Ee.
      apply e_div in Ee as (z & T & Ez & ET & HT & ->). apply e_sub in Ez as (a & b & Ea & Eb & ->).
      apply e_mul in Ea as (q & y & Eq & Ey & ->). apply e_mul in Eb as (k & x' & Ek & Ex' & ->).
      rewrite Ex in Ex'. injection Ex' as <-. exists c, t, x, y, q, k, T. repeat split; assumption. }
    destruct (D 1 ltac:(lia)) as (c & t & _ & _ & q & k & T & Ec & Et & _ & _ & Eq & Ek & ET & HT & _).
    set (u := fun i => dv (v_ s d i)). set (v := fun i => dv (v_ s s_ i)).
    assert (Hu : forall i, 1 <= i <= n -> v_ s d i = Some (u i)).
    { intros i Hi. unfold u. destruct (D i Hi) as (? & ? & ? & ? & ? & ? & ? & _ & _ & -> & _). reflexivity. }
    assert (Hv : forall i, 1 <= i <= n -> v_ s s_ i = Some (v i)).
    { intros i Hi. unfold v. destruct (D i Hi) as (? & ? & ? & ? & ? & ? & ? & _ & _ & _ & -> & _). reflexivity. }
    assert (Eu : forall i, 1 <= i <= n -> u' i = (c * u i + t * ((q * v i - k * u i) / T))%R).
    { intros i Hi. destruct (D i Hi) as (c1 & t1 & x1 & y1 & q1 & k1 & T1 & F1 & F2 & F3 & F4 & F5 & F6 & F7 & _ & ->).
      rewrite Ec in F1. injection F1 as <-. rewrite Et in F2. injection F2 as <-. rewrite Eq in F5. injection F5 as <-.
      rewrite Ek in F6. injection F6 as <-. rewrite ET in F7. injection F7 as <-. rewrite Hu in F3 by exact Hi.
      injection F3 as <-. rewrite Hv in F4 by exact Hi. injection F4 as <-. reflexivity. }
    assert (Q : q = dot u u).
    { rewrite Edd in Eq. rewrite (osum_some _ (fun i => u i * u i)%R) in Eq; [injection Eq as <-; reflexivity|].
      intros i Hi. rewrite Hu by lia. reflexivity. }
    assert (QK : k = dot u v).
    { rewrite Esp in Ek. rewrite (osum_some _ (fun i => u i * v i)%R) in Ek; [injection Ek as <-; reflexivity|].
      intros i Hi. rewrite Hu, Hv by lia. reflexivity. }
    assert (S : ss = Some (dot v v)).
    { rewrite Ess. apply osum_some. intros i Hi. rewrite Hv by lia. reflexivity. }
    assert (TT : (T * T = q * dot v v - k * k)%R).
    { unfold denom, temp in ET. rewrite Eq, Ek, S in ET. apply e_sqrt in ET as (x & Ex & Hx & ->). injection Ex as <-.
      apply sqrt_sqrt, Hx. }
    rewrite Q, QK in TT. rewrite Q, QK in Eu. destruct (orth_ok n u v T HT TT) as (Fe & Fue). cbv zeta in Fe, Fue.
    rewrite (vdot_ext n u' u' _ _ Eu Eu). apply (rot_ok n u (fun i => (dot u u * v i - dot u v * u i) / T)%R).
    - exact (circle angle c t Ec Et).
    - apply O. exact Hu.
    - rewrite Fe. apply O. exact Hu.
    - exact Fue. }
  destruct (nle _ _); rt E; exact O4.
Qed.

Theorem biglag_ok s r s' : biglag ncos nsin n npt xopt xpt bmat zmat idz ndim knew delta d hcol gc gd s_ w s = Ret r s' -> onlag s'.
Proof.
  intros E. unfold biglag in E. apply b_inv in E as (alpha & s1 & E1 & E). apply lag_init_ok in E1.
  apply b_inv in E as (r2 & s2 & E2 & E). rt E.
  apply (loopx_inv (fun _ s => onlag s) (fun _ s => onlag s)) in E2; [exact E2| |auto|exact E1].
  intros i a t r0 t' HO E3. apply lag_pass_ok in E3; [destruct r0; exact E3|exact HO].
Qed.
End Biglag.
End Lag.
