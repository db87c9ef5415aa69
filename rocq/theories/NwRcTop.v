(** * The client and newuoa_optimize *)
From Coq Require Import ZArith List Bool Lia.
From Verif Require Import Num BqLang BqModel BqWp BqSafe BqSpec BqStart BqPc BqBest NwModel NwMain NwSpec NwTop NwInd NwRcSpec NwRc NwProps.
Import ListNotations.
Local Open Scope Z_scope.

Section Init.
Context {N : Num}.
Notation prog := (prog N).
Notation mst := (mst N).
Variables (n npt x work : Z).
Hypothesis (Hn : 2 <= n) (Hnpt : n + 2 <= npt) (Hnpt2 : 2 * npt <= (n + 1) * (n + 2)).
Hypothesis L : x + n <= work \/ work + nw_size n npt <= x.
Variable s : mst.
Variable val : Z -> N.
Hypothesis Hx : forall j, 1 <= j <= n -> mm s (at1 x j) = Some (val j) /\ nadd zero (val j) = val j.

Lemma upd_same (t : mst) a (v : N) : mm (upd t a v) a = Some v.
Proof. cbn. rewrite Z.eqb_refl. reflexivity. Qed.
Lemma upd_other (t : mst) a b (v : N) : b <> a -> mm (upd t a v) b = mm t b.
Proof. intros H. cbn. destruct (Z.eqb_spec b a); [contradiction|reflexivity]. Qed.

Notation xpt := (o_xpt n npt work).
Notation fval := (o_fval n npt work).
Definition keep (t : mst) : Prop := forall j, 1 <= j <= n -> mm t (at1 x j) = Some (val j).
Definition base (k : Z) (t : mst) : Prop := keep t /\ forall j, 1 <= j < k -> mm t (at1 work j) = Some (val j) /\ mm t (at2 xpt npt 1 j) = Some zero.
Lemma base_upd k t a v : k <= n + 1 -> base k t -> fval <= a < work + nw_size n npt -> base k (upd t a v).
Proof.
  intros Hk [B1 B2] Ha. destruct (area_eqs n npt work) as (G1 & G2 & G3 & G4 & _). split.
  - intros j Hj. rewrite upd_other; [apply B1, Hj|]. unfold at1. nia.
  - intros j Hj. destruct (B2 j Hj) as [C1 C2]. pose proof (at2_range xpt npt n 1 j ltac:(lia) ltac:(lia)).
    rewrite !upd_other; [auto| |]; unfold at1 in *; nia.
Qed.

Lemma init_x : wp (init (N := N) n npt x work) s (fun _ t => forall j, 1 <= j <= n -> mm t (at1 x j) = mm s (at1 x j)).
Proof.
  assert (Hn1 : 1 <= n) by lia.
  destruct (area_facts n npt work Hn1 Hnpt Hnpt2) as (F1 & F2 & F3 & F4 & F5).
  destruct (area_eqs n npt work) as (G1 & G2 & G3 & G4 & G5 & G6 & G7 & G8 & G9 & G10 & G11 & G12).
  set (W := fun a => work <= a < work + nw_size n npt).
  assert (HW : forall a, work <= a < work + nw_size n npt -> W a) by (intros a Ha; exact Ha).
  assert (Abm := A_bmat W n npt work Hn1 Hnpt Hnpt2 HW). assert (Azm := A_zmat W n npt work Hn1 Hnpt Hnpt2 HW).
  assert (Ahq := A_hq W n npt work Hn1 Hnpt Hnpt2 HW). assert (Apq := A_pq W n npt work Hn1 Hnpt Hnpt2 HW).
  unfold init, LOOP_. apply wp_bind. apply (wp_loopJ (fun k (_ : unit) t => base k t)); [lia| | |].
  { split; [|lia]. intros j Hj. apply Hx, Hj. }
  { intros j _ t Hj B. apply wp_bind, wp_assign, wp_ld. intros v Ev.
    assert (v = val j) by (destruct B as [B _]; rewrite (B j Hj) in Ev; congruence). subst v.
    apply wp_bind. apply (wp_loopJ (fun k (_ : unit) t => base j t /\ mm t (at1 work j) = Some (val j) /\
      (1 < k -> mm t (at2 xpt npt 1 j) = Some zero))); [lia| | |].
    - split; [|split; [apply upd_same|lia]]. destruct B as [B1 B2]. split.
      + intros i Hi. rewrite upd_other; [apply B1, Hi|]. unfold at1. nia.
      + intros i Hi. destruct (B2 i Hi) as [C1 C2]. pose proof (at2_range xpt npt n 1 i ltac:(lia) ltac:(lia)).
        rewrite !upd_other; [auto| |]; unfold at1 in *; nia.
    - intros k _ t' Hk ([B1 B2] & B3 & B4). apply wp_assign, wp_ret. pose proof (at2_range xpt npt n k j ltac:(lia) ltac:(lia)).
      split; [split|split].
      + intros i Hi. rewrite upd_other; [apply B1, Hi|]. unfold at1. nia.
      + intros i Hi. destruct (B2 i Hi) as [C1 C2]. rewrite !upd_other; [auto| |]; [|unfold at1 in *; nia].
        intros E. apply at2_inj in E; lia.
      + rewrite upd_other; [exact B3|]. unfold at1 in *. nia.
      + intros _. destruct (Z.eq_dec k 1) as [->|Ne]; [apply upd_same|]. rewrite upd_other; [apply B4; lia|].
        intros E. apply at2_inj in E; lia.
    - intros _ t' ([B1 B2] & B3 & B4). assert (B5 : base (j + 1) t').
      { split; [exact B1|]. intros i Hi. destruct (Z.eq_dec i j) as [->|Ne]; [split; [exact B3|apply B4; lia]|apply B2; lia]. }
      clear B1 B2 B3 B4. apply (wp_loopJ (fun _ (_ : unit) t => base (j + 1) t)); [lia|exact B5| |auto].
      intros i _ t'' Hi B6. apply wp_assign, wp_ret. apply base_upd; [lia|exact B6|].
      specialize (Abm i j Hi Hj). unfold W in Abm. unfold at2 in *. nia. }
  intros _ t B. apply wp_bind. apply (wp_loopJ (fun _ (_ : unit) t => base (n + 1) t)); [lia|exact B| |].
  { intros i _ t' Hi B'. apply wp_assign, wp_ret. apply base_upd; [lia|exact B'|]. specialize (Ahq i Hi). unfold W, at1 in *. lia. }
  clear t B. intros _ t B. apply wp_bind. apply (wp_loopJ (fun _ (_ : unit) t => base (n + 1) t)); [lia|exact B| |].
  { intros k _ t' Hk B'. apply wp_bind, wp_assign, wp_ret. apply (wp_loopJ (fun _ (_ : unit) t => base (n + 1) t)); [lia| | |auto].
    - apply base_upd; [lia|exact B'|]. specialize (Apq k Hk). unfold W, at1 in *. lia.
    - intros j _ t'' Hj B''. apply wp_assign, wp_ret. apply base_upd; [lia|exact B''|]. specialize (Azm k j Hk Hj). unfold W, at2 in *.
      assert (0 <= (j - 1) * npt) by nia. lia. }
  clear t B. intros _ t B. apply (wp_loopJ (fun _ (_ : unit) t => base (n + 1) t)); [lia|exact B| |].
  { intros j _ t' Hj [B1 B2]. destruct (B2 j ltac:(lia)) as [C1 C2]. apply wp_assign, wp_lift2, wp_ld. intros v1 E1. apply wp_ld. intros v2 E2.
    assert (v1 = zero) by congruence. assert (v2 = val j) by congruence. subst v1 v2. rewrite (proj2 (Hx j Hj)). split.
    - intros i Hi. destruct (Z.eq_dec i j) as [->|Ne]; [apply upd_same|]. rewrite upd_other; [apply B1, Hi|]. unfold at1. lia.
    - intros i Hi. destruct (B2 i Hi) as [D1 D2]. pose proof (at2_range xpt npt n 1 i ltac:(lia) ltac:(lia)).
      rewrite !upd_other; [auto| |]; unfold at1 in *; nia. }
  intros _ t' [B' _] j Hj. rewrite (B' j Hj). symmetry. apply Hx, Hj.
Qed.
End Init.

Section Top.
Context {N : Num}.
Notation prog := (prog N).
Notation mst := (mst N).
Variables (ncos nsin : N -> N).
Variables (n npt : Z) (maximize : bool) (fn : list (list N * N) -> list N -> N) (x : Z) (rhobeg rhoend : N).
Variables (maxfun work : Z) (fi : nat) (s : mst).
Hypothesis HL : nlayout n npt x None work s.
Hypothesis (Hn : 2 <= n) (Hnpt : n + 2 <= npt <= (n + 1) * (n + 2) / 2).
Hypothesis Hx : forall i v, 0 <= i < n -> mm s (x + i) = Some v -> nadd zero v = v.
Notation obj := (objfun (mkctx fn None 0 one n) x).
Notation optimize := (nw_optimize ncos nsin n npt maximize fn x rhobeg rhoend maxfun work None fi).
Notation client := (client ncos nsin n maximize fn x fi).
Notation ctx0 := (mkc n npt rhobeg rhoend maxfun work nv0 0).
Notation finish := (nw_end n maximize x work None).

Lemma readn_same k : forall a (t u : mst), (forall i, 0 <= i < Z.of_nat k -> mm t (a + i) = mm u (a + i)) ->
  readn k a t = match readn k a u with Ret p _ => Ret p t | Undef _ => Undef t | Cast _ => Cast t | More _ => More t end.
Proof.
  induction k as [|k IH]; intros a t u H; cbn [readn]; [reflexivity|]. unfold bind, ld.
  assert (E := H 0 ltac:(lia)). rewrite Z.add_0_r in E. rewrite E. destruct (mm u a) as [v|]; [|reflexivity].
  rewrite (IH (a + 1) t u); [|intros i Hi; replace (a + 1 + i) with (a + (i + 1)) by lia; apply H; lia].
  destruct (readn k (a + 1) u); reflexivity.
Qed.
Lemma obj_same t u f t' : (forall i, 0 <= i < n -> mm t (x + i) = mm u (x + i)) -> evs t = evs u -> obj t = Ret f t' ->
  exists p, t' = mkmst (mm t) ((p, f) :: evs t) /\ obj u = Ret f (mkmst (mm u) ((p, f) :: evs u)).
Proof.
  intros H He. unfold objfun. cbn [c_n c_objfun]. unfold bind.
  assert (K : forall k a (t : mst), match readn k a t with Ret _ u | Undef u => u = t | _ => False end).
  { clear. induction k as [|k IH]; intros a t; cbn [readn]; [reflexivity|]. unfold bind, ld. destruct (mm t a); [|reflexivity].
    specialize (IH (a + 1) t). destruct (readn k (a + 1) t); cbn; auto. }
  specialize (K (Z.to_nat n) x u). rewrite (readn_same (Z.to_nat n) x t u); [|intros i Hi; apply H; lia].
  destruct (readn (Z.to_nat n) x u) as [p w|w|w|w]; try discriminate. subst w. intros [= <- <-]. exists p. rewrite He. split; reflexivity.
Qed.
Lemma init_same t : init n npt x work s = Ret tt t -> (forall i, 0 <= i < n -> mm t (x + i) = mm s (x + i)) /\ evs t = evs s /\
  forall e, init n npt x work (mkmst (mm s) e) = Ret tt (mkmst (mm t) e).
Proof.
  intros E. split; [|split].
  - assert (HX : forall j, 1 <= j <= n -> mm s (at1 x j) = Some (match mm s (at1 x j) with Some v => v | None => zero end) /\
      nadd zero (match mm s (at1 x j) with Some v => v | None => zero end : N) = match mm s (at1 x j) with Some v => v | None => zero end).
    { intros j Hj. destruct (nl_x _ _ _ _ _ _ HL (j - 1)) as [v Ev]; [lia|]. unfold at1. rewrite Ev. split; [reflexivity|]. eapply Hx; [|exact Ev]. lia. }
    assert (K := init_x (N := N) n npt x work Hn ltac:(lia) (npt2' n npt Hnpt)).
    assert (Ln : x + n <= work \/ work + nw_size n npt <= x).
    { pose proof (nl_x_w _ _ _ _ _ _ HL) as A. unfold apart, ndoc_size, nw_size in *. lia. }
    specialize (K Ln s _ HX tt t E). intros i Hi. specialize (K (i + 1) ltac:(lia)). unfold at1 in K. replace (x + (i + 1 - 1)) with (x + i) in K by lia. exact K.
  - apply (ind_evs _ s (ind_init n npt x work) tt t E).
  - intros e. rewrite ind_init, E. reflexivity.
Qed.

Lemma client_first F k st s' f : obj s = Ret f st -> 
  client F (S k) ctx0 s = bind (newuoa_iterate ncos nsin ctx0 (sgn maximize f) (Some x) fi F) (fun c => client F k c) st /\ s' = s' :> Z.
Proof. intros E. split; [|reflexivity]. cbn [NwRcSpec.client newuoa_get_status k_status mkc k_v v_status nv0]. unfold bind at 1. rewrite E. reflexivity. Qed.

Lemma fwd_top fuel st s2 F k : optimize fuel s = Ret st s2 -> (fuel < F)%nat -> (fuel < k)%nat ->
  exists v' ne' s3, client F k ctx0 s = Ret (mkc n npt rhobeg rhoend maxfun work v' ne') s3 /\ finish v' s3 = Ret st s2 /\
    ne' - Z.of_nat (length (evs s3)) = - Z.of_nat (length (evs s)).
Proof.
  intros E HF Hk.
  assert (E3 : exists m, fuel = S (S (S m))).
  { destruct fuel as [|[|[|m]]]; [| | |eauto]; exfalso.
    all: assert (E' := E); unfold nw_optimize, nw_run in E'; unfold bind at 1 in E'; assert (B := begin_50 n npt x rhobeg work Hn (B := nstatus) nv0 s);
      unfold bind at 1 in B; destruct (nw_begin n npt x rhobeg work nv0 s) as [v t|t|t|t]; try discriminate E'; cbn [machine] in E'; try discriminate E';
      unfold bind at 1 in E'; cbn [nw_step fst snd] in E'; rewrite B in E'; unfold bind at 1 in E'; destruct (init n npt x work s) as [[] u|u|u|u]; try discriminate E'.
    cbn [ret] in E'. unfold bind at 1 in E'. cbn [nw_step fst snd] in E'. unfold nw_310 in E'. cbn [v1st v_nf s_nfm s_nfmm s_nf] in E'.
    destruct (Z.ltb_spec (Z.max maxfun 1) (0 + 1)); [lia|discriminate E']. }
  destruct E3 as [m ->]. rewrite opt_first in E by exact Hn. unfold bind at 1 in E.
  destruct (init n npt x work s) as [[] t|t|t|t] eqn:Ei; try discriminate E. destruct (init_same t Ei) as (I1 & I2 & I3).
  unfold bind at 1 in E. destruct (obj t) as [f u|u|u|u] eqn:Eo; try discriminate E.
  destruct (obj_same t s f u I1 I2 Eo) as (p & -> & Es).
  destruct k as [|k]; [lia|]. rewrite (proj1 (client_first F k _ 0 f Es)). destruct F as [|[|[|F]]]; try lia.
  unfold bind at 1. rewrite iter_first by exact Hn. unfold bind at 1. rewrite I3. unfold bind at 1.
  destruct (fwd ncos nsin n npt maximize fn x rhobeg rhoend maxfun work fi m (s_f (sgn maximize f) (v1st n rhobeg nv0)) _ st s2 F (S (S (S F))) k 0 eq_refl E) as (v1 & s1 & v' & ne' & s3 & A1 & A2 & A3 & A4); try lia.
  rewrite I2 in A1. rewrite A1. cbn [ret]. exists v', ne', s3. split; [exact A2|]. split; [exact A3|]. rewrite A4. cbn [evs length]. rewrite I2. lia.
Qed.

Lemma iterate_mono c f F F' t c' t' : (F <= F')%nat ->
  newuoa_iterate ncos nsin c f (Some x) fi F t = Ret c' t' -> newuoa_iterate ncos nsin c f (Some x) fi F' t = Ret c' t'.
Proof.
  intros HF. unfold newuoa_iterate, nw_run. destruct (k_status c); auto. destruct (1 <? k_nevals c + 1).
  - unfold bind at 1. intros E. destruct (machine F _ _ t) as [v u|u|u|u] eqn:Em; try discriminate E.
    unfold bind at 1. rewrite (machine_mono _ _ _ _ _ _ F' Em HF). exact E.
  - destruct (negb _); [auto|]. unfold bind at 1 3. destruct (nw_begin _ _ _ _ _ _ t) as [v0 t0|t0|t0|t0]; auto.
    unfold bind. intros E. destruct (machine F _ _ t0) as [v u|u|u|u] eqn:Em; try discriminate E.
    rewrite (machine_mono _ _ _ _ _ _ F' Em HF). exact E.
Qed.

Lemma bwd_top F k c' s3 : client F k ctx0 s = Ret c' s3 ->
  exists fuel, optimize fuel s = finish (k_v c') s3.
Proof.
  intros E. destruct k as [|k]; [discriminate E|].
  destruct (obj s) as [f u|u|u|u] eqn:Eo;
    try (cbn [NwRcSpec.client newuoa_get_status k_status mkc k_v v_status nv0] in E; unfold bind at 1 in E; rewrite Eo in E; discriminate E).
  rewrite (proj1 (client_first F k _ 0 f Eo)) in E. unfold bind at 1 in E.
  destruct (newuoa_iterate ncos nsin ctx0 (sgn maximize f) (Some x) fi F u) as [c1 s1|s1|s1|s1] eqn:E1; try discriminate E.
  apply (iterate_mono _ _ F (S (S (S F)))) in E1; [|lia]. rewrite iter_first in E1 by exact Hn. unfold bind at 1 in E1.
  destruct (obj_same s s f u ltac:(reflexivity) eq_refl Eo) as (p & -> & _).
  destruct (init n npt x work s) as [[] t|t|t|t] eqn:Ei.
  2-4: rewrite ind_init, Ei in E1; discriminate E1.
  destruct (init_same t Ei) as (I1 & I2 & I3). rewrite I3 in E1. unfold bind at 1 in E1.
  destruct (machine F _ _ _) as [v1 t1|t1|t1|t1] eqn:Em in E1; try discriminate E1. injection E1 as <- <-.
  destruct (bwd ncos nsin n npt maximize fn x rhobeg rhoend maxfun work fi F k (s_f (sgn maximize f) (v1st n rhobeg nv0)) _ F 0 v1 t1 c' s3 eq_refl ltac:(lia) Em E) as (m & Hm).
  exists (S (S (S m))). rewrite opt_first by exact Hn. unfold bind at 1. rewrite Ei. unfold bind at 1.
  destruct (obj_same s t f _ ltac:(intros i Hi; symmetry; apply I1, Hi) ltac:(symmetry; exact I2) Eo) as (p' & Ep & Et). injection Ep as Ep. subst p'.
  rewrite Et, I2. exact Hm.
Qed.
End Top.
