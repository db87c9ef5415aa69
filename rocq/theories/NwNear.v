(** * The points where NEWUOA asks for a value of the objective function: proofs *)
From Coq Require Import ZArith List Reals Bool Lia Lra.
Import ListNotations.
From Flocq Require Import Core.
From Verif Require Import Num BqLang BqModel BqWp BqSafe BqEval BqRun BqSpec BqTop Yields NumE NwModel NwSafe NwMain NwSpec NwTop NwRho MemE NwVec NwTrust NwLag NwDen.
Local Open Scope Z_scope.

Section Near.
Variables (H J : R).
Local Notation N := (NumE H J).
Variables (ncos nsin : N -> N).
Hypothesis circle : forall (t : N) (x y : R), ncos t = Some x -> nsin t = Some y -> (x * x + y * y = 1)%R.
Local Notation nvars := (nvars (N := N)).
Local Notation mst := (mst N).
Local Notation v_ s p i := (val s (at1 p i)).

(** ** The scalar variables *)
Lemma bmax_r (a : N) (b : R) : exists e, bmax a (Some b : N) = Some e /\ (b <= e)%R.
Proof.
  unfold bmax. destruct (nle (Some b : N) a) eqn:E; [|exists b; split; [reflexivity|lra]].
  destruct a as [a|]; [|discriminate E]. apply nle_e in E. exists a. auto.
Qed.
Lemma bmin_r (a : N) (b : R) : exists e, bmin a (Some b : N) = Some e /\ (e <= b)%R.
Proof.
  unfold bmin. destruct (nle a (Some b : N)) eqn:E; [|exists b; split; [reflexivity|lra]].
  destruct a as [a|]; [|discriminate E]. apply nle_e in E. exists a. auto.
Qed.
Lemma pick_r (d r : R) : (0 < r)%R ->
  exists e, (if nle (Some d : N) (nmul (Some r : N) (nQ 3 2)) then (Some r : N) else (Some d : N)) = Some e /\ (r <= e)%R.
Proof.
  intros Hr. destruct (nle _ _) eqn:E; [exists r; split; [reflexivity|lra]|]. exists d. split; [reflexivity|].
  apply nle_f in E. lra.
Qed.

Variables (n npt x : Z) (rb re : R) (maxfun w : Z).
Hypothesis (Hn : 1 <= n) (Hnpt : n + 2 <= npt) (Hnpt2 : 2 * npt <= (n + 1) * (n + 2)).
Hypothesis (Hre : (0 < re)%R) (Hrb : (re <= rb)%R).
Local Notation rhobeg := (Some rb : N).
Local Notation rhoend := (Some re : N).
Local Notation ndim := (npt + n).
Local Notation nh := (n * (n + 1) / 2).
Local Notation nptm := (npt - (n + 1)).
Local Notation xopt := (o_xopt n npt w).
Local Notation xnew := (o_xnew n npt w).
Local Notation xpt := (o_xpt n npt w).
Local Notation fval := (o_fval n npt w).
Local Notation gq := (o_gq n npt w).
Local Notation hq := (o_hq n npt w).
Local Notation pq := (o_pq n npt w).
Local Notation bmat := (o_bmat n npt w).
Local Notation zmat := (o_zmat n npt w).
Local Notation d := (o_d n npt w).
Local Notation vlag := (o_vlag n npt w).
Local Notation ww := (o_w n npt w).
Hypothesis Hxw : x + n <= w \/ w + nw_size n npt <= x.
Local Notation dot := (vdot n).
Local Notation vec := (NwVec.vec n).

Definition vr (v : nvars) : Prop := exists e r, v_delta v = Some e /\ v_rho v = Some r /\ (0 < r <= e)%R.
Definition vok (v : nvars) : Prop := vr v /\ exists t, v_dnorm v = Some t.
Definition short (s : mst) (v : nvars) : Prop := forall e u, v_delta v = Some e -> vec s d u -> (dot u u <= e * e)%R.
Definition near (s : mst) (v : nvars) : Prop := forall e u b o, v_delta v = Some e -> vec s x u -> vec s w b -> vec s xopt o ->
  (dot (fun i => u i - b i - o i) (fun i => u i - b i - o i) <= e * e)%R.
(** What is true at the labels *)
Definition L (l : nlabel * nvars) (s : mst) : Prop :=
  let v := snd l in
  match fst l with
  | N50 => v_nf v < npt
  | N70 => v_nf v <= npt
  | N90 | N100 => vr v
  | N120 => vok v /\ (v_knew v <= 0 -> short s v) /\
      (0 < v_knew v -> exists t, v_dstep v = Some t /\ forall e, v_delta v = Some e -> (t * t <= e * e)%R)
  | N290 => vok v /\ short s v
  | N310 | Neval => v_nf v <= npt \/ (vok v /\ near s v)
  | Nnew => v_nf v <= npt \/ vok v
  | N460 | N490 => vok v /\ (v_knew v = -1 -> short s v)
  | Ndone => v_status v <> NW_ITERATE
  end.
Context {B : Type}.
Definition Lp (r : nlabel * nvars + B) : Prop := match r with inl l => forall s, L l s | inr _ => False end.
Lemma go l v : (forall s, L (l, v) s) -> yields (ngoto (B := B) l v) Lp.
Proof. intros K. apply (y_ret (inl (l, v)) Lp). exact K. Qed.

Lemma n50_l v : v_nf v < npt -> yields (nw_50 n npt x rhobeg w xpt fval (B := B) v) Lp.
Proof.
  intros Hv. unfold nw_50. cbv zeta. eapply y_bind with (P := fun u => v_nf u = v_nf v + 1).
  - destruct (_ <=? _); [apply y_bindT; intros _; apply y_ret; reflexivity|].
    match goal with |- context [if ?b then (?p, ?q) else (?r, ?t)] => destruct (if b then (p, q) else (r, t)) as [ip jp] end.
    do 4 (apply y_bindT; intros ?). apply y_ret. reflexivity.
  - intros u U. apply y_bindT. intros _. apply go. intros s. left. cbn [snd]. lia.
Qed.

Lemma n70_l v : v_nf v <= npt -> yields (nw_70 n npt rhobeg xopt xpt fval gq hq bmat zmat (B := B) v) Lp.
Proof.
  intros Hv. unfold nw_70. cbv zeta. apply y_bindT. intros _. eapply y_bind with (P := fun u => v_nf u = v_nf v).
  - match goal with |- context [if (v_nf v =? 1) then ?p else ?q] => set (u := if (v_nf v =? 1) then p else q) end.
    assert (U : v_nf u = v_nf v) by (unfold u; destruct (_ =? 1); [|destruct (nlt _ _)]; reflexivity).
    clearbody u. destruct (_ <=? _).
    + apply y_bindT. intros _. apply y_ret. exact U.
    + do 5 (apply y_bindT; intros ?). apply y_ret. exact U.
  - intros u U. destruct (Z.ltb_spec (v_nf v) npt) as [K|K].
    + apply go. intros s. unfold L. cbn [fst snd]. lia.
    + apply y_bindT. intros xs. apply go. intros s. unfold L, vr. nvr. exists rb, rb. repeat split; lra.
Qed.

Lemma n410_l fsave v : vok v -> yields (nw_410 n npt xnew xpt fval gq hq pq bmat zmat vlag ww (B := B) fsave v) Lp.
Proof.
  intros Hv. unfold nw_410. cbv zeta. do 7 (apply y_bindT; intros ?).
  match goal with |- context [if nlt (v_f v) fsave then ?p else ?q] => set (u := if nlt (v_f v) fsave then p else q) end.
  assert (U : v_rho u = v_rho v /\ v_delta u = v_delta v /\ v_dnorm u = v_dnorm v) by (unfold u; destruct (nlt _ _); repeat split).
  clearbody u. destruct U as (U1 & U2 & U3). unfold vok, vr in Hv.
  destruct (_ || _)%bool; apply go; intros s; unfold L, vok, vr; nvr; rewrite ?U1, ?U2, ?U3; [tauto|].
  split; [exact Hv|discriminate].
Qed.

Lemma nnew_l v : v_nf v <= npt \/ vok v -> yields (nw_new n npt xopt xnew xpt fval gq hq pq bmat zmat d vlag ww (B := B) v) Lp.
Proof.
  intros HK. unfold nw_new. cbv zeta. destruct (Z.leb_spec (v_nf v) npt) as [K|K]; [apply go; intros s; exact K|].
  destruct HK as [HK|HK]; [lia|].
  destruct (_ =? -1); [unfold nfail; apply go; intros s; discriminate|].
  apply y_bindT. intros vq. apply y_bindT. intros df.
  match goal with |- context [if nlt (v_rho ?p) (v_dnorm ?q) then s_nfsav ?k ?r else ?t] =>
    set (u := if nlt (v_rho p) (v_dnorm q) then s_nfsav k r else t) end.
  assert (U : vok u) by (unfold u; match goal with |- context [if ?b then _ else _] => destruct b end; exact HK).
  clearbody u. eapply y_bind with (P := vok).
  { destruct (nlt _ _); [apply y_bindT; intros ?|]; apply y_ret; exact U. }
  generalize (v_fopt u) as fsave. intros fsave. clear u U. intros u U.
  destruct (0 <? _); [apply n410_l; exact U|].
  destruct (nle zero vq); [unfold nfail; apply go; intros s; discriminate|].
  destruct U as ((e & r & E1 & E2 & E3) & t & E4). nvr.
  match goal with |- context [if nle ?dl (nmul (v_rho u) (nQ 3 2)) then v_rho u else ?dl] =>
    set (de := dl) end.
  assert (KD : exists f, de = Some f).
  { unfold de. rewrite E1, E4. destruct (nle _ _); [eexists; reflexivity|].
    destruct (nle _ _); [destruct (bmax_r (nmul (Some e : N) half) t) as (f & F & _)|
      destruct (bmax_r (nmul (Some e : N) half) (t + t)%R) as (f & F & _)]; exists f; exact F. }
  destruct KD as [f KD]. rewrite KD, E2. destruct (pick_r f r (proj1 E3)) as (g & G1 & G2). rewrite G1.
  apply y_bindT. intros kn.
  destruct (kn =? 0) eqn:EK.
  - apply Z.eqb_eq in EK. apply go. intros s. unfold L. nvr. split; [|rewrite EK; discriminate].
    split; [exists g, r; nvr; repeat split; try assumption; lra|exists t; exact E4].
  - apply n410_l. split; [exists g, r; nvr; repeat split; try assumption; lra|exists t; exact E4].
Qed.

(** ** The memory *)
Ltac lay := destruct (area_facts n npt w Hn Hnpt Hnpt2) as (F1 & F2 & F3 & F4 & F5);
  destruct (area_eqs n npt w) as (G1 & G2 & G3 & G4 & G5 & G6 & G7 & G8 & G9 & G10 & G11 & G12).

Lemma vr_490 (v : nvars) : vr v -> nlt rhoend (v_rho v) = true ->
  let ratio := ndiv (v_rho v) rhoend in
  let rho := if nle ratio (nZ 16) then rhoend else if nle ratio (nZ 250) then nmul (nsqrt ratio) rhoend else nmul tenth (v_rho v) in
  exists r e, rho = Some r /\ bmax (nmul half (v_rho v)) rho = Some e /\ (0 < r <= e)%R.
Proof.
  intros (e & r & _ & E2 & E3) K. rewrite E2 in *. apply nlt_e in K. cbv zeta. rewrite s_div by lra.
  assert (Q : exists r', (if nle (Some (r / re)%R : N) (nZ 16) then rhoend else if nle (Some (r / re)%R : N) (nZ 250) then nmul (nsqrt (Some (r / re)%R : N)) rhoend
    else nmul tenth (Some r : N)) = Some r' /\ (0 < r')%R).
  { assert (0 < r / re)%R by (apply Rdiv_lt_0_compat; lra). destruct (nle _ _); [exists re; auto|]. destruct (nle _ _).
    - rewrite s_sqrt by lra. eexists. split; [reflexivity|]. apply Rmult_lt_0_compat; [apply sqrt_lt_R0; assumption|exact Hre].
    - exists (1 / 10 * r)%R. split; [reflexivity|]. lra. }
  destruct Q as (r' & -> & Q). destruct (bmax_r (nmul half (Some r : N)) r') as (e' & -> & Q'). exists r', e'. auto.
Qed.

Local Notation Lpost s' r := (match r with inl l => L l s' | inr _ => False end).

Lemma n490_m v s r s' : L (N490, v) s -> nw_490 rhoend (B := B) v s = Ret r s' -> Lpost s' r.
Proof.
  intros [V K] E. unfold L in *. cbn [fst snd] in *. unfold nw_490 in E. cbv zeta in E. destruct (nlt rhoend (v_rho v)) eqn:EN.
  - unfold ngoto in E. rt E. unfold vr. nvr. destruct (vr_490 v (proj1 V) EN) as (r & e & A & A' & A'').
    exists e, r. auto.
  - destruct (Z.eqb_spec (v_knew v) (-1)) as [Ek|Ek]; unfold nfail, ngoto in E; rt E; cbn [fst snd]; [split; [exact V|exact (K Ek)]|discriminate].
Qed.

Lemma short_d s s' v : (forall i, 1 <= i <= n -> v_ s' d i = v_ s d i) -> short s v -> short s' v.
Proof. intros A B0 e u Ee Hu. apply (B0 e u Ee). intros i Hi. rewrite <- (A i Hi). exact (Hu i Hi). Qed.

Lemma n310_m v s r s' : L (N310, v) s -> nw_310 maxfun (B := B) v s = Ret r s' -> Lpost s' r.
Proof.
  intros K E. unfold nw_310, nfail, ngoto in E. destruct (_ <? _); rt E; [|exact K]. unfold L. cbn [fst snd]. discriminate.
Qed.

Lemma n290_m v s r s' : L (N290, v) s -> nw_290 n x w xopt xnew d (B := B) v s = Ret r s' -> Lpost s' r.
Proof.
  intros [V K] E. lay. unfold nw_290 in E. apply b_inv in E as ([] & s1 & E1 & E). unfold ngoto in E. rt E.
  assert (HS : x + n <= w \/ ww + 11 * ndim <= x) by (rewrite F5; exact Hxw).
  apply (LOOP__inv (fun k t => (forall i, 1 <= i <= n -> v_ t d i = v_ s d i) /\ (forall i, 1 <= i <= n -> v_ t xopt i = v_ s xopt i) /\
    (forall i, 1 <= i <= n -> v_ t w i = v_ s w i) /\
    (forall i, 1 <= i <= Z.of_nat k -> v_ t x i = nadd (v_ s w i) (nadd (v_ s xopt i) (v_ s d i))))) in E1.
  - destruct E1 as (A1 & A2 & A3 & A4). rewrite Z2Nat.id in A4 by lia. unfold L. cbn [fst snd]. right. split; [exact V|].
    intros e u b o Ee Hu Hb Ho. apply (K e _ Ee). intros i Hi. specialize (Hu i Hi). specialize (Hb i Hi). specialize (Ho i Hi).
    rewrite (A4 i Hi) in Hu. rewrite (A3 i Hi) in Hb. rewrite (A2 i Hi) in Ho. rewrite Hb, Ho in Hu.
    apply e_add in Hu as (b' & y & [= <-] & Ey & ->). apply e_add in Ey as (o' & z & [= <-] & Ez & ->). rewrite Ez. f_equal. ring.
  - split; [auto|]. split; [auto|]. split; [auto|]. intros; lia.
  - intros j t a' t' Hj (A1 & A2 & A3 & A4) E2. st E2. eapply as_inv in E2; [|ev]. subst t'.
    assert (NE : forall q i, q + n <= xnew \/ xnew + n <= q -> 1 <= i <= n -> at1 q i <> at1 xnew (Z.of_nat (S j))) by (intros; unfold at1; lia).
    assert (NX : forall q i, q + n <= x \/ x + n <= q -> 1 <= i <= n -> at1 q i <> at1 x (Z.of_nat (S j))) by (intros; unfold at1; lia).
    split; [|split; [|split]]; intros i Hi.
    + rewrite val_ne by (apply NX; lia). rewrite val_ne by (apply NE; lia). apply A1, Hi.
    + rewrite val_ne by (apply NX; lia). rewrite val_ne by (apply NE; lia). apply A2, Hi.
    + rewrite val_ne by (apply NX; lia). rewrite val_ne by (apply NE; lia). apply A3, Hi.
    + destruct (Z.eq_dec i (Z.of_nat (S j))) as [->|Ni].
      * rewrite val_eq. rewrite val_eq. rewrite val_ne by (apply NE; lia). rewrite A1, A2, A3 by lia. reflexivity.
      * rewrite val_ne by (unfold at1; lia). rewrite val_ne by (unfold at1; lia). apply A4. lia.
Qed.

Lemma n460_m v s r s' : L (N460, v) s -> nw_460 n npt xopt xpt (B := B) v s = Ret r s' -> Lpost s' r.
Proof.
  intros [V K] E. cbn [fst snd] in *. unfold nw_460 in E. st E. apply b_inv in E as ([dq kn] & s1 & E1 & E).
  apply (LOOP_inv (fun k (a : N * Z) t => t = s /\ (snd a = v_knew v \/ 0 < snd a))) in E1.
  - destruct E1 as (-> & Hk). cbn [snd] in Hk. cbv zeta in E. destruct V as ((e & r0 & V1 & V2 & V3) & t & V4).
    assert (V' : vok (s_knew kn v)) by (split; [exists e, r0; auto|exists t; exact V4]).
    destruct (Z.ltb_spec 0 kn) as [P|P].
    + unfold ngoto in E. rt E. unfold L. nvr. split; [exact V'|]. split; [intros; lia|]. intros _.
      rewrite V1, V2 in *.
      destruct (bmin_r (nmul tenth (nsqrt dq)) (1 / 2 * e)%R) as (m & M1 & M2).
      change (nmul half (Some e : N)) with (Some (1 / 2 * e)%R : N). rewrite M1.
      unfold bmax. destruct (nle (Some r0 : N) (Some m : N)) eqn:EL.
      * exists m. split; [reflexivity|]. intros e' [= <-]. apply nle_e in EL. apply Rmult_le_compat; lra.
      * exists r0. split; [reflexivity|]. intros e' [= <-]. apply Rmult_le_compat; lra.
    + assert (Ek : kn = v_knew v) by lia. subst kn.
      destruct (_ || _)%bool; unfold ngoto in E; rt E; unfold L; cbn [fst snd]; [exact (proj1 V')|]. split; [exact V'|].
      intros Ek. exact (K Ek).
  - split; [reflexivity|]. left. reflexivity.
  - intros j [dq1 kn1] t [dq2 kn2] t' Hj (-> & Hk) E2. apply b_inv in E2 as (sum & s2 & E3 & E2).
    assert (S2 : s2 = s).
    { apply (LOOP_inv (fun _ (_ : N) t => t = s)) in E3; [exact E3|reflexivity|]. intros j' a t a' t1 _ -> E4. st E4. fe E4. reflexivity. }
    subst s2. match type of E2 with (if ?b then _ else _) _ = _ => destruct b end; apply r_inv in E2 as [[= -> ->] ->]; (split; [reflexivity|]); cbn [snd] in *; [right; lia|exact Hk].
Qed.

Lemma n100_m fuel v s r s' : L (N100, v) s -> nw_100 ncos nsin n npt xopt xpt gq hq pq d ww (B := B) fuel v s = Ret r s' -> Lpost s' r.
Proof.
  intros (e & r0 & V1 & V2 & V3) E. cbn [fst snd] in *. lay. unfold nw_100 in E. apply b_inv in E as (cr & s1 & E1 & E).
  rewrite V1 in E1. apply (trsapp_ok H J ncos nsin circle) in E1; [|exact Hn|lra|unfold NwVec.apart; lia..].
  apply b_inv in E as (dsq & s2 & E2 & E).
  apply (LOOP_inv (fun k (a : N) t => t = s1 /\ a = osum (fun i => nmul (v_ s1 d i) (v_ s1 d i)) k)) in E2.
  2: { split; reflexivity. }
  2: { intros j a t a' t' Hj (-> & ->) E3. fe E3. split; reflexivity. }
  destruct E2 as (-> & Ed). cbv zeta in E. rewrite V1 in E. destruct (bmin_r (nsqrt dsq) e) as (t & T1 & T2).
  nvr. rewrite T1, V2 in E. destruct (nlt _ _) eqn:EL.
  - apply nlt_e in EL.
    change (nmul tenth (v_delta (s_crvmin cr (s_dsq dsq (s_dnorm (Some t : N) (s_knew 0 v)))))) with (nmul tenth (v_delta v)) in E.
    rewrite V1 in E. change (nmul tenth (Some e : N)) with (Some (1 / 10 * e)%R : N) in E.
    destruct (pick_r (1 / 10 * e)%R r0 (proj1 V3)) as (e' & P1 & P2). rewrite P1 in E.
    assert (SH : forall u, vec s1 d u -> (dot u u <= e' * e')%R).
    { intros u Hu. rewrite (osum_some _ (fun i => u i * u i)%R) in Ed by (intros i Hi; rewrite Hu by lia; reflexivity).
      fold (dot u u) in Ed. rewrite Ed in T1. rewrite s_sqrt in T1 by apply vdot_pos. unfold bmin in T1.
      match type of T1 with (if ?b then _ else _) = _ => destruct b end; injection T1 as <-; [|lra].
      rewrite <- (sqrt_sqrt (dot u u)) by apply vdot_pos. pose proof (sqrt_pos (dot u u)). apply Rmult_le_compat; lra. }
    assert (VK : forall q1 q2 q3, vok (s_knew (-1) (s_delta (Some e' : N) (s_ratio q1 (s_crvmin q2 (s_dsq q3 (s_dnorm (Some t : N) (s_knew 0 v)))))))).
    { intros. split; [exists e', r0; nvr; repeat split; try assumption; lra|exists t; reflexivity]. }
    destruct (_ <=? _); [|destruct (nle _ _)]; unfold ngoto in E; rt E; unfold L, short; nvr;
      (split; [apply VK|]; intros _ e1 u [= <-] Hu; apply SH, Hu).
  - unfold ngoto in E. rt E. unfold L, short. nvr. split; [split; [exists e, r0; auto|exists t; reflexivity]|].
    split; [|intros; lia]. intros _ e1 u Ee Hu. rewrite V1 in Ee. injection Ee as <-. apply E1, Hu.
Qed.

(** The readable cells and, for the parts of L120 that do not change D, the writable ones *)
Definition Rc (b : Z) : Prop := x <= b < x + n \/ w <= b < w + nw_size n npt.
Definition Wd (b : Z) : Prop := w <= b < w + nw_size n npt /\ ~ (d <= b < d + n).
Lemma Wd_Rc b : Wd b -> Rc b. Proof. intros [A _]. right. exact A. Qed.
Local Notation good := (good Rc (fun _ => @None N)).
Lemma keep_fr (s s' : mst) i : frame Wd s s' -> 1 <= i <= n -> v_ s' d i = v_ s d i.
Proof. intros [A _] Hi. unfold val. rewrite A; [reflexivity|]. unfold Wd, at1. lia. Qed.

Ltac wr := lay; unfold Wd, Rc, arr, mat, at1, at2; intros.
Ltac wl := wr; lia.
Ltac wm := wr; match goal with Hj : 1 <= ?j <= ?m |- context [(?j - 1) * ?k] =>
  assert (0 <= (j - 1) * k) by nia; assert ((j - 1) * k <= (m - 1) * k) by nia; assert ((m - 1) * k = m * k - k) by ring; lia end.
Lemma shift_safe idz dsq xoptsq : safe Wd Rc (fun _ => None) (nw_shift n npt w xopt xpt gq hq pq bmat zmat vlag ww idz dsq xoptsq : prog N _) (fun _ => True).
Proof.
  apply nw_shift_safe; auto; try discriminate; try apply Wd_Rc; try solve [wl]; try solve [wm].
Qed.
Lemma vlag_keeps idz kopt dsq xoptsq : 1 <= kopt <= npt ->
  keeps (fun b => d <= b < d + n) (nw_vlag n npt xopt xpt bmat zmat d vlag ww idz kopt dsq xoptsq : prog N _).
Proof. intros Hk. unfold nw_vlag. cbv zeta. kp; unfold at1; lay; lia. Qed.

Lemma n120_m fuel v s r s' c st : good s -> ninv n npt maxfun c st (N120, v) -> L (N120, v) s ->
  nw_120 ncos nsin n npt w xopt xnew xpt gq hq pq bmat zmat d vlag ww (B := B) fuel v s = Ret r s' -> Lpost s' r.
Proof.
  intros G HI (V & K1 & K2) E. cbn [fst snd] in *.
  destruct HI as (((_ & _ & Hk) & Hk2) & _). unfold kok in Hk. cbn [fst snd] in Hk, Hk2. lay.
  unfold nw_120 in E. cbv zeta in E. apply b_inv in E as (xq & s1 & E1 & E).
  pose proof (shift_safe (v_idz v) (v_dsq v) (v_xoptsq v) s G) as S1. rewrite E1 in S1. destruct S1 as (_ & _ & S1).
  assert (D1 : forall i, 1 <= i <= n -> v_ s1 d i = v_ s d i) by (intros; apply keep_fr; assumption). clear S1 E1.
  apply b_inv in E as (al & s2 & E2 & E). apply b_inv in E as (be & s3 & E3 & E).
  assert (D3 : forall i, 1 <= i <= n -> v_ s3 d i = v_ s2 d i) by (intros i Hi; apply (vlag_keeps _ _ _ _ Hk _ _ _ E3); unfold at1; lia).
  clear E3. apply b_inv in E as (be' & s4 & E4 & E). unfold ngoto in E. rt E. unfold L. cbn [fst snd].
  split; [exact V|]. destruct (Z.ltb_spec 0 (v_knew v)) as [P|P].
  - destruct (K2 P) as (t & T1 & T2). rewrite T1 in E2. intros e u Ee Hu. specialize (T2 e Ee).
    apply (biglag_ok H J ncos nsin circle) in E2; [|exact Hn|unfold NwVec.apart; lia..].
    assert (O3 : forall u, vec s3 d u -> dot u u = (t * t)%R).
    { intros u' Hu'. apply E2. intros i Hi. rewrite <- (D3 i Hi). apply Hu', Hi. }
    st E4. match type of E4 with (if ?b then _ else _) _ = _ => destruct b end.
    + apply (bigden_ok H J ncos nsin circle) with (q := (t * t)%R) in E4; [|exact Hn|reflexivity|lia|lia|unfold NwVec.apart, away; lia..|exact O3].
      rewrite (E4 u Hu). exact T2.
    + rt E4. rewrite (O3 u Hu). exact T2.
  - rt E2. rt E4. apply (short_d s); [|exact (K1 P)]. intros i Hi. rewrite D3, D1 by exact Hi. reflexivity.
Qed.
End Near.

(** ** The calls of newuoa_iterate *)
Section Run.
Variables (H J : R).
Local Notation N := (NumE H J).
Variables (ncos nsin : N -> N).
Hypothesis circle : forall (t : N) (x y : R), ncos t = Some x -> nsin t = Some y -> (x * x + y * y = 1)%R.
Local Notation nvars := (nvars (N := N)).
Local Notation mst := (mst N).

Section Machine.
Variables (n npt x : Z) (rb re : R) (maxfun w : Z).
Hypothesis (Hn : 1 <= n) (Hnpt : n + 2 <= npt) (Hnpt2 : 2 * npt <= (n + 1) * (n + 2)).
Hypothesis (Hre : (0 < re)%R) (Hrb : (re <= rb)%R).
Hypothesis Hxw : x + n <= w \/ w + nw_size n npt <= x.
Local Notation rhobeg := (Some rb : N).
Local Notation rhoend := (Some re : N).
Local Notation L := (L H J n npt x w).
Local Notation Rc := (Rc n npt x w).
Local Notation good := (good Rc (fun _ => @None N)).
Definition rv (m : Z) (l : nlabel * nvars) : Prop :=
  ninv n npt maxfun m NW_ITERATE l \/ (m = 1 /\ ninv n npt maxfun 0 NW_INITIAL_ITERATE l).
Definition asked (v : nvars) (s : mst) : Prop := v_status v = NW_ITERATE -> v_nf v <= npt \/ (vok H J v /\ near H J n npt x w s v).

Lemma run_near m fi fuel l (s : mst) v s' : good s -> rv m l -> L l s ->
  nw_run ncos nsin n npt x rhobeg rhoend maxfun w nw_request (fun v => ret v) fi fuel l s = Ret v s' -> asked v s'.
Proof.
  intros HG HR HL E. unfold nw_run in E.
  apply (machine_inv (fun l s => good s /\ rv m l /\ L l s) asked) in E; [exact E| |auto]. clear l s v s' HG HR HL E.
  intros [l u] s r s' (HG & HR & HL) E.
  destruct (match l with Neval => true | _ => false end) eqn:E1; [|destruct (match l with Ndone => true | _ => false end) eqn:E2].
  - destruct l; try discriminate. unfold nw_step in E. cbn [fst snd] in E. unfold nw_request in E.
    destruct HR as [HI|[-> HI]]; (assert (S := proj2 (proj2 HI)); unfold nst in S; cbn [fst snd] in S; rewrite S in E; apply r_inv in E as [-> ->]).
    + intros _. exact HL.
    + split; [exact HG|]. split.
      * left. destruct HI as (H1 & H2 & _). unfold ninv, nlab, ncnt, nst, init_ok, main_ok, base_ok in *. nvs. split; [tauto|]. split; [lia|reflexivity].
      * unfold NwNear.L in *. nvs. destruct HL as [HL|[HL _]]; [left; exact HL|right; exact HL].
  - destruct l; try discriminate. unfold nw_step in E. cbn [fst snd] in E. apply b_inv in E as (v1 & s1 & E3 & E).
    st E. rt E. intros ES. exfalso. apply HL. cbn [snd]. rewrite <- ES. symmetry.
    apply (fun Y : yields _ (fun a => v_status a = v_status u) => Y _ _ _ E3).
    unfold nw_done. destruct (nle _ _); [apply y_bindT; intros _|]; apply y_ret; reflexivity.
  - assert (N1 : fst (l, u) <> Neval) by (cbn; intros EE; rewrite EE in E1; discriminate).
    assert (N2 : fst (l, u) <> Ndone) by (cbn; intros EE; rewrite EE in E2; discriminate).
    assert (HS := fun k st HI => step_safe ncos nsin Rc Rc (fun _ => None) (fun b Hb => Hb) ltac:(discriminate) n npt x rhobeg rhoend maxfun w Hn Hnpt Hnpt2
      (fun b Hb => or_introl Hb) (fun b Hb => or_intror Hb) (fun _ : nvars => False) nw_request (fun v => ret v) fi k st (l, u) N1 N2 HI s HG).
    assert (S : exists l', r = inl l' /\ rv m l' /\ good s').
    { destruct HR as [HI|[Em HI]]; specialize (HS _ _ HI); rewrite E in HS; destruct HS as (HP & HG' & _);
        (destruct r as [l'|b]; [|contradiction HP]); exists l'; (split; [reflexivity|split; [|exact HG']]); [left; exact HP|right; split; [exact Em|exact HP]]. }
    destruct S as (l' & -> & HR' & HG'). split; [exact HG'|]. split; [exact HR'|]. clear HS HR' HG' N1 N2.
    unfold nw_step in E. cbn [fst snd] in E. destruct l; try discriminate; clear E1 E2.
    + pose proof (n50_l H J n npt x rb w u HL s _ _ E) as Q. apply Q.
    + pose proof (n70_l H J n npt x rb re w Hre Hrb u HL s _ _ E) as Q. apply Q.
    + unfold ngoto in E. apply r_inv in E as [[= ->] ->]. exact HL.
    + exact (n100_m H J ncos nsin circle n npt x w Hn Hnpt Hnpt2 fi u s _ _ HL E).
    + destruct HR as [HI|[_ HI]].
      * exact (n120_m H J ncos nsin circle n npt x maxfun w Hn Hnpt Hnpt2 Hxw fi u s _ _ _ _ HG HI HL E).
      * exact (n120_m H J ncos nsin circle n npt x maxfun w Hn Hnpt Hnpt2 Hxw fi u s _ _ _ _ HG HI HL E).
    + exact (n290_m H J n npt x w Hn Hnpt Hnpt2 Hxw u s _ _ HL E).
    + exact (n310_m H J n npt x maxfun w u s _ _ HL E).
    + pose proof (nnew_l H J n npt x w Hxw u HL s _ _ E) as Q. apply Q.
    + exact (n460_m H J n npt x w u s _ _ HL E).
    + exact (n490_m H J n npt x re w Hre u s _ _ HL E).
Qed.
End Machine.

(** The contexts *)
Local Notation ctx := (ncontext (N := N)).
Definition kv (c : ctx) : Prop := forall rb re, k_rhobeg c = Some rb -> k_rhoend c = Some re ->
  (0 < re <= rb)%R /\ (0 < k_nevals c -> k_status c = NW_ITERATE -> v_nf (k_v c) <= k_npt c \/ vok H J (k_v c)).

Lemma iterate_near (c c' : ctx) f x fi fuel s s' : reach ncos nsin c s -> kv c ->
  BqSpec.cells s x (k_n c) -> BqSpec.apart x (k_n c) (k_w c) (ndoc_size (k_n c) (k_npt c) None) ->
  newuoa_iterate ncos nsin c f (Some x) fi fuel s = Ret c' s' ->
  k_rhobeg c' = k_rhobeg c /\ k_rhoend c' = k_rhoend c /\
  forall rb re, k_rhobeg c = Some rb -> k_rhoend c = Some re -> k_status c' = NW_ITERATE ->
    v_nf (k_v c') <= k_npt c \/ (vok H J (k_v c') /\ near H J (k_n c) (k_npt c) x (k_w c) s' (k_v c')).
Proof.
  intros HR HK Hx Ha E. destruct (reach_valid ncos nsin c s HR) as [HV HC]. rewrite ndoc_nw in *.
  assert (HG : good (Rc (k_n c) (k_npt c) x (k_w c)) (fun _ => @None N) s).
  { apply good_cells. intros b [Hb|Hb]; [apply (cells_in s x (k_n c)); auto|eapply cells_in; eauto]. }
  destruct HV as (Hn & Hp & Hp2 & Hm & He & _ & Hs & Hi).
  unfold newuoa_iterate in E. destruct (k_status c) eqn:ES;
    try (apply r_inv in E as [-> ->]; cbn [k_set k_rhobeg k_rhoend]; split; [reflexivity|]; split; [reflexivity|]; intros rb re _ _ EE; discriminate EE).
  specialize (Hs eq_refl). cbv zeta in E.
  assert (HRUN : forall m l t v t', good (Rc (k_n c) (k_npt c) x (k_w c)) (fun _ => @None N) t -> rv (k_n c) (k_npt c) (k_maxfun c) m l ->
    (forall rb re, k_rhobeg c = Some rb -> k_rhoend c = Some re -> L H J (k_n c) (k_npt c) x (k_w c) l t) ->
    nw_run ncos nsin (k_n c) (k_npt c) x (k_rhobeg c) (k_rhoend c) (k_maxfun c) (k_w c) nw_request (fun v => ret v) fi fuel l t = Ret v t' ->
    forall rb re, k_rhobeg c = Some rb -> k_rhoend c = Some re -> asked (k_n c) (k_npt c) x (k_w c) v t').
  { intros m l t v t' G V HL ER rb re Eb Ee. specialize (HL rb re Eb Ee). destruct (HK rb re Eb Ee) as ((K1 & K2) & _). rewrite Eb, Ee in ER.
    exact (run_near (k_n c) (k_npt c) x rb re (k_maxfun c) (k_w c) Hn Hp Hp2 K1 K2 Ha m fi fuel l t v t' G V HL ER). }
  destruct (Z.ltb_spec 1 (k_nevals c + 1)) as [K|K].
  - destruct Hs as [Hs|[_ Hs]]; [lia|]. apply b_inv in E as (v & s1 & E1 & E). rt E. cbn [k_set k_rhobeg k_rhoend k_v].
    split; [reflexivity|]. split; [reflexivity|]. intros rb re Eb Ee EI.
    refine (HRUN (k_nevals c + 1) _ s v s1 HG _ _ E1 rb re Eb Ee EI).
    + left. apply ninv_f. destruct Hs as (H1 & H2 & H3). unfold ninv, nlab, ncnt, nst in *. nvs. split; [tauto|]. split; [lia|auto].
    + intros rb' re' Eb' Ee'. destruct (HK _ _ Eb' Ee') as (_ & K3). unfold L. cbn [fst snd]. exact (K3 ltac:(lia) ES).
  - assert (E0 : k_nevals c = 0) by lia. rewrite E0 in *. cbn [Z.add Z.eqb Pos.eqb negb] in E.
    apply b_inv in E as (v & s1 & E1 & E). apply b_inv in E as (v' & s2 & E2 & E). rt E. cbn [k_set k_rhobeg k_rhoend k_v].
    split; [reflexivity|]. split; [reflexivity|]. intros rb re Eb Ee EI.
    pose proof (begin_safe (Rc (k_n c) (k_npt c) x (k_w c)) (Rc (k_n c) (k_npt c) x (k_w c)) (fun _ => None) (fun b Hb => Hb) ltac:(discriminate)
      (k_n c) (k_npt c) x (k_rhobeg c) (k_w c) Hn Hp Hp2 (fun b Hb => or_introl Hb) (fun b Hb => or_intror Hb) (s_status NW_INITIAL_ITERATE (s_f f (k_v c))) s HG) as S.
    rewrite E1 in S. destruct S as ((V1 & V2) & HG1 & _).
    refine (HRUN 1 _ s1 v' s2 HG1 _ _ E2 rb re Eb Ee EI).
    + right. split; [reflexivity|]. unfold ninv, nlab, ncnt, nst, kok. nvs. rewrite V1, V2. split; [lia|split; reflexivity].
    + intros rb' re' _ _. unfold L. cbn [fst snd]. lia.
Qed.

Lemma reach_kv (c : ctx) s : reach ncos nsin c s -> kv c.
Proof.
  intros HR. induction HR as [n npt rb re maxfun a s c s' Hc E|c f x fi fuel s c' s' HR IH Hx Ha E|c f fi fuel s c' s' HR IH E|c s HR IH|c s s' HR IH HC].
  - intros b e Eb Ee. unfold newuoa_create in E. destruct (n <? 0); [discriminate|]. destruct (_ || _)%bool; [discriminate|].
    destruct (_ || _)%bool eqn:EO; [discriminate|]. destruct (maxfun <? 1); [discriminate|].
    apply b_inv in E as (u & s1 & _ & E). apply r_inv in E as [[= ->] ->]. cbn [k_rhobeg k_rhoend k_nevals] in *. subst rb re.
    apply orb_false_iff in EO. destruct EO as [O1 O2]. apply nle_f in O1. apply nlt_f in O2. split; [lra|]. lia.
  - intros b e Eb Ee. destruct (iterate_near _ _ _ _ _ _ _ _ HR IH Hx Ha E) as (I1 & I2 & I3). rewrite I1 in Eb. rewrite I2 in Ee.
    split; [exact (proj1 (IH b e Eb Ee))|]. intros _ EI. destruct (iterate_args _ _ _ _ _ _ _ _ _ _ E) as (_ & -> & _).
    destruct (I3 b e Eb Ee EI) as [K|[K _]]; [left|right]; exact K.
  - apply r_inv in E as [-> ->]. intros b e Eb Ee. cbn [k_set k_rhobeg k_rhoend] in *. split; [exact (proj1 (IH b e Eb Ee))|]. intros _ EE. discriminate EE.
  - intros b e Eb Ee. cbn [newuoa_restart k_set k_rhobeg k_rhoend] in *. split; [exact (proj1 (IH b e Eb Ee))|]. cbn. intros; lia.
  - exact IH.
Qed.

Lemma nevals_nf (c : ctx) s : reach ncos nsin c s -> k_status c = NW_ITERATE -> 0 < k_nevals c -> v_nf (k_v c) = k_nevals c + 1.
Proof.
  intros HR EI K. destruct (reach_valid ncos nsin c s HR) as [(_ & _ & _ & _ & _ & _ & Hs & _) _].
  destruct (Hs EI) as [Hs'|[_ (_ & Hs' & _)]]; [lia|]. unfold ncnt in Hs'. cbn [fst snd] in Hs'. lia.
Qed.
End Run.
