(** * newuoa_optimize and the clients of newuoa_iterate make the same computations *)
From Coq Require Import ZArith List Bool Lia.
From Verif Require Import Num BqLang BqModel BqWp BqSafe BqPc BqBest NwModel NwMain NwSpec NwTop NwInd NwRcSpec.
Import ListNotations.
Local Open Scope Z_scope.

(** ** The code of the labels does not depend on the type of the result *)
Section Par.
Context {N : Num} {B1 B2 : Type}.
Notation mst := (mst N).
Notation nv := (nvars (N := N)).
Definition lab_ok (l : nlabel * nv) : Prop :=
  match fst l with Ndone => nstop (v_status (snd l)) | _ => v_status (snd l) = NW_ITERATE end.
Definition agree (o1 : out N (nlabel * nv + B1)) (o2 : out N (nlabel * nv + B2)) : Prop :=
  match o1, o2 with
  | Ret (inl l) s, Ret (inl l') s' => l' = l /\ s' = s /\ lab_ok l
  | Undef s, Undef s' | Cast s, Cast s' | More s, More s' => s' = s
  | _, _ => False
  end.
Definition par (p : prog N (nlabel * nv + B1)) (q : prog N (nlabel * nv + B2)) : Prop := forall s, agree (p s) (q s).

Lemma par_bindP {A} (P : A -> Prop) (p : prog N A) q1 q2 : (forall s, wp p s (fun a _ => P a)) -> (forall a, P a -> par (q1 a) (q2 a)) ->
  par (bind p q1) (bind p q2).
Proof.
  intros Hp Hq s. unfold bind. specialize (Hp s). unfold wp in Hp. destruct (p s) as [a s1|s1|s1|s1]; cbn; auto. apply Hq. eapply Hp. reflexivity.
Qed.
Lemma par_bind {A} (p : prog N A) q1 q2 : (forall a, par (q1 a) (q2 a)) -> par (bind p q1) (bind p q2).
Proof. intros H. apply par_bindP with (P := fun _ => True); auto. intros s a s' _. exact Logic.I. Qed.
Lemma par_goto l v : l <> Ndone -> v_status v = NW_ITERATE -> par (ngoto l v) (ngoto l v).
Proof. intros H K s. cbn. split; [reflexivity|]. split; [reflexivity|]. destruct l; auto. congruence. Qed.
Lemma par_fail st v : nstop st -> par (nfail st v) (nfail st v).
Proof. intros H s. cbn. split; [reflexivity|]. split; [reflexivity|]. destruct v; exact H. Qed.
End Par.
Ltac stt := cbn [v_status s_alpha s_beta s_crvmin s_delta
  s_diff s_diffa s_diffb s_diffc s_dnorm s_dsq s_dstep s_fbeg s_fopt s_ratio s_recip s_reciq s_rho s_rhosq s_vquad s_xipt
  s_xjpt s_xoptsq s_f s_idz s_ipt s_itest s_jpt s_knew s_kopt s_ksave s_nf s_nfm s_nfmm s_nfsav s_status].
Ltac sts := stt; repeat match goal with |- v_status (if ?b then _ else _) = _ => destruct b; stt end; assumption.
Ltac pt1 :=
  lazymatch goal with
  | |- par (ngoto _ _) _ => apply par_goto; [discriminate|sts]
  | |- par (nfail _ _) _ => apply par_fail; unfold nstop; auto
  | |- par (bind ?p _) _ => 
      lazymatch type of p with
      | prog _ nvars => apply par_bindP with (P := fun u => v_status u = NW_ITERATE); [intros ?|intros ? ?]
      | _ => apply par_bind; intros ?
      end
  | |- par (if ?b then _ else _) _ => destruct b
  | |- par (let '(_, _) := ?b in _) _ => destruct b
  | |- par (let _ := _ in _) _ => cbv zeta
  end.

Section Steps.
Context {N : Num} {B1 B2 : Type}.
Variables ncos nsin : N -> N.
Variables (n npt x : Z) (rhobeg rhoend : N) (maxfun : Z).
Variables (xbase xopt xnew xpt fval gq hq pq bmat zmat d vlag w : Z).
Lemma wp_bindT {A B} (p : prog N A) (q : A -> prog N B) s Q : (forall a s', wp (q a) s' Q) -> wp (bind p q) s Q.
Proof. intros H. apply wp_bind. intros a s' _. apply H. Qed.
Ltac wt := repeat (cbv zeta; first
  [ apply wp_ret | apply wp_bindT; intros ? ?
  | match goal with |- wp (if ?b then _ else _) _ _ => destruct b
    | |- wp (let '(_, _) := ?p in _) _ _ => destruct p end ]); stt; try assumption.

Lemma par_410 (fsave : N) (v : nvars (N := N)) : v_status v = NW_ITERATE ->
  par (nw_410 (B := B1) n npt xnew xpt fval gq hq pq bmat zmat vlag w fsave v)
      (nw_410 (B := B2) n npt xnew xpt fval gq hq pq bmat zmat vlag w fsave v).
Proof. intros Hv. unfold nw_410. repeat pt1. Qed.

Lemma step_par ev1 (fin1 : nvars -> prog N B1) ev2 (fin2 : nvars -> prog N B2) fuel l v : l <> Neval -> l <> Ndone -> v_status v = NW_ITERATE ->
  par (nw_step ncos nsin n npt x rhobeg rhoend maxfun xbase xopt xnew xpt fval gq hq pq bmat zmat d vlag w ev1 fin1 fuel (l, v))
      (nw_step ncos nsin n npt x rhobeg rhoend maxfun xbase xopt xnew xpt fval gq hq pq bmat zmat d vlag w ev2 fin2 fuel (l, v)).
Proof.
  intros N1 N2 Hv. unfold nw_step. cbn [fst snd]. destruct l; try congruence.
  - unfold nw_50. repeat pt1. wt.
  - unfold nw_70. repeat pt1; wt.
    all: try (destruct (v_nf v =? 1); [|destruct (nlt _ _)]); stt; try assumption.
  - repeat pt1.
  - unfold nw_100. repeat pt1.
  - unfold nw_120. repeat pt1.
  - unfold nw_290. repeat pt1.
  - unfold nw_310. repeat pt1.
  - unfold nw_new. cbv zeta. repeat pt1; try (apply par_410; sts); wt; sts.
  - unfold nw_460. repeat pt1.
  - unfold nw_490. repeat pt1.
Qed.
End Steps.

(** ** Machines *)
Section Machine.
Context {N : Num}.
Notation prog := (prog N).
Notation nv := (nvars (N := N)).
Lemma machine_mono {L B} (step : L -> prog (L + B)) k l s b s' m :
  machine k step l s = Ret b s' -> (k <= m)%nat -> machine m step l s = Ret b s'.
Proof.
  revert l s m. induction k as [|k IH]; intros l s m E Hm; [discriminate E|]. destruct m as [|m]; [lia|].
  cbn [machine] in *. unfold bind in *. destruct (step l s) as [[l'|b'] s1|s1|s1|s1]; try discriminate E; [|exact E].
  apply IH; [exact E|lia].
Qed.

Variables (stepO : nlabel * nv -> prog (nlabel * nv + nstatus)) (stepR : nlabel * nv -> prog (nlabel * nv + nv)).
Variables (done : nv -> prog nv) (fin : nv -> prog nstatus).
Hypothesis Hpar : forall l v, l <> Neval -> l <> Ndone -> v_status v = NW_ITERATE -> par (stepO (l, v)) (stepR (l, v)).
Hypothesis HR : forall v s, v_status v = NW_ITERATE -> stepR (Neval, v) s = Ret (inr v) s.
Hypothesis HO : forall v, stepO (Ndone, v) = bind (done v) (fun v => bind (fin v) (fun r => ret (inr r))).
Hypothesis HRd : forall v, stepR (Ndone, v) = bind (done v) (fun v => ret (inr v)).
Hypothesis Hdone : forall v s, wp (done v) s (fun u _ => v_status u = v_status v).

(** A call of the reverse communication version is the part of the other one up to the next evaluation or to the end *)
Lemma seg fuel l s : lab_ok l ->
  match machine fuel stepR l s with
  | Ret v s' => exists k, (k < fuel)%nat /\
      ((v_status v = NW_ITERATE /\ forall m, machine (k + m) stepO l s = machine m stepO (Neval, v) s') \/
       (nstop (v_status v) /\ forall m, machine (k + S m) stepO l s = fin v s'))
  | Undef s' => machine fuel stepO l s = Undef s'
  | Cast s' => machine fuel stepO l s = Cast s'
  | More s' => machine fuel stepO l s = More s'
  end.
Proof.
  revert l s. induction fuel as [|fuel IH]; intros l s Hl; [reflexivity|].
  destruct l as [l v].
  assert (D : l = Neval \/ l = Ndone \/ (l <> Neval /\ l <> Ndone)).
  { destruct l; auto; right; right; split; discriminate. }
  destruct D as [->|[->|[D1 D2]]].
  - cbn [machine]. unfold bind at 1. rewrite HR by exact Hl. cbn. exists O. split; [lia|]. left. split; [exact Hl|]. reflexivity.
  - cbn [machine]. unfold bind at 1. rewrite HRd. unfold bind at 1. specialize (Hdone v s). unfold wp in Hdone.
    assert (HO' : forall m, machine (S m) stepO (Ndone, v) s = bind (done v) fin s).
    { intros m. cbn [machine]. rewrite HO. unfold bind. destruct (done v s) as [u t|t|t|t]; try reflexivity.
      destruct (fin u t) as [r t'|t'|t'|t']; reflexivity. }
    unfold bind in HO'. destruct (done v s) as [u t|t|t|t]; try (apply (HO' fuel)).
    cbn. exists O. split; [lia|]. right. split; [|exact HO'].
    rewrite (Hdone u t eq_refl). exact Hl.
  - assert (Hv : v_status v = NW_ITERATE) by (destruct l; try exact Hl; congruence).
    specialize (Hpar l v D1 D2 Hv s). cbn [machine]. unfold bind. unfold agree in Hpar.
    destruct (stepO (l, v) s) as [[l1|r1] s1|s1|s1|s1] eqn:E1, (stepR (l, v) s) as [[l2|r2] s2|s2|s2|s2] eqn:E2; try contradiction.
    + destruct Hpar as (-> & -> & Hl1). specialize (IH l1 s1 Hl1). destruct (machine fuel stepR l1 s1) as [u t|t|t|t]; try exact IH.
      destruct IH as (k & Hk & IH). exists (S k). split; [lia|]. destruct IH as [(A1 & A2)|(A1 & A2)]; [left|right]; (split; [exact A1|]);
      intros m; rewrite <- (A2 m); cbn [Nat.add machine]; unfold bind; rewrite E1; reflexivity.
    + subst s2. reflexivity.
    + subst s2. reflexivity.
    + subst s2. reflexivity.
Qed.
End Machine.

Section Client.
Context {N : Num}.
Notation prog := (prog N).
Notation mst := (mst N).
Notation nv := (nvars (N := N)).
Variables (ncos nsin : N -> N).
Variables (n npt : Z) (maximize : bool) (fn : list (list N * N) -> list N -> N) (x : Z) (rhobeg rhoend : N).
Variables (maxfun work : Z) (fi : nat).
Notation stepO := (nw_step ncos nsin n npt x rhobeg rhoend maxfun work (o_xopt n npt work) (o_xnew n npt work) (o_xpt n npt work)
  (o_fval n npt work) (o_gq n npt work) (o_hq n npt work) (o_pq n npt work) (o_bmat n npt work) (o_zmat n npt work)
  (o_d n npt work) (o_vlag n npt work) (o_w n npt work) (nw_call n npt maximize fn x work None) (nw_end n maximize x work None) fi).
Notation stepR := (nw_step ncos nsin n npt x rhobeg rhoend maxfun work (o_xopt n npt work) (o_xnew n npt work) (o_xpt n npt work)
  (o_fval n npt work) (o_gq n npt work) (o_hq n npt work) (o_pq n npt work) (o_bmat n npt work) (o_zmat n npt work)
  (o_d n npt work) (o_vlag n npt work) (o_w n npt work) nw_request (fun v => ret v) fi).
Notation obj := (objfun (mkctx fn None 0 one n) x).
Notation client := (client ncos nsin n maximize fn x fi).
Definition sgn (f : N) : N := if maximize then nopp f else f.
Definition mkc (v : nv) (ne : Z) : ncontext := mknc n npt rhobeg rhoend maxfun work v ne.

Lemma sg fuel l s : lab_ok l ->
  match machine fuel stepR l s with
  | Ret v s' => exists k, (k < fuel)%nat /\
      ((v_status v = NW_ITERATE /\ forall m, machine (k + m) stepO l s = machine m stepO (Neval, v) s') \/
       (nstop (v_status v) /\ forall m, machine (k + S m) stepO l s = nw_end n maximize x work None v s'))
  | Undef s' => machine fuel stepO l s = Undef s'
  | Cast s' => machine fuel stepO l s = Cast s'
  | More s' => machine fuel stepO l s = More s'
  end.
Proof.
  apply seg with (done := nw_done n x work (o_xopt n npt work)).
  - intros l0 v H1 H2 H3. apply step_par; assumption.
  - intros v s0 Hv. unfold nw_step. cbn [fst snd]. unfold nw_request. rewrite Hv. unfold ret. do 2 f_equal. rewrite <- Hv. destruct v; reflexivity.
  - reflexivity.
  - reflexivity.
  - intros v s0. unfold nw_done. destruct (nle _ _); [apply wp_bindT; intros ? ?|]; apply wp_ret; destruct v; reflexivity.
Qed.

Lemma runR_evs fuel l s : wp (machine fuel stepR l) s (fun _ s' => evs s' = evs s).
Proof.
  apply ind_evs, ind_machine. intros l'. apply ind_step; [|intros v; apply ind_ret].
  intros v. unfold nw_request. destruct (v_status v); apply ind_ret.
Qed.

Lemma obj_ret s f s' : obj s = Ret f s' -> exists p, s' = mkmst (mm s) ((p, f) :: evs s) /\ f = fn (evs s) p.
Proof.
  unfold objfun, bind. cbn [c_n c_objfun]. generalize (Z.to_nat n) as k. intros k. generalize x as a.
  assert (K : forall k a (t : mst), match readn k a t with Ret _ u | Undef u => u = t | _ => False end).
  { clear. induction k as [|k IH]; intros a t; cbn [readn]; [reflexivity|]. unfold bind, ld. destruct (mm t a); [|reflexivity].
    specialize (IH (a + 1) t). destruct (readn k (a + 1) t); cbn; auto. }
  intros a. specialize (K k a s). destruct (readn k a s) as [p t|t|t|t]; try discriminate. subst t. intros [= <- <-].
  exists p. split; reflexivity.
Qed.

Lemma iterate_run v ne f F s : v_status v = NW_ITERATE -> 1 <= ne ->
  newuoa_iterate ncos nsin (mkc v ne) f (Some x) fi F s =
  bind (machine F stepR (Nnew, s_f f v)) (fun v => ret (mkc v (ne + 1))) s.
Proof.
  intros Hv Hne. unfold newuoa_iterate, k_status. cbn [k_v mkc k_nevals]. rewrite Hv. destruct (Z.ltb_spec 1 (ne + 1)); [|lia]. reflexivity.
Qed.
Lemma call_eq v s : stepO (Neval, v) s = bind obj (fun f => ret (inl (Nnew, s_f (sgn f) v))) s.
Proof. reflexivity. Qed.
Lemma client_ask F k v ne s : v_status v = NW_ITERATE -> 1 <= ne -> client F (S k) (mkc v ne) s =
  bind obj (fun f => bind (machine F stepR (Nnew, s_f (sgn f) v)) (fun v => client F k (mkc v (ne + 1)))) s.
Proof.
  intros Hv Hne. cbn [NwRcSpec.client newuoa_get_status]. unfold k_status. cbn [mkc k_v]. rewrite Hv. unfold bind at 1 3.
  destruct (obj s) as [f t|t|t|t]; try reflexivity. unfold bind at 1. change (if maximize then nopp f else f) with (sgn f).
  change (mknc n npt rhobeg rhoend maxfun work v ne) with (mkc v ne). rewrite iterate_run by assumption.
  unfold bind. destruct (machine _ _ _ _); reflexivity.
Qed.
Lemma client_stop F k v ne s : nstop (v_status v) -> client F (S k) (mkc v ne) s = Ret (mkc v ne) s.
Proof.
  intros Hv. cbn [NwRcSpec.client newuoa_get_status]. unfold k_status. cbn [mkc k_v]. destruct Hv as [->|[->| ->]]; reflexivity.
Qed.

Lemma fwd m : forall v s st s2 F1 F k ne, v_status v = NW_ITERATE -> machine m stepO (Nnew, v) s = Ret st s2 ->
  0 <= ne -> (m < F1)%nat -> (m < F)%nat -> (m < k)%nat ->
  exists v1 s1 v' ne' s3, machine F1 stepR (Nnew, v) s = Ret v1 s1 /\ client F k (mkc v1 (ne + 1)) s1 = Ret (mkc v' ne') s3 /\
    nw_end n maximize x work None v' s3 = Ret st s2 /\ ne' - Z.of_nat (length (evs s3)) = ne + 1 - Z.of_nat (length (evs s)).
Proof.
  induction m as [m IH] using (well_founded_induction lt_wf). intros v s st s2 F1 F k ne Hv E Hne H1 H2 H3.
  assert (S1 := sg F1 (Nnew, v) s Hv). assert (S2 := runR_evs F1 (Nnew, v) s). unfold wp in S2.
  assert (M := fun j (Hj : (m <= j)%nat) => machine_mono _ _ _ _ _ _ j E Hj).
  destruct (machine F1 stepR (Nnew, v) s) as [v1 s1|s1|s1|s1]; try (rewrite M in S1 by lia; discriminate S1).
  specialize (S2 v1 s1 eq_refl). destruct S1 as (k0 & Hk0 & [[A1 A2]|[A1 A2]]).
  - assert (Hm : (k0 < m)%nat).
    { destruct (Nat.lt_ge_cases k0 m) as [L|L]; [exact L|]. specialize (A2 O). rewrite M in A2 by lia. discriminate A2. }
    specialize (A2 (m - k0)%nat). replace (k0 + (m - k0))%nat with m in A2 by lia. rewrite E in A2.
    destruct (m - k0)%nat as [|j] eqn:Ej; [lia|]. cbn [machine] in A2. unfold bind at 1 in A2. rewrite call_eq in A2.
    destruct k as [|k]; [lia|]. exists v1, s1. rewrite client_ask by (auto; lia). unfold bind at 1. unfold bind at 1 in A2.
    destruct (obj s1) as [f t|t|t|t] eqn:Eo; try discriminate A2. cbn [ret] in A2. symmetry in A2.
    destruct (obj_ret _ _ _ Eo) as (p & Et & _).
    destruct (IH j ltac:(lia) (s_f (sgn f) v1) t st s2 F F k (ne + 1)) as (v2 & s3 & v' & ne' & s4 & B1 & B2 & B3 & B4);
      [exact A1|exact A2|lia|lia|lia|lia|].
    exists v', ne', s4. split; [reflexivity|]. unfold bind at 1. rewrite B1. split; [exact B2|]. split; [exact B3|].
    rewrite B4, Et. cbn [evs length]. rewrite S2. lia.
  - exists v1, s1, v1, (ne + 1), s1. destruct k as [|k]; [lia|]. rewrite client_stop by exact A1. specialize (A2 m).
    rewrite M in A2 by lia. split; [reflexivity|]. split; [reflexivity|]. split; [symmetry; exact A2|]. rewrite S2. reflexivity.
Qed.

Lemma bwd F k : forall v s F1 ne v1 s1 c' s3, v_status v = NW_ITERATE -> 0 <= ne -> machine F1 stepR (Nnew, v) s = Ret v1 s1 ->
  client F k (mkc v1 (ne + 1)) s1 = Ret c' s3 ->
  exists m, machine m stepO (Nnew, v) s = nw_end n maximize x work None (k_v c') s3.
Proof.
  induction k as [|k IH]; intros v s F1 ne v1 s1 c' s3 Hv Hne E1 E2; [discriminate E2|].
  assert (S1 := sg F1 (Nnew, v) s Hv). rewrite E1 in S1. destruct S1 as (k0 & Hk0 & [[A1 A2]|[A1 A2]]).
  - rewrite client_ask in E2 by (auto; lia). unfold bind at 1 in E2.
    destruct (obj s1) as [f t|t|t|t] eqn:Eo; try discriminate E2. unfold bind at 1 in E2.
    destruct (machine F stepR (Nnew, s_f (sgn f) v1) t) as [v2 s2|s2|s2|s2] eqn:E3; try discriminate E2.
    destruct (IH (s_f (sgn f) v1) t F (ne + 1) v2 s2 c' s3 A1 ltac:(lia) E3 E2) as (m & Em).
    exists (k0 + S m)%nat. rewrite A2. cbn [machine]. unfold bind at 1. rewrite call_eq. unfold bind at 1. rewrite Eo. exact Em.
  - rewrite client_stop in E2 by exact A1. injection E2 as <- <-. exists (k0 + 1)%nat. apply A2.
Qed.

(** ** The first evaluation *)
Local Open Scope bq_scope.
Definition init : prog unit :=
  LOOP_ n (fun j =>
    at1 work j <~ x#j ;;
    LOOP_ npt (fun k => at2 (o_xpt n npt work) npt k j <~ $zero) ;;
    LOOP_ (npt + n)%Z (fun i => at2 (o_bmat n npt work) (npt + n)%Z i j <~ $zero)) ;;
  LOOP_ (n * (n + 1) / 2)%Z (fun ih => at1 (o_hq n npt work) ih <~ $zero) ;;
  LOOP_ npt (fun k =>
    at1 (o_pq n npt work) k <~ $zero ;;
    LOOP_ (npt - (n + 1))%Z (fun j => at2 (o_zmat n npt work) npt k j <~ $zero)) ;;
  LOOP_ n (fun j => at1 x j <~ !(at2 (o_xpt n npt work) npt 1 j) + work#j).
Local Close Scope bq_scope.
Definition v1st (v : nv) : nv :=
  let rhosq := nmul rhobeg rhobeg in
  s_nfm 0 (s_nfmm (0 - n)%Z (s_nf (0 + 1)%Z (s_rhosq rhosq (s_recip (ndiv one rhosq) (s_reciq (ndiv (nsqrt half) rhosq) (s_nf 0 v)))))).

Lemma ind_init : ind init.
Proof. unfold init. it. Qed.

Hypothesis Hn : 2 <= n.
Lemma begin_50 {B} v s : bind (nw_begin n npt x rhobeg work v) (fun v => nw_50 (B := B) n npt x rhobeg work (o_xpt n npt work) (o_fval n npt work) v) s =
  bind init (fun _ => ret (inl (N310, v1st v))) s.
Proof.
  unfold nw_begin, nw_start, init, bind.
  repeat match goal with |- match match ?p with _ => _ end with _ => _ end = _ => destruct p as [[] ?|?|?|?]; try reflexivity end.
  unfold ret at 1. unfold nw_50. cbn [v_nf s_rhosq s_recip s_reciq s_nf]. cbv zeta.
  destruct (Z.leb_spec 0 (2 * n)); [|lia]. destruct (Z.ltb_spec n 0); [lia|]. cbn [Z.leb Z.compare andb].
  unfold bind, ret, ngoto. destruct (LOOP_ n _ _) as [[] ?|?|?|?]; reflexivity.
Qed.

Lemma opt_first m s : nw_optimize ncos nsin n npt maximize fn x rhobeg rhoend maxfun work None fi (S (S (S m))) s =
  bind init (fun _ => bind obj (fun f => machine m stepO (Nnew, s_f (sgn f) (v1st nv0)))) s.
Proof.
  unfold nw_optimize, nw_run. assert (B := begin_50 (B := nstatus) nv0 s). unfold bind at 1. unfold bind at 1 in B. unfold bind at 1 in B.
  destruct (nw_begin n npt x rhobeg work nv0 s) as [v t|t|t|t].
  - cbn [machine]. unfold bind at 1. cbn [nw_step fst snd]. rewrite B. unfold bind at 1.
    destruct (init s) as [[] u|u|u|u] eqn:Ei; try (unfold bind; rewrite Ei; reflexivity). unfold ret at 1. unfold bind at 1. cbn [nw_step fst snd]. unfold nw_310. cbn [v1st v_nf s_nfm s_nfmm s_nf].
    destruct (Z.ltb_spec (Z.max maxfun 1) (0 + 1)); [lia|]. cbn [ngoto ret]. unfold bind at 1.
    rewrite call_eq. unfold bind. rewrite Ei. destruct (obj u); reflexivity.
  - unfold bind in *. destruct (init s) as [[] u|u|u|u]; try discriminate B; injection B as <-; reflexivity.
  - unfold bind in *. destruct (init s) as [[] u|u|u|u]; try discriminate B; injection B as <-; reflexivity.
  - unfold bind in *. destruct (init s) as [[] u|u|u|u]; try discriminate B; injection B as <-; reflexivity.
Qed.

Lemma iter_first f F s : newuoa_iterate ncos nsin (mkc nv0 0) f (Some x) fi (S (S (S F))) s =
  bind init (fun _ => bind (machine F stepR (Nnew, s_f f (v1st nv0))) (fun v => ret (mkc v 1))) s.
Proof.
  unfold newuoa_iterate. cbn [k_status mkc k_v v_status nv0 k_nevals]. cbn [Z.add Z.ltb Z.compare Pos.compare Pos.compare_cont negb Z.eqb Pos.eqb].
  unfold nw_run. assert (B := begin_50 (B := nv) (s_status NW_INITIAL_ITERATE (s_f f nv0)) s). unfold bind at 1. unfold bind at 1 in B. unfold bind at 1 in B.
  cbn [k_n k_npt k_rhobeg k_rhoend k_maxfun k_w k_v k_nevals k_set mkc].
  change (mknv _ _ _ _ _ _ _ _ _ _ _ _ _ _ _ _ _ _ _ _ _ _ _ _ _ _ _ _ _ _ _ _ _ _ _) with (nv0 (N := N)).
  destruct (nw_begin n npt x rhobeg work (s_status NW_INITIAL_ITERATE (s_f f nv0)) s) as [v t|t|t|t].
  - cbn [machine]. unfold bind. cbn [nw_step fst snd]. rewrite B. unfold bind.
    destruct (init s) as [[] u|u|u|u] eqn:Ei; try reflexivity. unfold ret. cbn [nw_step fst snd].
    unfold nw_310. cbn [v1st v_nf s_nfm s_nfmm s_nf].
    destruct (Z.ltb_spec (Z.max maxfun 1) (0 + 1)); [lia|]. cbn [ngoto ret]. reflexivity.
  - unfold bind in *. destruct (init s) as [[] u|u|u|u]; try discriminate B; injection B as <-; reflexivity.
  - unfold bind in *. destruct (init s) as [[] u|u|u|u]; try discriminate B; injection B as <-; reflexivity.
  - unfold bind in *. destruct (init s) as [[] u|u|u|u]; try discriminate B; injection B as <-; reflexivity.
Qed.
End Client.
