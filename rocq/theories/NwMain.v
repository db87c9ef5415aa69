(** * Accesses of the main loop of newuoa.c *)
From Coq Require Import ZArith List Bool Lia.
From Verif Require Import Num BqLang BqModel BqWp BqSafe BqRun NwModel NwSafe.
Import ListNotations.
Local Open Scope Z_scope.

Ltac nvs := cbn [v_idz v_ipt v_itest v_jpt v_knew v_kopt v_ksave v_nf v_nfm v_nfmm v_nfsav v_status s_alpha s_beta s_crvmin s_delta
  s_diff s_diffa s_diffb s_diffc s_dnorm s_dsq s_dstep s_fbeg s_fopt s_ratio s_recip s_reciq s_rho s_rhosq s_vquad s_xipt
  s_xjpt s_xoptsq s_f s_idz s_ipt s_itest s_jpt s_knew s_kopt s_ksave s_nf s_nfm s_nfmm s_nfsav s_status fst snd] in *.

(** The indices of the point NF in the initial phase *)
Lemma pt_range n npt nfm : 1 <= n -> 2 * npt <= (n + 1) * (n + 2) -> 2 * n < nfm < npt ->
  let q := Z.quot (nfm - n - 1) n in
  1 <= q < n /\ 1 <= nfm - q * n - n <= n.
Proof.
  intros Hn Hp H. cbv zeta. rewrite Z.quot_div_nonneg by lia.
  pose proof (Z.div_mod (nfm - n - 1) n ltac:(lia)) as D. pose proof (Z.mod_pos_bound (nfm - n - 1) n ltac:(lia)) as M.
  split; [|nia]. split; [apply Z.div_le_lower_bound; lia|apply Z.div_lt_upper_bound; nia].
Qed.

Section Main.
Context {N : Num}.
Variables (ncos nsin : N -> N).
Variables (W Rd : Z -> Prop) (C : Z -> option N).
Hypothesis WRd : forall a, W a -> Rd a.
Hypothesis CW : forall a v, C a = Some v -> ~ W a.
Notation safe := (safe W Rd C).
Variables (n npt x : Z) (rhobeg rhoend : N) (maxfun : Z).
Variables (xbase xopt xnew xpt fval gq hq pq bmat zmat d vlag w : Z).
Notation ndim := (npt + n).
Notation nh := (n * (n + 1) / 2).
Notation nptm := (npt - (n + 1)).
Hypothesis (Hn : 1 <= n) (Hnpt : n + 2 <= npt) (Hnpt2 : 2 * npt <= (n + 1) * (n + 2)).
Hypothesis (Rx : arr Rd x 1 n) (Rxbase : arr Rd xbase 1 n) (Rxopt : arr Rd xopt 1 n) (Rxnew : arr Rd xnew 1 n)
  (Rxpt : mat Rd xpt npt 1 npt 1 n) (Rfval : arr Rd fval 1 npt) (Rgq : arr Rd gq 1 n) (Rhq : arr Rd hq 1 nh)
  (Rpq : arr Rd pq 1 npt) (Rbmat : mat Rd bmat ndim 1 ndim 1 n) (Rzmat : mat Rd zmat npt 1 npt 1 nptm) (Rd_ : arr Rd d 1 n)
  (Rvlag : arr Rd vlag 1 ndim) (Rw : arr Rd w 1 (11 * ndim)).

(** The index variables at a label *)
Definition kok (k : Z) : Prop := 1 <= k <= npt.
Definition init_ok (v : nvars (N := N)) : Prop :=
  1 <= v_nf v <= npt /\ v_nfm v = v_nf v - 1 /\ v_nfmm v = v_nfm v - n /\
  (2 * n < v_nfm v -> 1 <= v_ipt v <= n /\ 1 <= v_jpt v <= n) /\ (2 <= v_nf v -> kok (v_kopt v)).
Definition base_ok (v : nvars (N := N)) : Prop := npt <= v_nf v /\ 1 <= v_idz v <= npt - n /\ kok (v_kopt v).
Definition main_ok (v : nvars (N := N)) : Prop := base_ok v /\ -1 <= v_knew v <= npt.
Definition nlab (l : nlabel * nvars (N := N)) : Prop :=
  let v := snd l in
  match fst l with
  | N50 => 0 <= v_nf v < npt /\ (1 <= v_nf v -> kok (v_kopt v))
  | N70 => init_ok v
  | N90 | N100 => base_ok v
  | N120 | N290 | N460 | N490 => main_ok v
  | N310 | Nnew => init_ok v \/ (main_ok v /\ npt < v_nf v)
  | Neval => (init_ok v \/ (main_ok v /\ npt < v_nf v)) /\ v_nf v <= Z.max maxfun 1
  | Ndone => v_status v = NW_TOO_MANY_EVALUATIONS -> Z.max maxfun 1 <= v_nf v
  end.
(** The number of evaluations made at a label, and the status *)
Definition ncnt (l : nlabel * nvars (N := N)) : Z :=
  match fst l with N310 | Neval => v_nf (snd l) - 1 | _ => v_nf (snd l) end.
Definition nst (st : nstatus) (l : nlabel * nvars (N := N)) : Prop :=
  match fst l with
  | Ndone => v_status (snd l) = NW_SUCCESS \/ v_status (snd l) = NW_TOO_MANY_EVALUATIONS \/ v_status (snd l) = NW_STEP_FAILED
  | _ => v_status (snd l) = st
  end.
Context {B : Type}.
Variable Q : B -> Prop.
Variables (c : Z) (st : nstatus).
Definition ninv (l : nlabel * nvars (N := N)) : Prop := nlab l /\ ncnt l = c /\ nst st l.
Definition npost (r : nlabel * nvars + B) : Prop := match r with inl l => ninv l | inr b => Q b end.
Ltac ni := unfold npost, ninv, nlab, ncnt, nst, main_ok, base_ok, kok in *; nvs.
Ltac nd := ni; intuition (congruence || lia).

Lemma nw_start_safe v :
  arr W xbase 1 n -> mat W xpt npt 1 npt 1 n -> mat W bmat ndim 1 ndim 1 n -> arr W hq 1 nh -> arr W pq 1 npt ->
  mat W zmat npt 1 npt 1 nptm ->
  safe (nw_start n npt x rhobeg xbase xpt hq pq bmat zmat v) (fun u => v_nf u = 0 /\ v_status u = v_status v).
Proof. intros. unfold nw_start. sf. split; reflexivity. Qed.

Lemma nw_50_safe v : ninv (N50, v) -> mat W xpt npt (v_nf v + 1) (v_nf v + 1) 1 n -> arr W x 1 n ->
  safe (nw_50 n npt x rhobeg xbase xpt fval v) npost.
Proof.
  intros ([Hf Hk] & Hc & Hs) Wxpt Wx. unfold ncnt, nst in Hc, Hs. nvs. unfold nw_50, ngoto.
  set (nfm := v_nf v) in *. set (v1 := s_nfm nfm (s_nfmm (nfm - n) (s_nf (nfm + 1) v))).
  apply safe_bind with (P := fun v => init_ok v /\ v_nf v = nfm + 1 /\ v_status v = st).
  - destruct (Z.leb_spec nfm (2 * n)) as [L|L].
    + assert (I1 : init_ok v1) by (unfold init_ok, v1; nvs; repeat split; try lia; intros; apply Hk; lia).
      apply safe_bindT; [|intro; apply safe_ret; unfold v1; nvs; auto].
      destruct ((1 <=? nfm) && (nfm <=? n))%bool eqn:E1; [|destruct (Z.ltb_spec n nfm)].
      * apply andb_true_iff in E1. destruct E1 as [E1 E2]. apply Z.leb_le in E1, E2. sf.
      * sf.
      * sf.
    + cbv zeta.
      destruct (pt_range n npt nfm Hn Hnpt2 ltac:(lia)) as [K1 K2].
      set (q := Z.quot (nfm - n - 1) n) in *. set (jpt := nfm - q * n - n) in *.
      assert (K : exists i j, (if n <? jpt + q then (jpt, jpt + q - n) else (jpt + q, jpt)) = (i, j) /\ 1 <= i <= n /\ 1 <= j <= n).
      { destruct (Z.ltb_spec n (jpt + q)); eexists; eexists; (split; [reflexivity|lia]). }
      destruct K as (i & j & -> & Ki & Kj).
      do 2 (apply safe_bindT; [sf|intro]). do 2 (apply safe_bindT; [sf|intro]). apply safe_ret.
      unfold init_ok, v1; nvs. repeat split; try lia; auto; apply Hk; lia.
  - intros v' (I' & E' & S'). sf. unfold npost, ninv, nlab, ncnt, nst. nvs. repeat split; [auto|lia|auto].
Qed.

Lemma nw_70_safe v : ninv (N70, v) -> mat W bmat ndim 1 ndim 1 n -> arr W hq 1 nh -> mat W zmat npt 1 npt 1 nptm ->
  arr W gq 1 n -> arr W fval 1 npt -> arr W xopt 1 n ->
  safe (nw_70 n npt rhobeg xopt xpt fval gq hq bmat zmat v) npost.
Proof.
  intros ((Hf & Hm & Hmm & Hij & Hk) & Hc & Hs) Wb Wh Wz Wg Wf Wo. unfold ncnt, nst in Hc, Hs. nvs. unfold nw_70, ngoto. cbv zeta.
  apply safe_bindT; [sf|intros _].
  set (v1 := if v_nf v =? 1 then _ else _).
  assert (I1 : init_ok v1 /\ kok (v_kopt v1) /\ v_nf v1 = v_nf v /\ v_ipt v1 = v_ipt v /\ v_jpt v1 = v_jpt v /\ v_status v1 = st).
  { unfold v1, kok, init_ok in *. destruct (Z.eqb_spec (v_nf v) 1); [|destruct (nlt _ _)]; nvs; repeat split; auto; lia. }
  destruct I1 as (I1 & Ik & Ef & Ei & Ej & Es). clearbody v1.
  apply safe_bind with (P := fun v' => kok (v_kopt v') /\ v_nf v' = v_nf v /\ v_status v' = st).
  - destruct (Z.leb_spec (v_nfm v) (2 * n)) as [L|L].
    + apply safe_bindT; [|intro; apply safe_ret; auto].
      destruct ((1 <=? v_nfm v) && (v_nfm v <=? n))%bool eqn:E1; [|destruct (Z.ltb_spec n (v_nfm v))].
      * apply andb_true_iff in E1. destruct E1 as [E1 E2]. apply Z.leb_le in E1, E2. sf.
      * assert (D := diag_range' n (v_nfmm v) ltac:(lia)). sf.
      * sf.
    + destruct (Hij L) as [H1 H2]. assert (D := off_range n (v_ipt v) (v_jpt v) H1 H2). rewrite Ei, Ej.
      assert (K : forall (b : bool) i, 1 <= i <= n -> 1 <= (if b then i + n else i) <= 2 * n) by (intros [|] i; lia).
      pose proof (K (nlt (v_xipt v1) zero) _ H1) as Li. pose proof (K (nlt (v_xjpt v1) zero) _ H2) as Lj. clear K.
      set (i1 := if nlt (v_xipt v1) zero then _ else _) in *. set (j1 := if nlt (v_xjpt v1) zero then _ else _) in *.
      do 5 (apply safe_bindT; [sf|intro]). apply safe_ret. nvs. auto.
  - intros v' (K' & E' & S'). destruct (Z.ltb_spec (v_nf v) npt) as [L|L].
    + apply safe_ret. nd.
    + unfold kok in K'. sf. nd.
Qed.

Lemma nw_90_safe v : ninv (N90, v) -> safe (ngoto N100 (s_nfsav (v_nf v) v)) npost.
Proof. intros H. apply safe_ret. nd. Qed.

Lemma sub_w k hi : 0 <= k -> k + hi <= 11 * ndim -> arr W w 1 (11 * ndim) -> arr W (w + k) 1 hi.
Proof. intros H1 H2 H i Hi. replace (at1 (w + k) i) with (at1 w (k + i)) by (unfold at1; lia). apply H. lia. Qed.

Lemma sub_w_mat k : 0 <= k -> k + 5 * ndim <= 11 * ndim -> arr W w 1 (11 * ndim) -> mat W (w + k) ndim 1 ndim 1 5.
Proof.
  intros H1 H2 H i j Hi Hj. replace (at2 (w + k) ndim i j) with (at1 w (k + i + (j - 1) * ndim)) by (unfold at1, at2; ring).
  apply H. nia.
Qed.

Lemma nw_100_safe fuel v : ninv (N100, v) -> arr W d 1 n -> arr W w 1 (11 * ndim) ->
  safe (nw_100 ncos nsin n npt xopt xpt gq hq pq d w fuel v) npost.
Proof.
  intros H Wd Ww. unfold nw_100, ngoto. cbv zeta.
  assert (A0 : arr W w 1 n) by (intros i Hi; apply Ww; lia).
  assert (A1 := sub_w n n ltac:(lia) ltac:(lia) Ww). assert (A2 := sub_w (n + n) n ltac:(lia) ltac:(lia) Ww).
  assert (A3 := sub_w (n + 2 * n) n ltac:(lia) ltac:(lia) Ww). rewrite Z.add_assoc in A2.
  replace (w + (n + 2 * n)) with (w + n + 2 * n) in A3 by lia.
  apply safe_bindT; [apply trsapp_safe; auto|]. intros crvmin.
  apply safe_bindT; [sf|]. intros dsq.
  sf; nd.
Qed.

Lemma nw_shift_safe idz dsq xoptsq : arr W xbase 1 n -> arr W xopt 1 n -> mat W xpt npt 1 npt 1 n -> arr W gq 1 n ->
  arr W hq 1 nh -> mat W bmat ndim 1 ndim 1 n -> arr W vlag 1 ndim -> arr W w 1 (11 * ndim) ->
  safe (nw_shift n npt xbase xopt xpt gq hq pq bmat zmat vlag w idz dsq xoptsq) T.
Proof.
  intros Wxb Wxo Wxp Wg Wh Wb Wv Ww. unfold nw_shift. cbv zeta. sf1; [|sf].
  apply safe_bindT; [sf|intros _]. apply safe_bindT; [sf|intros _].
  apply safe_bindT; [|sf].
  apply (safe_weak W Rd C _ (fun ih => 2 * ih = (n + 1) * (n + 1 - 1))); [|auto].
  unfold LOOP at 1. apply (safe_loopJ W Rd C (fun j ih => 2 * ih = j * (j - 1))); [lia| |lia].
  intros j ih Hj E1. do 2 (apply safe_bindT; [sf|intros _]).
  apply (safe_weak W Rd C _ (fun ih => 2 * ih = j * (j - 1) + 2 * (j + 1 - 1))); [|intros; lia].
  unfold LOOP. apply (safe_loopJ W Rd C (fun i ih => 2 * ih = j * (j - 1) + 2 * (i - 1))); [lia| |lia].
  intros i ih' Hi E'. assert (K := tri_range n j i ih' Hi (proj2 Hj) E').
  apply safe_bindT; [sf|intros _]. sf. lia.
Qed.

Lemma nw_vlag_safe idz kopt dsq xoptsq : kok kopt -> arr W vlag 1 ndim -> arr W w 1 (11 * ndim) ->
  safe (nw_vlag n npt xopt xpt bmat zmat d vlag w idz kopt dsq xoptsq) T.
Proof. intros [K1 K2] Wv Ww. unfold nw_vlag. cbv zeta. sf. Qed.

Lemma nw_120_safe fuel v : ninv (N120, v) -> arr W xbase 1 n -> arr W xopt 1 n -> mat W xpt npt 1 npt 1 n -> arr W gq 1 n ->
  arr W hq 1 nh -> mat W bmat ndim 1 ndim 1 n -> arr W vlag 1 ndim -> arr W w 1 (11 * ndim) -> arr W d 1 n -> arr W xnew 1 n ->
  safe (nw_120 ncos nsin n npt xbase xopt xnew xpt gq hq pq bmat zmat d vlag w fuel v) npost.
Proof.
  intros H Wxb Wxo Wxp Wg Wh Wb Wv Ww Wd Wn. ni. unfold nw_120. cbv zeta.
  assert (A0 : arr W w 1 n) by (intros i Hi; apply Ww; lia).
  assert (A1 := sub_w n n ltac:(lia) ltac:(lia) Ww). assert (A2 := sub_w (n + n) n ltac:(lia) ltac:(lia) Ww).
  rewrite Z.add_assoc in A2. assert (A3 := sub_w_mat ndim ltac:(lia) ltac:(lia) Ww).
  assert (A4 := sub_w_mat (ndim * 6) ltac:(lia) ltac:(lia) Ww).
  assert (A5 : arr W w 1 ndim) by (intros i Hi; apply Ww; lia).
  assert (V1 : arr W vlag 1 npt) by (intros i Hi; apply Wv; lia).
  assert (V2 : arr W (vlag + npt) 1 n).
  { intros i Hi. replace (at1 (vlag + npt) i) with (at1 vlag (npt + i)) by (unfold at1; lia). apply Wv; lia. }
  assert (Z1 : mat Rd zmat npt 1 npt 1 (npt - n - 1)) by (intros i j Hi Hj; apply Rzmat; lia).
  apply safe_bindT; [apply nw_shift_safe; auto|]. intros xoptsq.
  apply safe_bindT.
  { destruct (Z.ltb_spec 0 (v_knew v)); [|sf]. apply biglag_safe; auto; lia. }
  intros alpha. apply safe_bindT; [apply nw_vlag_safe; auto; unfold kok; lia|]. intros beta.
  apply safe_bindT.
  { destruct (Z.ltb_spec 0 (v_knew v)); [|sf]. apply safe_bindT; [sf|]. intros temp. sf1; [|sf].
    apply bigden_safe; auto; lia. }
  intros beta'. apply safe_ret. nd.
Qed.

Lemma nw_290_safe v : ninv (N290, v) -> arr W xnew 1 n -> arr W x 1 n -> safe (nw_290 n x xbase xopt xnew d v) npost.
Proof.
  intros H Wn Wx. unfold nw_290, ngoto. sf. nd.
Qed.

Lemma nw_310_safe v : ninv (N310, v) -> safe (nw_310 maxfun v) npost.
Proof.
  intros H. unfold nw_310, nfail, ngoto. destruct (Z.ltb_spec (Z.max maxfun 1) (v_nf v)); apply safe_ret.
  - nd.
  - destruct H as (H1 & H2 & H3). unfold npost, ninv, nlab, ncnt, nst in *. nvs. auto.
Qed.

Lemma nw_vquad_safe : safe (nw_vquad n npt xopt xnew gq hq pq d w) T.
Proof.
  unfold nw_vquad. apply safe_bindT; [|sf].
  apply (safe_weak W Rd C _ (fun r => 2 * snd r = (n + 1) * (n + 1 - 1))); [|auto].
  unfold LOOP at 1. apply (safe_loopJ W Rd C (fun j r => 2 * snd r = j * (j - 1))); [lia| |cbn [snd]; lia].
  intros j [vq ih] Hj E1. cbn [snd] in E1. apply safe_bindT; [sf|]. intros vq1.
  apply (safe_weak W Rd C _ (fun r => 2 * snd r = j * (j - 1) + 2 * (j + 1 - 1))); [|intros; lia].
  unfold LOOP. apply (safe_loopJ W Rd C (fun i r => 2 * snd r = j * (j - 1) + 2 * (i - 1))); [lia| |cbn [snd]; lia].
  intros i [vq' ih'] Hi E'. cbn [snd] in E'. assert (K := tri_range n j i ih' Hi (proj2 Hj) E'). sf. cbn [snd]. lia.
Qed.

Lemma nw_choose_safe v fsave rhosq : 0 <= v_knew v <= npt ->
  safe (nw_choose n npt xopt xpt zmat vlag v fsave rhosq) (fun k => 0 <= k <= npt).
Proof.
  intros H. unfold nw_choose. cbv zeta. destruct (if nle fsave (v_f v) then _ else _) as [ktemp detrat].
  apply safe_bind with (P := fun r : N * Z => 0 <= snd r <= npt).
  - unfold LOOP at 1. apply safe_loopP; [|cbn; lia]. intros k [dt kn] Hk H1. cbn [snd] in H1. sf; cbn [snd]; lia.
  - intros [dt kn] H1. apply safe_ret. exact H1.
Qed.

Lemma nw_frob_safe idz kopt itest gqsq : kok kopt -> arr W gq 1 n -> arr W hq 1 nh -> arr W pq 1 npt -> arr W vlag 1 ndim ->
  arr W w 1 (11 * ndim) -> safe (nw_frob n npt fval gq hq pq bmat zmat vlag w idz kopt itest gqsq) T.
Proof. intros [K1 K2] Wg Wh Wp Wv Ww. unfold nw_frob. cbv zeta. sf. Qed.

Lemma nw_410_safe fsave v : base_ok v -> kok (v_knew v) -> v_nf v = c -> v_status v = st -> mat W xpt npt 1 npt 1 n -> arr W fval 1 npt ->
  arr W gq 1 n -> arr W hq 1 nh -> arr W pq 1 npt -> mat W bmat ndim 1 ndim 1 n -> mat W zmat npt 1 npt 1 nptm ->
  arr W vlag 1 ndim -> arr W w 1 (11 * ndim) ->
  safe (nw_410 n npt xnew xpt fval gq hq pq bmat zmat vlag w fsave v) npost.
Proof.
  intros (B1 & B2 & B3) K1 Hc Hs Wxp Wf Wg Wh Wp Wb Wz Wv Ww. unfold nw_410, ngoto. cbv zeta. unfold kok in K1.
  eapply safe_bind.
  { apply nupdate_safe; auto; [|intros i Hi; apply Ww; lia].
    intros i j Hi Hj. apply Wz; lia. }
  intros idz Hidz. cbv beta in Hidz.
  apply safe_bindT; [sf|intros _]. apply safe_bindT.
  { apply (safe_weak W Rd C _ (fun ih => 2 * ih = (n + 1) * (n + 1 - 1))); [|auto].
    unfold LOOP at 1. apply (safe_loopJ W Rd C (fun j ih => 2 * ih = j * (j - 1))); [lia| |lia].
    intros j ih Hj E1. apply safe_bindT; [sf|intros temp].
    apply (safe_weak W Rd C _ (fun ih => 2 * ih = j * (j - 1) + 2 * (j + 1 - 1))); [|intros; lia].
    unfold LOOP. apply (safe_loopJ W Rd C (fun i ih => 2 * ih = j * (j - 1) + 2 * (i - 1))); [lia| |lia].
    intros i ih' Hi E'. assert (K := tri_range n j i ih' Hi (proj2 Hj) E'). sf. lia. }
  intros _. apply safe_bindT; [sf|intros _]. apply safe_bindT; [sf|intros _]. apply safe_bindT; [sf|intros gqsq].
  apply safe_bindT.
  { sf1; [|sf]. sf1; [sf|]. apply nw_frob_safe; auto. }
  intros itest. sf; (destruct (nlt (v_f v) fsave); nd).
Qed.

Lemma nw_new_safe v : ninv (Nnew, v) -> arr W xopt 1 n -> mat W xpt npt 1 npt 1 n -> arr W fval 1 npt ->
  arr W gq 1 n -> arr W hq 1 nh -> arr W pq 1 npt -> mat W bmat ndim 1 ndim 1 n -> mat W zmat npt 1 npt 1 nptm ->
  arr W vlag 1 ndim -> arr W w 1 (11 * ndim) ->
  safe (nw_new n npt xopt xnew xpt fval gq hq pq bmat zmat d vlag w v) npost.
Proof.
  intros (H & Hc & Hs) Wxo Wxp Wf Wg Wh Wp Wb Wz Wv Ww. unfold nlab, ncnt, nst in H, Hc, Hs. nvs.
  unfold nw_new, nfail, ngoto. cbv zeta.
  destruct (Z.leb_spec (v_nf v) npt) as [L|L].
  { apply safe_ret. unfold npost, ninv, nlab, ncnt, nst. nvs. split; [destruct H as [H|H]; [auto|lia]|auto]. }
  destruct H as [H|[H _]]; [unfold init_ok in H; lia|].
  destruct (Z.eqb_spec (v_knew v) (-1)) as [K|K].
  { apply safe_ret. nd. }
  apply safe_bindT; [apply nw_vquad_safe|]. intros vquad. apply safe_bindT; [sf|]. intros diff.
  match goal with |- context [if nlt (v_rho ?a) (v_dnorm ?b) then ?c else ?e] =>
    set (v1 := if nlt (v_rho a) (v_dnorm b) then c else e) end.
  assert (I1 : main_ok v1 /\ v_knew v1 = v_knew v /\ v_nf v1 = c /\ v_status v1 = st).
  { unfold v1, main_ok, base_ok, kok in *. destruct (nlt _ _); nvs; repeat split; lia || auto. }
  destruct I1 as (I1 & E1 & F1 & S1). clearbody v1.
  apply safe_bind with (P := fun u => main_ok u /\ v_knew u = v_knew v /\ v_nf u = c /\ v_status u = st).
  { sf1; [|sf; auto]. apply safe_bindT; [sf|]. intros xoptsq. apply safe_ret. unfold main_ok, base_ok, kok in *. nvs.
    repeat split; lia || auto. }
  intros v2 (I2 & E2 & F2 & S2). unfold main_ok, base_ok, kok in I2.
  destruct (Z.ltb_spec 0 (v_knew (s_ksave (v_knew v2) v2))) as [P|P].
  { apply nw_410_safe; auto; unfold base_ok, kok; nvs; lia. }
  nvs. sf1.
  { apply safe_ret. nd. }
  eapply safe_bind; [apply nw_choose_safe; nvs; lia|]. intros knew Hkn. cbv beta in Hkn.
  destruct (Z.eqb_spec knew 0) as [E0|E0].
  - apply safe_ret. nd.
  - apply nw_410_safe; auto; unfold base_ok, kok; nvs; lia.
Qed.

Lemma nw_460_safe v : ninv (N460, v) -> safe (nw_460 n npt xopt xpt v) npost.
Proof.
  intros H. unfold nw_460, ngoto. apply safe_bindT; [sf|]. intros dq.
  apply safe_bind with (P := fun r : N * Z => -1 <= snd r <= npt).
  - ni. unfold LOOP at 1. apply safe_loopP; [|cbn; lia]. intros k [ds kn] Hk H1. cbn [snd] in H1.
    sf; cbn [snd]; lia.
  - intros [ds kn] H1. cbn [snd] in H1. sf; nd.
Qed.

Lemma nw_490_safe v : ninv (N490, v) -> safe (nw_490 rhoend v) npost.
Proof. intros H. unfold nw_490, nfail, ngoto. sf; nd. Qed.

Lemma nw_done_safe v : arr W x 1 n -> safe (nw_done n x xbase xopt v) (fun u => v_nf u = v_nf v /\ v_status u = v_status v).
Proof. intros Wx. unfold nw_done. sf; auto. Qed.
End Main.
