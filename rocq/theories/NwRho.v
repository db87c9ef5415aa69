(** * The radius of the trust region in NEWUOA: proofs *)
From Coq Require Import ZArith List Bool Lia.
From Verif Require Import Num BqLang BqModel Yields RhoSpec NwModel.
Local Open Scope Z_scope.

Ltac nvr := cbn [v_idz v_ipt v_itest v_jpt v_knew v_kopt v_ksave v_nf v_nfm v_nfmm v_nfsav v_status v_rho v_delta v_dnorm v_ratio
  s_alpha s_beta s_crvmin s_delta
  s_diff s_diffa s_diffb s_diffc s_dnorm s_dsq s_dstep s_fbeg s_fopt s_ratio s_recip s_reciq s_rho s_rhosq s_vquad s_xipt
  s_xjpt s_xoptsq s_f s_idz s_ipt s_itest s_jpt s_knew s_kopt s_ksave s_nf s_nfm s_nfmm s_nfsav s_status fst snd] in *.

(** What is needed of the arithmetic for DELTA *)
Record DeltaLaws (N : Num) (ok : N -> Prop) : Prop := {
  dl_more : forall d r : N, ok r -> nle d (nmul r (nQ 3 2)) = false -> nlt d r = false;
  dl_max : forall d r : N, ok r -> nlt (bmax d r) r = false;
  dl_irr : forall r : N, ok r -> nlt r r = false
}.

Section Step.
Context {N : Num} (ncos nsin : N -> N).
Notation nvars := (nvars (N := N)).
Variables (n npt x : Z) (rhobeg rhoend : N) (maxfun : Z).
Variables (xbase xopt xnew xpt fval gq hq pq bmat zmat d vlag w : Z).
Context {B : Type}.
Variable Q : B -> Prop.
(** The radius at the start, the number of evaluations and the status *)
Variable r0 : N.
(** [D] if the arithmetic has the properties needed for DELTA *)
Variables (D : Prop) (ok : N -> Prop).
Hypothesis HD : D -> DeltaLaws N ok.
Hypothesis Hok : D -> forall k r, reduced rhoend (nw_next rhoend) k r0 r -> ok r.
Definition nrok (v : nvars) : Prop :=
  (exists k, reduced rhoend (nw_next rhoend) k r0 (v_rho v)) /\ (D -> nlt (v_delta v) (v_rho v) = false).
Definition ncount (l : nlabel * nvars) : Z :=
  match fst l with N310 | Neval => v_nf (snd l) - 1 | _ => v_nf (snd l) end.
Variables (c : Z) (st : nstatus).
Definition nrlab (l : nlabel * nvars) : Prop :=
  let v := snd l in
  ncount l = c /\
  match fst l with Ndone => v_status v <> NW_ITERATE | _ => v_status v = st end /\
  match fst l with
  | N50 => v_nf v < npt /\ r0 = rhobeg
  | N70 => v_nf v <= npt /\ r0 = rhobeg
  | N310 | Neval | Nnew => (v_nf v <= npt /\ r0 = rhobeg) \/ (nrok v /\ npt < v_nf v)
  | N90 | N100 | N120 | N290 | N460 | N490 => nrok v /\ npt <= v_nf v
  | Ndone => (v_nf v < npt /\ r0 = rhobeg /\ v_status v <> NW_SUCCESS) \/ (nrok v /\ npt <= v_nf v)
  end.
Definition nrpost (r : nlabel * nvars + B) : Prop := match r with inl l => nrlab l | inr b => Q b end.

Lemma ngoto_r l v : nrlab (l, v) -> yields (ngoto (B := B) l v) nrpost.
Proof. intros H. apply y_ret, H. Qed.
Ltac ng := unfold nfail; apply ngoto_r; unfold nrlab, ncount, nrok in *; nvr; intuition (congruence || lia || auto).

Lemma nw_50_r v : nrlab (N50, v) -> yields (nw_50 n npt x rhobeg xbase xpt fval (B := B) v) nrpost.
Proof.
  intros H. unfold nw_50. cbv zeta.
  eapply y_bind with (P := fun u => v_nf u = v_nf v + 1 /\ v_status u = v_status v).
  - destruct (_ <=? _); [apply y_bindT; intros _; apply y_ret; split; reflexivity|].
    match goal with |- context [if ?b then (?p, ?q) else (?r, ?t)] => destruct (if b then (p, q) else (r, t)) as [ip jp] end.
    do 4 (apply y_bindT; intros ?). apply y_ret. split; reflexivity.
  - intros u [U1 U2]. apply y_bindT. intros _. ng.
Qed.

Lemma nw_70_r v : nrlab (N70, v) ->
  yields (nw_70 n npt rhobeg xopt xpt fval gq hq bmat zmat (B := B) v) nrpost.
Proof.
  intros (H1 & H2 & H3 & H4). unfold ncount in H1. nvr. unfold nw_70. cbv zeta. apply y_bindT. intros _.
  eapply y_bind with (P := fun u => v_nf u = v_nf v /\ v_status u = v_status v).
  - match goal with |- context [if (v_nf v =? 1) then ?p else ?q] => set (u := if (v_nf v =? 1) then p else q) end.
    assert (U : v_nf u = v_nf v /\ v_status u = v_status v).
    { unfold u. destruct (_ =? 1); [|destruct (nlt _ _)]; split; reflexivity. }
    clearbody u. destruct (_ <=? _).
    + apply y_bindT. intros _. apply y_ret. exact U.
    + do 5 (apply y_bindT; intros ?). apply y_ret. exact U.
  - intros u [U1 U2]. destruct (Z.ltb_spec (v_nf v) npt) as [L|L].
    + apply ngoto_r. unfold nrlab, ncount. nvr. rewrite U1, U2. auto.
    + apply y_bindT. intros xs. apply ngoto_r. unfold nrlab, ncount, nrok. nvr. rewrite U1, U2. split; [exact H1|]. split; [exact H2|].
      split; [|lia]. rewrite <- H4. split; [exists O; constructor|]. intros HDD. apply (dl_irr _ _ (HD HDD)), (Hok HDD O). constructor.
Qed.

Lemma nrok_ok v : nrok v -> D -> ok (v_rho v).
Proof. intros [[k H] _] HDD. eapply Hok; [exact HDD|exact H]. Qed.

Lemma nw_100_r fuel v : nrlab (N100, v) -> yields (nw_100 ncos nsin n npt xopt xpt gq hq pq d w (B := B) fuel v) nrpost.
Proof.
  intros (H1 & H2 & H3 & H4). unfold ncount in H1. nvr. unfold nw_100. do 2 (apply y_bindT; intros ?). cbv zeta.
  pose proof (nrok_ok v H3) as HO. destruct H3 as [H3 H5].
  destruct (nlt _ (nmul half _)).
  - assert (K : forall dl, D -> nlt (if nle dl (nmul (v_rho v) (nQ 3 2)) then v_rho v else dl) (v_rho v) = false).
    { intros dl HDD. destruct (nle _ _) eqn:E; [apply (dl_irr _ _ (HD HDD)), HO, HDD|]. eapply (dl_more _ _ (HD HDD)); [apply HO, HDD|exact E]. }
    destruct (_ <=? _); [|destruct (nle _ _)]; apply ngoto_r; unfold nrlab, ncount, nrok; nvr;
      (split; [exact H1|]; split; [exact H2|]; split; [split; [exact H3|apply K]|exact H4]).
  - ng.
Qed.

Lemma nw_120_r fuel v : nrlab (N120, v) ->
  yields (nw_120 ncos nsin n npt xbase xopt xnew xpt gq hq pq bmat zmat d vlag w (B := B) fuel v) nrpost.
Proof. intros H. unfold nw_120. cbv zeta. do 4 (apply y_bindT; intros ?). ng. Qed.

Lemma nw_290_r v : nrlab (N290, v) -> yields (nw_290 n x xbase xopt xnew d (B := B) v) nrpost.
Proof. intros H. unfold nw_290. apply y_bindT. intros _. ng. Qed.

Lemma nw_310_r v : st <> NW_SUCCESS -> nrlab (N310, v) -> yields (nw_310 maxfun (B := B) v) nrpost.
Proof. intros Hs H. unfold nw_310. destruct (_ <? _); ng. Qed.

Lemma nw_410_r fsave v : v_nf v = c -> v_status v = st -> nrok v -> npt <= v_nf v ->
  yields (nw_410 n npt xnew xpt fval gq hq pq bmat zmat vlag w (B := B) fsave v) nrpost.
Proof.
  intros H1 H2 H3 H4. unfold nw_410. cbv zeta. do 7 (apply y_bindT; intros ?).
  match goal with |- context [if nlt (v_f v) fsave then ?p else ?q] => set (u := if nlt (v_f v) fsave then p else q) end.
  assert (U : v_nf u = v_nf v /\ v_status u = v_status v /\ v_rho u = v_rho v /\ v_delta u = v_delta v).
  { unfold u. destruct (nlt _ _); repeat split. }
  clearbody u. destruct U as (U1 & U2 & U3 & U4). unfold nrok in H3.
  destruct (_ || _)%bool; apply ngoto_r; unfold nrlab, ncount, nrok; nvr; rewrite U1, U2, U3, U4; auto.
Qed.

Lemma nw_new_r v : nrlab (Nnew, v) ->
  yields (nw_new n npt xopt xnew xpt fval gq hq pq bmat zmat d vlag w (B := B) v) nrpost.
Proof.
  intros (H1 & H2 & H3). unfold ncount in H1. nvr. unfold nw_new. cbv zeta. destruct (Z.leb_spec (v_nf v) npt) as [L|L].
  { destruct H3 as [H3|[_ H3]]; [|lia]. apply ngoto_r. unfold nrlab, ncount. nvr. auto. }
  destruct H3 as [H3|[H3 H4]]; [lia|].
  destruct (_ =? -1); [unfold nfail; apply ngoto_r; unfold nrlab, ncount, nrok in *; nvr; split; [exact H1|]; split; [discriminate|]; right; split; [exact H3|lia]|].
  apply y_bindT. intros vq. apply y_bindT. intros df.
  match goal with |- context [if nlt (v_rho ?p) (v_dnorm ?q) then s_nfsav ?k ?r else ?t] =>
    set (u := if nlt (v_rho p) (v_dnorm q) then s_nfsav k r else t) end.
  assert (U : v_nf u = v_nf v /\ v_status u = v_status v /\ nrok u).
  { unfold u. match goal with |- context [if ?b then _ else _] => destruct b end; (split; [reflexivity|]; split; [reflexivity|exact H3]). }
  clearbody u. eapply y_bind with (P := fun u' => v_nf u' = v_nf v /\ v_status u' = v_status v /\ nrok u').
  { destruct (nlt _ _); [apply y_bindT; intros ?|]; apply y_ret; exact U. }
  generalize (v_fopt u) as fsave. intros fsave. clear u U. intros u (U1 & U2 & U3).
  destruct (0 <? _).
  { apply nw_410_r; nvr; [congruence|congruence|exact U3|lia]. }
  destruct (nle zero vq); [unfold nfail; apply ngoto_r; unfold nrlab, ncount, nrok in *; nvr; split; [congruence|]; split; [discriminate|]; right; split; [exact U3|lia]|].
  pose proof (nrok_ok u U3) as HO. destruct U3 as [U3 U4]. nvr.
  match goal with |- context [if nle ?dl (nmul (v_rho u) (nQ 3 2)) then v_rho u else ?dl] =>
    set (de := if nle dl (nmul (v_rho u) (nQ 3 2)) then v_rho u else dl) end.
  assert (KD : D -> nlt de (v_rho u) = false).
  { intros HDD. unfold de. match goal with |- context [if nle ?a ?b then _ else _] => destruct (nle a b) eqn:E end;
      [apply (dl_irr _ _ (HD HDD)), HO, HDD|eapply (dl_more _ _ (HD HDD)); [apply HO, HDD|exact E]]. }
  clearbody de. apply y_bindT. intros kn. destruct (kn =? 0).
  - apply ngoto_r. unfold nrlab, ncount, nrok. nvr. split; [congruence|]. split; [congruence|]. split; [auto|lia].
  - apply nw_410_r; nvr; [congruence|congruence|split; assumption|lia].
Qed.

Lemma nw_460_r v : nrlab (N460, v) -> yields (nw_460 n npt xopt xpt (B := B) v) nrpost.
Proof.
  intros H. unfold nw_460. apply y_bindT. intros d0. apply y_bindT. intros [d1 kn]. cbv zeta. destruct (0 <? _); [ng|].
  destruct (_ || _)%bool; ng.
Qed.

Lemma nw_490_r v : nrlab (N490, v) -> yields (nw_490 rhoend (B := B) v) nrpost.
Proof.
  intros (H1 & H2 & H3 & H4). unfold ncount in H1. nvr. unfold nw_490. cbv zeta.
  destruct (nlt rhoend (v_rho v)) eqn:E.
  - apply ngoto_r. unfold nrlab, ncount. nvr. split; [exact H1|]. split; [exact H2|]. split; [|exact H4]. destruct H3 as [[k H3] _].
    assert (K : reduced rhoend (nw_next rhoend) (S k) r0 (nw_next rhoend (v_rho v))) by (constructor; assumption).
    split; [exists (S k); exact K|]. nvr. intros HDD. apply (dl_max _ _ (HD HDD)). eapply Hok; [exact HDD|exact K].
  - destruct (_ =? -1); [ng|]. unfold nfail. apply ngoto_r. unfold nrlab, ncount, nrok in *. nvr. split; [exact H1|]. split; [discriminate|].
    right. split; [exact H3|lia].
Qed.

Lemma nw_step_r (ev : nvars -> prog N (nlabel * nvars + B)) fin fuel l : st <> NW_SUCCESS ->
  (forall v, nrlab (Neval, v) -> yields (ev v) nrpost) -> (forall v, nrlab (Ndone, v) -> yields (fin v) Q) -> nrlab l ->
  yields (nw_step ncos nsin n npt x rhobeg rhoend maxfun xbase xopt xnew xpt fval gq hq pq bmat zmat d vlag w (B := B) ev fin fuel l)
    nrpost.
Proof.
  intros Hs He Hf H. destruct l as [l v]. unfold nw_step. cbn [fst snd]. destruct l.
  - apply nw_50_r, H.
  - apply nw_70_r, H.
  - ng.
  - apply nw_100_r, H.
  - apply nw_120_r, H.
  - apply nw_290_r, H.
  - apply nw_310_r; assumption.
  - apply He, H.
  - apply nw_new_r, H.
  - apply nw_460_r, H.
  - apply nw_490_r, H.
  - eapply y_bind with (P := fun u => nrlab (Ndone, u)).
    { unfold nw_done. destruct (nle _ _); [apply y_bindT; intros _|]; apply y_ret; exact H. }
    intros u Hu. eapply y_bind; [apply Hf, Hu|]. intros r Hr. apply y_ret, Hr.
Qed.
End Step.

(** The calculations of one call of newuoa_iterate *)
Section Run.
Context {N : Num} (ncos nsin : N -> N).
Notation nvars := (nvars (N := N)).
Variables (n npt : Z) (rhobeg rhoend r0 : N) (D : Prop) (ok : N -> Prop).
Hypothesis HD : D -> DeltaLaws N ok.
Hypothesis Hok : D -> forall k r, reduced rhoend (nw_next rhoend) k r0 r -> ok r.
Hypothesis Hnpt : 1 < npt.
Notation lab := (nrlab npt rhobeg rhoend r0 D).
Definition nrfin (m : Z) (v : nvars) : Prop :=
  (v_status v = NW_ITERATE /\ lab m NW_ITERATE (Neval, v)) \/
  (v_status v <> NW_ITERATE /\ ((m < npt /\ r0 = rhobeg /\ v_status v <> NW_SUCCESS) \/ (nrok rhoend r0 D v /\ npt <= m))).

Lemma nrun_r x maxfun w m fi fuel l : lab m NW_ITERATE l \/ (m = 1 /\ lab 0 NW_INITIAL_ITERATE l) ->
  yields (nw_run ncos nsin n npt x rhobeg rhoend maxfun w nw_request (fun v => ret v) fi fuel l) (nrfin m).
Proof.
  intros H. unfold nw_run.
  apply y_machine with (J := fun l => lab m NW_ITERATE l \/ (m = 1 /\ lab 0 NW_INITIAL_ITERATE l)); [|exact H]. clear l H.
  assert (EV : forall c st, (c = m /\ st = NW_ITERATE) \/ (m = 1 /\ c = 0 /\ st = NW_INITIAL_ITERATE) -> forall l, lab c st l ->
    yields (nw_step ncos nsin n npt x rhobeg rhoend maxfun w (o_xopt n npt w) (o_xnew n npt w) (o_xpt n npt w) (o_fval n npt w)
      (o_gq n npt w) (o_hq n npt w) (o_pq n npt w) (o_bmat n npt w) (o_zmat n npt w) (o_d n npt w) (o_vlag n npt w)
      (o_w n npt w) nw_request (fun v => ret v) fi l)
      (fun r => match r with inl l => lab m NW_ITERATE l \/ (m = 1 /\ lab 0 NW_INITIAL_ITERATE l) | inr b => nrfin m b end)).
  { intros c st Hc [l v] Hl.
    destruct (match l with Neval => true | _ => false end) eqn:E1; [|destruct (match l with Ndone => true | _ => false end) eqn:E2].
    - destruct l; try discriminate. unfold nw_step. cbn [fst snd]. destruct Hl as (L1 & L2 & L3). unfold ncount in *. cbn [fst snd] in *.
      unfold nw_request. rewrite L2. destruct Hc as [[-> ->]|(-> & -> & ->)].
      + apply y_ret. left. split; [reflexivity|]. split; [exact L1|]. split; [reflexivity|exact L3].
      + apply y_ret. left. split; [|split; [reflexivity|exact L3]]. unfold ncount. nvr. lia.
    - destruct l; try discriminate. unfold nw_step. cbn [fst snd]. eapply y_bind with (P := fun u => lab c st (Ndone, u)).
      { unfold nw_done. destruct (nle _ _); [apply y_bindT; intros _|]; apply y_ret; exact Hl. }
      intros u (L1 & L2 & L3). apply y_bind with (P := fun r => r = u); [apply y_ret; reflexivity|]. intros r ->. apply y_ret.
      right. unfold ncount in *. nvr. split; [exact L2|].
      destruct L3 as [[L3 L4]|[L3 L4]]; [left; split; [lia|exact L4]|right; split; [exact L3|]; lia].
    - assert (S := nw_step_r ncos nsin n npt x rhobeg rhoend maxfun w (o_xopt n npt w) (o_xnew n npt w) (o_xpt n npt w) (o_fval n npt w)
        (o_gq n npt w) (o_hq n npt w) (o_pq n npt w) (o_bmat n npt w) (o_zmat n npt w) (o_d n npt w) (o_vlag n npt w)
        (o_w n npt w) (B := nvars) (fun _ => False) r0 D ok HD Hok c st
        (fun v => more) (fun v => more) fi (l, v)).
      replace (nw_step ncos nsin n npt x rhobeg rhoend maxfun w (o_xopt n npt w) (o_xnew n npt w) (o_xpt n npt w) (o_fval n npt w)
        (o_gq n npt w) (o_hq n npt w) (o_pq n npt w) (o_bmat n npt w) (o_zmat n npt w) (o_d n npt w) (o_vlag n npt w)
        (o_w n npt w) nw_request (fun v => ret v) fi (l, v)) with
       (nw_step ncos nsin n npt x rhobeg rhoend maxfun w (o_xopt n npt w) (o_xnew n npt w) (o_xpt n npt w) (o_fval n npt w)
        (o_gq n npt w) (o_hq n npt w) (o_pq n npt w) (o_bmat n npt w) (o_zmat n npt w) (o_d n npt w) (o_vlag n npt w)
        (o_w n npt w) (fun v => more) (fun v => more) fi (l, v) : prog N (nlabel * nvars + nvars)) by (destruct l; try discriminate; reflexivity).
      eapply y_weak; [apply S|].
      + destruct Hc as [[_ ->]|(_ & _ & ->)]; discriminate.
      + intros u _ s a s' E. discriminate E.
      + intros u _ s a s' E. discriminate E.
      + exact Hl.
      + intros [r|r] HR; [|contradiction]. destruct Hc as [[-> ->]|(E & -> & ->)]; [left; exact HR|right; split; [exact E|exact HR]]. }
  intros l [H|[E H]].
  - apply (EV m NW_ITERATE); auto.
  - apply (EV 0 NW_INITIAL_ITERATE); auto.
Qed.
End Run.

(** The contexts of the clients *)
Section Context.
Context {N : Num} (ncos nsin : N -> N).
Variables (D : N -> Prop) (ok : N -> N -> N -> Prop).
Hypothesis HD : forall e r0, D e -> nle e (nZ 0) = false -> nlt r0 e = false -> DeltaLaws N (ok e r0).
Hypothesis Hok : forall e r0 k r, D e -> nle e (nZ 0) = false -> nlt r0 e = false -> reduced e (nw_next e) k r0 r -> ok e r0 r.

Definition kr (c : ncontext (N := N)) : Prop :=
  (1 < k_npt c /\ 0 <= k_nevals c) /\ nle (k_rhoend c) (nZ 0) = false /\ nlt (k_rhobeg c) (k_rhoend c) = false /\
  ((k_nevals c = 0 /\ k_status c <> NW_SUCCESS) \/ nrfin (k_npt c) (k_rhobeg c) (k_rhoend c) (k_rhobeg c) (D (k_rhoend c)) (k_nevals c) (k_v c)).

Lemma kr_create n npt rb re maxfun a :
  yields (newuoa_create n npt rb re maxfun (Some a)) (fun r => match r with None => True | Some c => kr c /\ v_rho (k_v c) = nZ 0 end).
Proof.
  unfold newuoa_create. destruct (Z.ltb_spec n 0) as [L|L]; [apply y_ret; exact I|].
  destruct ((npt <? n + 2) || _)%bool eqn:E1; [apply y_ret; exact I|]. apply orb_false_iff in E1. destruct E1 as [E1 _]. apply Z.ltb_ge in E1.
  destruct (_ || _)%bool eqn:E2; [apply y_ret; exact I|]. apply orb_false_iff in E2. destruct E2 as [E2 E3].
  destruct (maxfun <? 1); [apply y_ret; exact I|]. apply y_bindT. intros _. apply y_ret. split; [|reflexivity].
  unfold kr. cbn. split; [lia|]. split; [exact E2|]. split; [exact E3|]. left. split; [reflexivity|discriminate].
Qed.

Lemma kr_error c st : kr c -> st <> NW_ITERATE -> st <> NW_SUCCESS -> kr (k_set c (s_status st (k_v c)) (k_nevals c)).
Proof.
  intros (H1 & H2 & H3 & H4) N1 N2. unfold kr. cbn [k_set k_npt k_rhobeg k_rhoend k_nevals k_v]. split; [exact H1|]. split; [exact H2|].
  split; [exact H3|]. destruct H4 as [[H4 _]|H4]; [left; split; [exact H4|exact N2]|]. right. right. split; [exact N1|].
  destruct H4 as [[_ (L1 & _ & L3)]|[_ H4]]; [|destruct H4 as [(H4 & H5 & _)|H4]; [left; split; [exact H4|split; [exact H5|exact N2]]|right; exact H4]]. unfold ncount in L1. nvr.
  destruct L3 as [[L3 L4]|[L3 L4]]; [left; split; [lia|split; [exact L4|exact N2]]|right; split; [exact L3|lia]].
Qed.

Lemma kr_iterate c f x fi fuel : kr c -> yields (newuoa_iterate ncos nsin c f x fi fuel) kr.
Proof.
  intros HK. unfold newuoa_iterate. destruct x as [x|]; [|apply y_ret, kr_error; auto; discriminate].
  destruct (k_status c) eqn:ES; try (apply y_ret, kr_error; auto; discriminate). cbv zeta.
  destruct HK as ((H1 & H0) & H2 & H3 & H4).
  assert (FIN : forall u, nrfin (k_npt c) (k_rhobeg c) (k_rhoend c) (k_rhobeg c) (D (k_rhoend c)) (k_nevals c + 1) u -> kr (k_set c u (k_nevals c + 1))).
  { intros u Hu. unfold kr. cbn [k_set k_npt k_rhobeg k_rhoend k_nevals k_v]. split; [split; [exact H1|lia]|]. auto. }
  assert (RUN := fun m l => nrun_r ncos nsin (k_n c) (k_npt c) (k_rhobeg c) (k_rhoend c) (k_rhobeg c) (D (k_rhoend c)) (ok (k_rhoend c) (k_rhobeg c))
    (fun d => HD _ _ d H2 H3) (fun d k r => Hok _ _ k r d H2 H3) H1 x (k_maxfun c) (k_w c) m fi fuel l).
  destruct (Z.ltb_spec 1 (k_nevals c + 1)) as [L|L].
  - destruct H4 as [[H4 _]|H4]; [lia|]. eapply y_bind; [apply (RUN (k_nevals c + 1))|].
    + left. unfold k_status in ES. destruct H4 as [[_ (L1 & L2 & L3)]|[H4 _]]; [|contradiction]. unfold nrlab, ncount in *. nvr.
      split; [lia|]. split; [exact L2|exact L3].
    + intros u Hu. apply y_ret, FIN, Hu.
  - destruct (Z.eqb_spec (k_nevals c + 1) 1) as [E0|E0]; cbn [negb]; [|lia].
    eapply y_bind with (P := fun v => v_nf v = 0 /\ v_status v = NW_INITIAL_ITERATE).
    { unfold nw_begin, nw_start. cbv zeta. do 3 (apply y_bindT; intros _). apply y_ret. split; reflexivity. }
    intros v [V1 V2]. eapply y_bind; [apply (RUN (k_nevals c + 1))|].
    + right. split; [exact E0|]. unfold nrlab, ncount. nvr. split; [exact V1|]. split; [exact V2|]. split; [lia|reflexivity].
    + intros u Hu. apply y_ret, FIN, Hu.
Qed.

(** From one call to the next one, after the initial evaluations *)
Lemma kr_call c f x fi fuel : kr c -> k_npt c <= k_nevals c -> D (k_rhoend c) = False ->
  yields (newuoa_iterate ncos nsin c f x fi fuel) (fun c' => exists k, reduced (k_rhoend c) (nw_next (k_rhoend c)) k (v_rho (k_v c)) (v_rho (k_v c'))).
Proof.
  intros HK L DF. assert (SAME : forall st m, exists k, reduced (k_rhoend c) (nw_next (k_rhoend c)) k (v_rho (k_v c)) (v_rho (k_v (k_set c (s_status st (k_v c)) m))))
    by (intros; exists O; constructor).
  unfold newuoa_iterate. destruct x as [x|]; [|apply y_ret, SAME].
  destruct (k_status c) eqn:ES; try (apply y_ret, SAME). cbv zeta. destruct HK as ((H1 & H0) & H2 & H3 & H4).
  destruct (Z.ltb_spec 1 (k_nevals c + 1)) as [L1|L1]; [|lia].
  destruct H4 as [[H4 _]|H4]; [lia|]. unfold k_status in ES. destruct H4 as [[_ (L2 & L3 & L4)]|[H4 _]]; [|contradiction]. unfold ncount in L2. nvr.
  destruct L4 as [L4|[L4 L5]]; [lia|].
  eapply y_bind; [apply (nrun_r ncos nsin (k_n c) (k_npt c) (k_rhobeg c) (k_rhoend c) (v_rho (k_v c)) (D (k_rhoend c)) (fun _ => True)) with (m := k_nevals c + 1)|].
  - rewrite DF. tauto.
  - rewrite DF. tauto.
  - exact H1.
  - left. unfold nrlab, ncount. nvr. split; [lia|]. split; [exact L3|]. right. split; [|exact L5]. split; [exists O; constructor|].
    rewrite DF. tauto.
  - intros u Hu. apply y_ret. cbn [k_set k_v]. destruct Hu as [[_ (U0 & _ & [[U1 _]|[[U1 _] _]])]|[_ [[U1 _]|[[U1 _] _]]]]; try exact U1; exfalso.
    + unfold ncount in U0. nvr. lia.
    + lia.
Qed.
End Context.
