(** * The functions of newuoa.c that are called by the users *)
From Coq Require Import ZArith List Bool Lia.
From Verif Require Import Num BqLang BqModel BqWp BqSafe BqEval BqRun BqSpec BqTop NwModel NwSafe NwMain NwSpec.
Import ListNotations.
Local Open Scope Z_scope.

(** The last array of the workspace has 11*(npt + n) elements *)
Lemma npartition_end n npt w :
  1 <= n -> n + 2 <= npt -> o_w n npt w + 11 * (npt + n) = w + nw_size n npt.
Proof.
  intros Hn Hp. unfold nw_size, o_w, o_vlag, o_d, o_zmat, o_bmat, o_pq, o_hq, o_gq, o_fval, o_xpt, o_xnew, o_xopt.
  replace (3 * n * (n + 3)) with (n * (n + 1) + (n * n + 4 * n) * 2) by ring.
  rewrite Z.div_add by lia. ring.
Qed.

Section Step.
Context {N : Num}.
Variables (ncos nsin : N -> N).
Variables (W Rd : Z -> Prop) (C : Z -> option N).
Hypothesis WRd : forall a, W a -> Rd a.
Hypothesis CW : forall a v, C a = Some v -> ~ W a.
Notation safe := (safe W Rd C).
Variables (n npt x : Z) (rhobeg rhoend : N) (maxfun w : Z).
Hypothesis (Hn : 1 <= n) (Hnpt : n + 2 <= npt) (Hnpt2 : 2 * npt <= (n + 1) * (n + 2)).
Hypothesis HWx : forall a, x <= a < x + n -> W a.
Hypothesis HWw : forall a, w <= a < w + nw_size n npt -> W a.
Notation ndim := (npt + n).
Notation nh := (n * (n + 1) / 2).
Notation nptm := (npt - (n + 1)).

Lemma area_facts : 0 <= nh /\ 0 <= n * npt /\ 0 <= ndim * n /\ 0 <= npt * nptm /\
  o_w n npt w + 11 * ndim = w + nw_size n npt.
Proof. split; [apply Z.div_pos; nia|]. split; [nia|]. split; [nia|]. split; [nia|]. apply npartition_end; auto. Qed.
Lemma area_eqs : o_xopt n npt w = w + n /\ o_xnew n npt w = o_xopt n npt w + n /\ o_xpt n npt w = o_xnew n npt w + n /\
  o_fval n npt w = o_xpt n npt w + n * npt /\ o_gq n npt w = o_fval n npt w + npt /\ o_hq n npt w = o_gq n npt w + n /\
  o_pq n npt w = o_hq n npt w + nh /\ o_bmat n npt w = o_pq n npt w + npt /\ o_zmat n npt w = o_bmat n npt w + ndim * n /\
  o_d n npt w = o_zmat n npt w + npt * nptm /\ o_vlag n npt w = o_d n npt w + n /\ o_w n npt w = o_vlag n npt w + ndim.
Proof. repeat split. Qed.
Ltac area0 := destruct area_facts as (F1 & F2 & F3 & F4 & F5);
  destruct area_eqs as (G1 & G2 & G3 & G4 & G5 & G6 & G7 & G8 & G9 & G10 & G11 & G12).
Ltac area := area0; intros i Hi; apply HWw; unfold at1; lia.
Ltac aream := area0; intros i j Hi Hj; apply HWw; unfold at2.

Lemma A_x : arr W x 1 n. Proof. intros i Hi. apply HWx. unfold at1. lia. Qed.
Lemma A_xbase : arr W w 1 n. Proof. area. Qed.
Lemma A_xopt : arr W (o_xopt n npt w) 1 n. Proof. area. Qed.
Lemma A_xnew : arr W (o_xnew n npt w) 1 n. Proof. area. Qed.
Lemma A_fval : arr W (o_fval n npt w) 1 npt. Proof. area. Qed.
Lemma A_gq : arr W (o_gq n npt w) 1 n. Proof. area. Qed.
Lemma A_hq : arr W (o_hq n npt w) 1 nh. Proof. area. Qed.
Lemma A_pq : arr W (o_pq n npt w) 1 npt. Proof. area. Qed.
Lemma A_d : arr W (o_d n npt w) 1 n. Proof. area. Qed.
Lemma A_vlag : arr W (o_vlag n npt w) 1 ndim. Proof. area. Qed.
Lemma A_w : arr W (o_w n npt w) 1 (11 * ndim). Proof. area. Qed.
Lemma A_xpt : mat W (o_xpt n npt w) npt 1 npt 1 n.
Proof. aream. assert (0 <= (j - 1) * npt) by nia. assert ((j - 1) * npt <= (n - 1) * npt) by nia. lia. Qed.
Lemma A_bmat : mat W (o_bmat n npt w) ndim 1 ndim 1 n.
Proof. aream. assert (0 <= (j - 1) * ndim) by nia. assert ((j - 1) * ndim <= (n - 1) * ndim) by nia. lia. Qed.
Lemma A_zmat : mat W (o_zmat n npt w) npt 1 npt 1 nptm.
Proof. aream. assert (0 <= (j - 1) * npt) by nia. assert ((j - 1) * npt <= (nptm - 1) * npt) by nia. lia. Qed.

Lemma W_R p lo hi : arr W p lo hi -> arr Rd p lo hi.
Proof. intros H i Hi. apply WRd, H, Hi. Qed.
Lemma W_Rm p l a b c e : mat W p l a b c e -> mat Rd p l a b c e.
Proof. intros H i j Hi Hj. apply WRd, H; auto. Qed.
Hint Resolve W_R W_Rm A_x A_xbase A_xopt A_xnew A_fval A_gq A_hq A_pq A_d A_vlag A_w A_xpt A_bmat A_zmat : nw.

Lemma begin_safe v : safe (nw_begin n npt x rhobeg w v) (fun u => v_nf u = 0 /\ v_status u = v_status v).
Proof. unfold nw_begin. apply nw_start_safe; auto with nw. Qed.

Notation step := (nw_step ncos nsin n npt x rhobeg rhoend maxfun w (o_xopt n npt w) (o_xnew n npt w) (o_xpt n npt w)
  (o_fval n npt w) (o_gq n npt w) (o_hq n npt w) (o_pq n npt w) (o_bmat n npt w) (o_zmat n npt w) (o_d n npt w) (o_vlag n npt w)
  (o_w n npt w)).

(** The labels where the objective function is not called *)
Lemma step_safe {B} (Q : B -> Prop) ev fin fuel c st l :
  fst l <> Neval -> fst l <> Ndone -> ninv n npt maxfun c st l -> safe (step ev fin fuel l) (npost n npt maxfun Q c st).
Proof.
  intros N1 N2 H. destruct l as [l v]. cbn [fst] in N1, N2. unfold nw_step. cbn [fst snd]. destruct l; try congruence.
  - apply nw_50_safe; auto with nw. destruct H as [[H _] _]. cbn [fst snd] in H. intros i j Hi Hj. apply A_xpt; auto; lia.
  - apply nw_70_safe; auto with nw.
  - apply nw_90_safe; auto with nw.
  - apply nw_100_safe; auto with nw.
  - apply nw_120_safe; auto with nw.
  - apply nw_290_safe; auto with nw.
  - apply nw_310_safe; auto with nw.
  - apply nw_new_safe; auto with nw.
  - apply nw_460_safe; auto with nw.
  - apply nw_490_safe; auto with nw.
Qed.
Lemma done_safe v : safe (nw_done n x w (o_xopt n npt w) v) (fun u => v_nf u = v_nf v /\ v_status u = v_status v).
Proof. apply nw_done_safe; auto with nw. Qed.
End Step.

(** ** Programs that call the objective function *)
Section Ok.
Context {N : Num}.
Notation mst := (mst N).
Notation prog := (prog N).
Variable E : mst -> Prop.

(** From the state [s], no access out of the arrays, [Q] at the end, [E] if the execution stops before *)
Definition ok {A} (p : prog A) (s : mst) (Q : A -> mst -> Prop) : Prop :=
  match p s with Ret a s' => Q a s' | Undef _ => False | Cast s' | More s' => E s' end.

Lemma ok_ret {A} (a : A) s (Q : A -> mst -> Prop) : Q a s -> ok (ret a) s Q.
Proof. auto. Qed.
Lemma ok_weak {A} (p : prog A) s (P Q : A -> mst -> Prop) : ok p s P -> (forall a s', P a s' -> Q a s') -> ok p s Q.
Proof. unfold ok. destruct (p s); auto. Qed.
Lemma ok_bind {A B} (p : prog A) (q : A -> prog B) s (P : A -> mst -> Prop) Q :
  ok p s P -> (forall a s', P a s' -> ok (q a) s' Q) -> ok (bind p q) s Q.
Proof. unfold ok, bind. intros Hp Hq. destruct (p s); auto. apply Hq, Hp. Qed.
Lemma ok_machine {L B} (J : L -> mst -> Prop) (Q : B -> mst -> Prop) (step : L -> prog (L + B)) fuel l s :
  (forall l s, J l s -> E s) ->
  (forall l s, J l s -> ok (step l) s (fun r s' => match r with inl l' => J l' s' | inr b => Q b s' end)) ->
  J l s -> ok (machine fuel step l) s Q.
Proof.
  intros HE Hs. revert l s. induction fuel as [|fuel IH]; intros l s Hl; cbn [machine].
  - apply (HE l s Hl).
  - eapply ok_bind; [apply Hs, Hl|]. intros [r|r] s' Hr; [apply IH, Hr|exact Hr].
Qed.
Lemma ok_safe {A} W Rd C (p : prog A) s P (Q : A -> mst -> Prop) :
  safe W Rd C p P -> good Rd C s -> (forall s', frame W s s' -> E s') ->
  (forall a s', P a -> good Rd C s' -> frame W s s' -> Q a s') -> ok p s Q.
Proof.
  intros Hp G HE HQ. unfold ok. specialize (Hp s G). destruct (p s) as [a s1|s1|s1|s1]; auto.
  destruct Hp as (H1 & H2 & H3). auto.
Qed.
Lemma ok_final {A} (p : prog A) s Q (F : mst -> Prop) :
  ok p s Q -> (forall a s', Q a s' -> F s') -> (forall s', E s' -> F s') -> exists s', final (p s) = Some s' /\ F s'.
Proof. unfold ok. intros H K1 K2. destruct (p s) as [a s1|s1|s1|s1]; [|contradiction| |]; exists s1; cbn; eauto. Qed.
End Ok.

Section Optimize.
Context {N : Num}.
Variables (ncos nsin : N -> N).
Notation mst := (mst N).
Variables (n npt : Z) (maximize : bool) (fn : list (list N * N) -> list N -> N) (x : Z) (scl : option Z) (rhobeg rhoend : N).
Variables (maxfun work : Z) (s0 : mst).
Hypothesis HL : nlayout n npt x scl work s0.
Notation O := (noutputs n npt x scl work).
Definition nRd (a : Z) : Prop := O a \/ exists b, scl = Some b /\ b <= a < b + n.
Notation nC := (fun _ : Z => @None N).

(** What is always true: nothing else than x and the workspace changes, the calls are added and are not too many *)
Definition nkeep (s : mst) : Prop :=
  (forall a, ~ O a -> mm s a = mm s0 a) /\ exists new, evs s = new ++ evs s0 /\ Z.of_nat (length new) <= Z.max 1 maxfun.
Definition ncalls (s : mst) : Z := Z.of_nat (length (evs s)) - Z.of_nat (length (evs s0)).
Definition njoin (l : nlabel * nvars (N := N)) (s : mst) : Prop :=
  good nRd nC s /\ nkeep s /\ ninv n npt maxfun (ncalls s) NW_ITERATE l.
Definition nstop (st : nstatus) : Prop := st = NW_SUCCESS \/ st = NW_TOO_MANY_EVALUATIONS \/ st = NW_STEP_FAILED.

Lemma nkeep_frame s s' : nkeep s -> frame O s s' -> nkeep s'.
Proof.
  intros [K1 K2] [F1 F2]. split.
  - intros a Ha. rewrite F1, K1; auto.
  - rewrite F2. exact K2.
Qed.
Lemma ncalls_frame s s' : frame O s s' -> ncalls s' = ncalls s.
Proof. intros [_ F2]. unfold ncalls. rewrite F2. reflexivity. Qed.
Lemma ncalls_nkeep s : nkeep s -> 0 <= ncalls s <= Z.max 1 maxfun.
Proof. intros [_ (new & E1 & E2)]. unfold ncalls. rewrite E1, app_length. lia. Qed.

Lemma O_Rd a : O a -> nRd a.
Proof. left. auto. Qed.
Lemma C_O : forall a (v : N), nC a = Some v -> ~ O a.
Proof. discriminate. Qed.
Lemma good0 : good nRd nC s0.
Proof.
  split; [|discriminate]. intros a [[Ha|Ha]|(b & Eb & Ha)].
  - destruct (nl_x _ _ _ _ _ _ HL (a - x)) as [v Ev]; [lia|]. exists v. rewrite <- Ev. f_equal. lia.
  - destruct (nl_w _ _ _ _ _ _ HL (a - work)) as [v Ev]; [lia|]. exists v. rewrite <- Ev. f_equal. lia.
  - pose proof (nl_scl _ _ _ _ _ _ HL) as K. rewrite Eb in K. destruct (K (a - b)) as [v Ev]; [lia|]. exists v.
    rewrite <- Ev. f_equal. lia.
Qed.
Lemma nkeep0 : nkeep s0.
Proof. split; [auto|]. exists nil. cbn. split; [reflexivity|lia]. Qed.

(** A call of the objective function *)
Lemma objfun_ok a s v (Q : N -> mst -> Prop) :
  ncalls s < Z.max 1 maxfun -> good nRd nC s -> nkeep s ->
  (forall i, 0 <= i < n -> nRd (a + i)) ->
  (forall f p s', s' = mkmst (mm s) ((p, f) :: evs s) -> nkeep s' -> Q f s') ->
  ok nkeep (objfun (mkctx fn None 0 v n) a) s Q.
Proof.
  intros Hc G K Ha HQ. unfold objfun, ok, bind. cbn [c_n c_objfun].
  destruct (readn_spec (Z.to_nat n) a s) as (p & E1 & _ & _).
  { intros i Hi. apply G, Ha. lia. }
  rewrite E1. eapply HQ; [reflexivity|]. destruct K as [K1 (new & E2 & E3)]. split; [exact K1|].
  eexists (_ :: new). cbn [evs mm]. rewrite E2. split; [reflexivity|]. unfold ncalls in Hc. rewrite E2, app_length in Hc.
  cbn [length]. lia.
Qed.

Section Valid.
Hypothesis (Hn : 2 <= n) (Hnpt : n + 2 <= npt <= (n + 1) * (n + 2) / 2).
Lemma npt2' : 2 * npt <= (n + 1) * (n + 2).
Proof. pose proof (Z.mul_div_le ((n + 1) * (n + 2)) 2). lia. Qed.
Lemma O_x a : x <= a < x + n -> O a.
Proof. left. auto. Qed.
Lemma O_w a : work <= a < work + nw_size n npt -> O a.
Proof. right. unfold ndoc_size, nw_size in *. destruct scl; lia. Qed.
Lemma nw_size_pos : 0 < nw_size n npt.
Proof.
  unfold nw_size. assert (0 <= 3 * n * (n + 3) / 2) by (apply Z.div_pos; nia). nia.
Qed.

Section Run.
(** [scl'] is [scl], or NULL if all the factors are one *)
Variable scl' : option Z.
Hypothesis Hscl' : scl' = None \/ scl' = scl.

Lemma call_ok s v : njoin (Neval, v) s ->
  ok nkeep (nw_call n npt maximize fn x work scl' v) s (fun r s' => match r with inl l => njoin l s' | inr b => False end).
Proof.
  intros (G & K & (H1 & H2 & H3)). unfold nw_call. cbv zeta. unfold nlab, ncnt, nst in H1, H2, H3. cbn [fst snd] in H1, H2, H3.
  set (xtmp := work + nw_size n npt).
  eapply ok_bind with (P := fun a s' => good nRd nC s' /\ nkeep s' /\ ncalls s' = ncalls s /\ (forall i, 0 <= i < n -> nRd (a + i))).
  - destruct Hscl' as [->|E']; [|destruct scl' as [b|]].
    + apply ok_ret. split; [auto|]. split; [auto|]. split; [auto|]. intros i Hi. left. left. lia.
    + assert (Hx : forall i, 0 <= i < n -> O (xtmp + i)).
      { intros i Hi. right. unfold ndoc_size, xtmp, nw_size. rewrite <- E'.
        assert (0 <= 3 * n * (n + 3) / 2) by (apply Z.div_pos; nia). nia. }
      assert (S1 : safe O nRd nC (scale xtmp n b x) (fun _ => True)).
      { unfold scale. apply safe_loop. intros i u Hi. apply (safe_assign O nRd nC O_Rd C_O); [apply Hx; lia|].
        apply safe_lift2; apply safe_ld; [right; exists b; split; [auto|lia]|left; left; lia]. }
      eapply ok_bind.
      * eapply ok_safe; [exact S1|exact G|intros s' F; apply (nkeep_frame s s' K F)|].
        intros u s' _ G' F. exact (conj G' F).
      * intros _ s' [G' F]. apply ok_ret. split; [exact G'|]. split; [apply (nkeep_frame s s' K F)|].
        split; [apply (ncalls_frame s s' F)|]. intros i Hi. apply O_Rd, Hx, Hi.
    + apply ok_ret. split; [auto|]. split; [auto|]. split; [auto|]. intros i Hi. left. left. lia.
  - intros a s' (G' & K' & C' & Ha). eapply ok_bind.
    + apply objfun_ok with (Q := fun f s2 => good nRd nC s2 /\ nkeep s2 /\ ncalls s2 = ncalls s + 1); auto.
      * rewrite C'. lia.
      * intros f p s2 -> K2. split; [exact G'|]. split; [exact K2|]. unfold ncalls in *. cbn [evs length]. lia.
    + intros f s2 (G2 & K2 & C2). apply ok_ret. split; [auto|]. split; [auto|].
      unfold ninv, nlab, ncnt, nst. nvs. unfold init_ok, main_ok, base_ok in *. nvs. rewrite C2. split; [tauto|]. split; [lia|auto].
Qed.

Definition nfull (st : nstatus) (s : mst) : Prop := st = NW_TOO_MANY_EVALUATIONS -> ncalls s = Z.max 1 maxfun.

Lemma end_ok s v : nkeep s -> good nRd nC s -> nst NW_ITERATE (Ndone, v) -> nfull (v_status v) s ->
  ok nkeep (nw_end n maximize x work scl' v) s (fun st s' => nkeep s' /\ good nRd nC s' /\ nstop st /\ nfull st s').
Proof.
  intros K G H HF. unfold nst in H. nvs. unfold nw_end.
  assert (Ow : O work) by (apply O_w; pose proof nw_size_pos; lia).
  assert (S1 : safe O nRd nC (
    (match scl' with
     | None => ret tt
     | Some b => loop 0 (n - 1) (fun i _ => assign (x + i)%Z (lift2 nmul (ld (x + i)%Z) (ld (b + i)%Z))) tt
     end) ;; assign work (ret (if maximize then nopp (v_f v) else v_f v)) ;; ret (v_status v))%bq (fun st => nstop st /\ st = v_status v)).
  { apply safe_bindT.
    - destruct Hscl' as [->|E']; [apply safe_ret; auto|]. destruct scl' as [b|]; [|apply safe_ret; auto].
      apply safe_loop. intros i u Hi. apply (safe_assign O nRd nC O_Rd C_O); [left; lia|].
      apply safe_lift2; apply safe_ld; [left; left; lia|right; exists b; split; [auto|lia]].
    - intros _. apply safe_bindT; [|intros _; apply safe_ret; split; [exact H|reflexivity]].
      apply (safe_assign O nRd nC O_Rd C_O); [exact Ow|apply safe_ret; auto]. }
  eapply ok_safe; [exact S1|exact G|intros s' F; apply (nkeep_frame s s' K F)|].
  intros st s' [H1 ->] G' F. split; [apply (nkeep_frame s s' K F)|]. split; [auto|]. split; [auto|].
  unfold nfull. rewrite (ncalls_frame s s' F). exact HF.
Qed.

(** The code of one label *)
Lemma nstep_ok fi l s' : njoin l s' ->
  ok nkeep (nw_step ncos nsin n npt x rhobeg rhoend maxfun work (o_xopt n npt work) (o_xnew n npt work) (o_xpt n npt work)
    (o_fval n npt work) (o_gq n npt work) (o_hq n npt work) (o_pq n npt work) (o_bmat n npt work) (o_zmat n npt work) (o_d n npt work)
    (o_vlag n npt work) (o_w n npt work) (nw_call n npt maximize fn x work scl') (nw_end n maximize x work scl') fi l) s'
    (fun r t => match r with inl l' => njoin l' t | inr st => nkeep t /\ good nRd nC t /\ nstop st /\ nfull st t end).
Proof.
  intros (G' & K' & H'). assert (Hn1 : 1 <= n) by lia. assert (P1 : n + 2 <= npt) by lia. assert (P2 := npt2').
  destruct (match fst l with Neval => true | _ => false end) eqn:E1; [|destruct (match fst l with Ndone => true | _ => false end) eqn:E2].
  * destruct l as [l u]. cbn [fst] in E1. destruct l; try discriminate. cbn [nw_step fst snd].
    eapply ok_weak; [apply call_ok; split; [exact G'|split; [exact K'|exact H']]|].
    intros [r|r] s2 HH; [exact HH|contradiction].
  * destruct l as [l u]. cbn [fst] in E2. destruct l; try discriminate. cbn [nw_step fst snd].
    eapply ok_bind.
    -- eapply ok_safe; [apply (done_safe O nRd nC O_Rd C_O); auto using O_x, O_w|exact G'|
         intros s2 F; apply (nkeep_frame s' s2 K' F)|].
       intros v2 s2 H3 G2 F. exact (conj H3 (conj G2 (conj (nkeep_frame s' s2 K' F) (ncalls_frame s' s2 F)))).
    -- intros v2 s2 ((H3 & H4) & G2 & K2 & C2). eapply ok_bind.
       ++ destruct H' as (H5 & H6 & H'). unfold nlab, ncnt, nst in *. nvs. apply end_ok; [exact K2|exact G2| |].
          ** unfold nst. nvs. rewrite H4. exact H'.
          ** intros ET. rewrite H4 in ET. specialize (H5 ET). pose proof (ncalls_nkeep s2 K2). lia.
       ++ intros st s3 H5. apply ok_ret. exact H5.
  * assert (HS := step_safe ncos nsin O nRd nC O_Rd C_O n npt x rhobeg rhoend maxfun work Hn1 P1 P2 O_x O_w (fun _ : nstatus => False)
      (nw_call n npt maximize fn x work scl') (nw_end n maximize x work scl') fi (ncalls s') NW_ITERATE l).
    eapply ok_safe; [apply HS; [intros EE; rewrite EE in E1; discriminate|intros EE; rewrite EE in E2; discriminate|exact H']|
      exact G'|intros s2 F; apply (nkeep_frame s' s2 K' F)|].
    intros [r|r] s2 HP G2 F; [|contradiction]. split; [exact G2|]. split; [apply (nkeep_frame s' s2 K' F)|].
    rewrite (ncalls_frame s' s2 F). exact HP.
Qed.

Lemma nw_optimize_ok s fi fuel : good nRd nC s -> nkeep s -> ncalls s = 0 ->
  ok nkeep (nw_optimize ncos nsin n npt maximize fn x rhobeg rhoend maxfun work scl' fi fuel) s
    (fun st s' => nkeep s' /\ good nRd nC s' /\ nstop st /\ nfull st s').
Proof.
  intros G K C0. unfold nw_optimize.
  assert (Hn1 : 1 <= n) by lia. assert (P1 : n + 2 <= npt) by lia. assert (P2 := npt2').
  eapply ok_bind.
  - eapply ok_safe; [apply (begin_safe O nRd nC O_Rd C_O); auto using O_x, O_w|exact G|
      intros s' F; apply (nkeep_frame s s' K F)|].
    intros v s' [H1 H2] G' F. exact (conj H1 (conj H2 (conj G' (conj (nkeep_frame s s' K F) (ncalls_frame s s' F))))).
  - intros v s1 (H1 & H2 & G1 & K1 & C1). unfold nw_run. apply ok_machine with (J := njoin).
    + intros l s' (_ & K' & _). exact K'.
    + intros l s' HJ. apply nstep_ok, HJ.
    + split; [exact G1|]. split; [exact K1|]. rewrite C1, C0. unfold ninv, nlab, ncnt, nst, kok. nvs. rewrite H1, H2. split; [lia|]. split; reflexivity.
Qed.
End Run.
End Valid.

Definition nrefused (st : nstatus) : Prop :=
  st = NW_BAD_NVARS \/ st = NW_BAD_NPT \/ st = NW_BAD_RHO_RANGE \/ st = NW_BAD_SCALING.

Lemma newuoa_optimize_ok fi fuel :
  ok nkeep (newuoa_optimize ncos nsin n npt maximize fn x scl rhobeg rhoend maxfun work fi fuel) s0
    (fun st s' => nkeep s' /\ ((nstop st /\ nfull st s') \/ (nrefused st /\ s' = s0))).
Proof.
  unfold newuoa_optimize, nrefused.
  destruct (Z.ltb_spec n 2) as [L|L]; [apply ok_ret; split; [apply nkeep0|auto]|].
  destruct ((npt <? n + 2) || ((n + 2) * (n + 1) / 2 <? npt))%bool eqn:E1; [apply ok_ret; split; [apply nkeep0|auto]|].
  destruct (nle rhoend zero || nlt rhobeg rhoend)%bool eqn:E2; [apply ok_ret; split; [apply nkeep0|auto 6]|].
  apply orb_false_iff in E1. destruct E1 as [E1 E3]. apply Z.ltb_ge in E1, E3.
  rewrite (Z.mul_comm (n + 2)) in E3.
  assert (C0 : ncalls s0 = 0) by (unfold ncalls; lia).
  assert (RUN : forall scl' s, scl' = None \/ scl' = scl -> good nRd nC s -> nkeep s -> ncalls s = 0 ->
    ok nkeep (nw_optimize ncos nsin n npt maximize fn x rhobeg rhoend maxfun work scl' fi fuel) s
      (fun st s' => nkeep s' /\ ((nstop st /\ nfull st s') \/ (nrefused st /\ s' = s0)))).
  { intros scl' s H1 G K C1. eapply ok_weak; [apply nw_optimize_ok; auto; lia|]. cbn. tauto. }
  unfold nrefused in RUN.
  assert (D : scl = None \/ exists b, scl = Some b) by (clear; destruct scl; eauto).
  destruct D as [Eb|[b Eb]]; rewrite Eb; [apply RUN; auto using good0, nkeep0|].
  assert (HS : forall i, 1 <= i <= n -> mm s0 (at1 b i) = Some (match mm s0 (at1 b i) with Some v => v | None => rhobeg end)).
  { intros i Hi. pose proof (nl_scl _ _ _ _ _ _ HL) as K. rewrite Eb in K. destruct (K (i - 1)) as [v Ev]; [lia|].
    replace (at1 b i) with (b + (i - 1)) by (unfold at1; lia). rewrite Ev. reflexivity. }
  destruct (check_scl_spec n (Some b) s0 (fun i => match mm s0 (at1 b i) with Some v => v | None => rhobeg end))
    with (a := b) as (r & Er & _); [intros a i [= <-] Hi; apply HS, Hi|lia|reflexivity|].
  eapply ok_bind with (P := fun u s => u = r /\ s = s0); [unfold ok; rewrite Er; auto|].
  intros u s [-> ->]. destruct r as [[|]|].
  - eapply ok_bind.
    + eapply ok_safe with (P := fun _ => True); [|apply good0|intros s' F; apply (nkeep_frame s0 s' nkeep0 F)|].
      * apply safe_loop. intros i u Hi. apply (safe_assign O nRd nC O_Rd C_O); [left; lia|].
        apply safe_lift2; apply safe_ld; [left; left; lia|right; exists b; split; [auto|lia]].
      * intros u s' _ G' F. exact (conj G' F).
    + intros _ s' [G' F]. apply RUN; auto; [apply (nkeep_frame s0 s' nkeep0 F)|rewrite (ncalls_frame s0 s' F); exact C0].
  - apply RUN; auto using good0, nkeep0.
  - apply ok_ret. split; [apply nkeep0|]. right. split; auto.
Qed.
End Optimize.

(** ** The reverse communication version *)
Section Context.
Context {N : Num}.
Variables (ncos nsin : N -> N).
Notation mst := (mst N).

(** The contexts that a client may have *)
Definition cvalid (c : ncontext (N := N)) : Prop :=
  1 <= k_n c /\ k_n c + 2 <= k_npt c /\ 2 * k_npt c <= (k_n c + 1) * (k_n c + 2) /\ 1 <= k_maxfun c /\ 0 <= k_nevals c <= k_maxfun c /\
  (k_status c = NW_TOO_MANY_EVALUATIONS -> k_nevals c = k_maxfun c) /\
  (k_status c = NW_ITERATE -> k_nevals c = 0 \/
     (1 <= k_nevals c /\ ninv (k_n c) (k_npt c) (k_maxfun c) (k_nevals c) NW_ITERATE (Neval, k_v c))) /\
  k_status c <> NW_INITIAL_ITERATE.

Lemma ninv_f n npt maxfun c st l f v : ninv (N := N) n npt maxfun c st (l, v) -> ninv n npt maxfun c st (l, s_f f v).
Proof. destruct l; exact (fun H => H). Qed.

Section Iterate.
Variables (W Rd : Z -> Prop) (C : Z -> option N).
Hypothesis WRd : forall a, W a -> Rd a.
Hypothesis CW : forall a v, C a = Some v -> ~ W a.
Variables (c : ncontext (N := N)) (x : Z).
Hypothesis HWx : forall a, x <= a < x + k_n c -> W a.
Hypothesis HWw : forall a, k_w c <= a < k_w c + nw_size (k_n c) (k_npt c) -> W a.
Hypothesis HV : cvalid c.
Notation n := (k_n c).
Notation npt := (k_npt c).
Notation maxfun := (k_maxfun c).

Definition rpost (m : Z) (v : nvars (N := N)) : Prop :=
  (v_status v = NW_ITERATE /\ ninv n npt maxfun m NW_ITERATE (Neval, v)) \/
  (nstop (v_status v) /\ (v_status v = NW_TOO_MANY_EVALUATIONS -> Z.max maxfun 1 <= m)).
Definition rinv (m : Z) (l : nlabel * nvars (N := N)) : Prop :=
  ninv n npt maxfun m NW_ITERATE l \/ (m = 1 /\ ninv n npt maxfun 0 NW_INITIAL_ITERATE l).

Lemma run_safe m fi fuel l : rinv m l ->
  safe W Rd C (nw_run ncos nsin n npt x (k_rhobeg c) (k_rhoend c) maxfun (k_w c) nw_request (fun v => ret v) fi fuel l) (rpost m).
Proof.
  destruct HV as (Hn & Hp & Hp2 & Hm & _).
  intros Hl. unfold nw_run. apply safe_machine with (P := rinv m); [|exact Hl]. clear l Hl. intros l HJ.
  destruct (match fst l with Neval => true | _ => false end) eqn:E1; [|destruct (match fst l with Ndone => true | _ => false end) eqn:E2].
  - destruct l as [l u]. cbn [fst] in E1. destruct l; try discriminate. cbn [nw_step fst snd]. unfold nw_request.
    destruct HJ as [H|[-> H]]; (assert (S := proj2 (proj2 H)); unfold nst in S; cbn [fst snd] in S; rewrite S; apply safe_ret).
    + left. split; [reflexivity|]. replace (s_status NW_ITERATE u) with u by (destruct u; cbn in S; subst; reflexivity). exact H.
    + left. destruct H as (H1 & H2 & _). unfold ninv, nlab, ncnt, nst, init_ok, main_ok, base_ok in *. nvs.
      split; [tauto|]. split; [lia|reflexivity].
  - destruct l as [l u]. cbn [fst] in E2. destruct l; try discriminate. cbn [nw_step fst snd].
    eapply safe_bind; [apply (done_safe W Rd C WRd CW); auto|]. intros v [_ Ev].
    apply safe_bind with (P := fun r => r = v); [apply safe_ret; reflexivity|]. intros r ->. apply safe_ret. right.
    rewrite Ev. destruct HJ as [H|[-> H]]; destruct H as (H1 & H2 & H3); unfold nlab, ncnt, nst in *; nvs;
      (split; [exact H3|intros ET; specialize (H1 ET); lia]).
  - assert (N1 : fst l <> Neval) by (intros EE; rewrite EE in E1; discriminate).
    assert (N2 : fst l <> Ndone) by (intros EE; rewrite EE in E2; discriminate).
    assert (HS := fun k st => step_safe ncos nsin W Rd C WRd CW n npt x (k_rhobeg c) (k_rhoend c) maxfun (k_w c) Hn Hp Hp2 HWx HWw
      (fun _ : nvars (N := N) => False) nw_request (fun v => ret v) fi k st l N1 N2).
    destruct HJ as [H|[Em H]].
    + eapply safe_weak; [apply (HS _ _ H)|]. intros [r|r] HP; [left; exact HP|contradiction].
    + eapply safe_weak; [apply (HS _ _ H)|]. intros [r|r] HP; [right; split; [exact Em|exact HP]|contradiction].
Qed.

Lemma cvalid_set v m : 1 <= m <= maxfun -> rpost m v -> cvalid (k_set c v m).
Proof.
  destruct HV as (Hn & Hp & Hp2 & Hm & _). intros H1 H2. unfold cvalid, k_status, k_set. cbn [k_n k_npt k_maxfun k_nevals k_v].
  repeat (split; [assumption|]). split; [lia|]. unfold rpost, nstop in H2.
  destruct H2 as [[E H2]|[[E|[E|E]] H2]]; rewrite E in *; (split; [intros EE; try discriminate EE|split; [intros EE; try discriminate EE|discriminate]]).
  - right. split; [lia|exact H2].
  - specialize (H2 eq_refl). lia.
Qed.
Lemma cvalid_err v st m : st <> NW_ITERATE -> st <> NW_INITIAL_ITERATE -> st <> NW_TOO_MANY_EVALUATIONS -> 0 <= m <= maxfun -> cvalid (k_set c (s_status st v) m).
Proof.
  destruct HV as (Hn & Hp & Hp2 & Hm & _). intros H1 H2 H4 H3. unfold cvalid, k_status, k_set. cbn [k_n k_npt k_maxfun k_nevals k_v].
  repeat (split; [assumption|]). nvs. split; [intros E; contradiction|]. split; [intros E; contradiction|exact H2].
Qed.

Lemma iterate_safe f fi fuel : safe W Rd C (newuoa_iterate ncos nsin c f (Some x) fi fuel)
  (fun c' => cvalid c' /\ (k_n c' = k_n c /\ k_npt c' = k_npt c /\ k_w c' = k_w c)).
Proof.
  destruct HV as (Hn & Hp & Hp2 & Hm & He & _ & Hs & Hi).
  unfold newuoa_iterate. destruct (k_status c) eqn:ES; try (apply safe_ret; split; [apply cvalid_err; auto; try discriminate|auto]).
  specialize (Hs eq_refl). cbv zeta.
  destruct (Z.ltb_spec 1 (k_nevals c + 1)) as [L|L].
  - destruct Hs as [Hs|[_ Hs]]; [lia|].
    eapply safe_bind; [apply (run_safe (k_nevals c + 1))|].
    + left. apply ninv_f. destruct Hs as (H1 & H2 & H3). unfold ninv, nlab, ncnt, nst in *. nvs. split; [tauto|]. split; [lia|auto].
    + intros v Hv. cbv beta in Hv. apply safe_ret. split; [apply cvalid_set; [|exact Hv]; destruct Hs as (H1 & H2 & _); unfold nlab, ncnt in *; nvs; lia|auto].
  - assert (E0 : k_nevals c = 0) by lia. rewrite E0. cbn [Z.add Z.eqb Pos.eqb negb].
    eapply safe_bind; [apply (begin_safe W Rd C WRd CW); auto|]. intros v [V1 V2].
    eapply safe_bind; [apply (run_safe 1)|].
    + right. split; [reflexivity|]. unfold ninv, nlab, ncnt, nst, kok. nvs. rewrite V1, V2. split; [lia|split; reflexivity].
    + intros u Hu. cbv beta in Hu. apply safe_ret. split; [apply cvalid_set; [lia|exact Hu]|auto].
Qed.
End Iterate.

Lemma iterate_args (c c' : ncontext (N := N)) f x fi fuel s s' : newuoa_iterate ncos nsin c f x fi fuel s = Ret c' s' ->
  k_n c' = k_n c /\ k_npt c' = k_npt c /\ k_w c' = k_w c.
Proof.
  intros E. unfold newuoa_iterate in E. destruct x as [x|]; [|injection E as <- <-; auto].
  destruct (k_status c); try (injection E as <- <-; auto; fail). cbv zeta in E.
  destruct (1 <? k_nevals c + 1).
  - unfold bind in E. destruct (nw_run _ _ _ _ _ _ _ _ _ _ _ _ _ _ s) as [v s1|s1|s1|s1]; try discriminate E.
    injection E as <- <-. auto.
  - destruct (negb _); [injection E as <- <-; auto|].
    unfold bind in E. destruct (nw_begin _ _ _ _ _ _ s) as [v s1|s1|s1|s1]; try discriminate E.
    destruct (nw_run _ _ _ _ _ _ _ _ _ _ _ _ _ _ s1) as [v2 s2|s2|s2|s2]; try discriminate E.
    injection E as <- <-. auto.
Qed.

Lemma create_args n npt (rhobeg rhoend : N) maxfun a c s s' : newuoa_create n npt rhobeg rhoend maxfun (Some a) s = Ret (Some c) s' ->
  k_n c = n /\ k_npt c = npt /\ k_w c = a.
Proof.
  unfold newuoa_create. destruct (n <? 0); [discriminate|]. destruct (_ || _)%bool; [discriminate|].
  destruct (_ || _)%bool; [discriminate|]. destruct (maxfun <? 1); [discriminate|].
  unfold bind. destruct (loop _ _ _ _ s); try discriminate. intros [= <- _]. auto.
Qed.

Lemma zero_loop (a k : Z) (s : mst) : cells s a k ->
  exists s', loop 0 (k - 1) (fun i (_ : unit) => assign (a + i) (ret (nZ 0 : N))) tt s = Ret tt s' /\ evs s' = evs s /\
    forall b, mm s' b = if ((a <=? b) && (b <? a + k))%bool then Some (nZ 0) else mm s b.
Proof.
  intros H. unfold loop. replace (k - 1 - 0 + 1) with k by lia.
  assert (K : forall m i t, 0 <= i -> i + Z.of_nat m = Z.max 0 k -> evs t = evs s ->
    (forall b, mm t b = if ((a <=? b) && (b <? a + i))%bool then Some (nZ 0) else mm s b) ->
    exists s', loopn m i (fun i (_ : unit) => assign (a + i) (ret (nZ 0 : N))) tt t = Ret tt s' /\ evs s' = evs s /\
    forall b, mm s' b = if ((a <=? b) && (b <? a + k))%bool then Some (nZ 0) else mm s b).
  { induction m as [|m IH]; intros i t Hi Em Ev Et; cbn [loopn].
    - exists t. split; [reflexivity|]. split; [exact Ev|]. intros b. rewrite Et.
      destruct (Z.leb_spec a b), (Z.ltb_spec b (a + i)), (Z.ltb_spec b (a + k)); cbn [andb]; auto; lia.
    - unfold bind, assign, bind, ret, sto. destruct (H i) as [v Eh]; [lia|]. rewrite Et.
      destruct (Z.leb_spec a (a + i)); [|lia]. destruct (Z.ltb_spec (a + i) (a + i)); [lia|]. cbn [andb]. rewrite Eh.
      apply IH; cbn [evs mm]; auto; [lia|lia|]. intros b. destruct (Z.eqb_spec b (a + i)) as [->|Nb].
      + destruct (Z.leb_spec a (a + i)); [|lia]. destruct (Z.ltb_spec (a + i) (a + (i + 1))); [reflexivity|lia].
      + rewrite Et. destruct (Z.leb_spec a b), (Z.ltb_spec b (a + i)), (Z.ltb_spec b (a + (i + 1))); cbn [andb]; auto; lia. }
  apply (K (Z.to_nat k) 0 s); auto; [lia|lia|]. intros b.
  destruct (Z.leb_spec a b), (Z.ltb_spec b (a + 0)); cbn [andb]; auto; lia.
Qed.

Lemma create_safe (W Rd : Z -> Prop) (C : Z -> option N) (n npt : Z) (rhobeg rhoend : N) (maxfun a : Z) :
  (forall b, W b -> Rd b) -> (forall b v, C b = Some v -> ~ W b) ->
  (forall b, a <= b < a + nw_size n npt -> W b) ->
  safe W Rd C (newuoa_create n npt rhobeg rhoend maxfun (Some a) : prog N _)
    (fun r => match r with None => True | Some c => cvalid c /\ k_n c = n /\ k_npt c = npt /\ k_w c = a end).
Proof.
  intros WRd CW HW. unfold newuoa_create.
  destruct (Z.ltb_spec n 0) as [L|L]; [apply safe_ret; exact I|].
  destruct ((npt <? n + 2) || ((n + 2) * (n + 1) / 2 <? npt))%bool eqn:E1; [apply safe_ret; exact I|].
  destruct (nle rhoend zero || nlt rhobeg rhoend)%bool eqn:E2; [apply safe_ret; exact I|].
  destruct (Z.ltb_spec maxfun 1) as [L1|L1]; [apply safe_ret; exact I|].
  apply safe_bindT.
  - apply safe_loop. intros i u Hi. apply (safe_assign W Rd C WRd CW); [apply HW; lia|apply safe_ret; auto].
  - intros _. apply safe_ret. split; [|auto].
    apply orb_false_iff in E1. destruct E1 as [E1 E3]. apply Z.ltb_ge in E1, E3.
    pose proof (Z.mul_div_le ((n + 2) * (n + 1)) 2).
    assert (1 <= n) by nia.
    unfold cvalid, k_status. cbn [k_n k_npt k_maxfun k_nevals k_v]. do 5 (split; [lia|]). split; [discriminate|]. split; [auto|discriminate].
Qed.

Lemma ndoc_nw n npt : ndoc_size n npt None = nw_size n npt.
Proof. unfold ndoc_size, nw_size. lia. Qed.

Lemma good_cells (P : Z -> Prop) (s : mst) : (forall a, P a -> exists v, mm s a = Some v) -> good P (fun _ => None) s.
Proof. intros H. split; [exact H|discriminate]. Qed.

Lemma cells_in (s : mst) a k b : cells s a k -> a <= b < a + k -> exists v, mm s b = Some v.
Proof. intros H Hb. destruct (H (b - a)) as [v Ev]; [lia|]. exists v. rewrite <- Ev. f_equal. lia. Qed.

Lemma reach_valid c s : reach ncos nsin c s -> cvalid c /\ cells s (k_w c) (ndoc_size (k_n c) (k_npt c) None).
Proof.
  intros H. induction H as [n npt rb re maxfun a s c s' Hc E|c f x fi fuel s c' s' H [IV IC] Hx Ha E|c f fi fuel s c' s' H [IV IC] E|
    c s H [IV IC]|c s s' H [IV IC] HC].
  - set (W := fun b => a <= b < a + nw_size n npt). rewrite ndoc_nw in Hc.
    assert (S := create_safe W W (fun _ => None) n npt rb re maxfun a (fun b Hb => Hb) ltac:(discriminate) (fun b Hb => Hb) s).
    rewrite E in S. destruct S as ((H1 & H2 & H3 & H4) & G & F).
    { apply good_cells. intros b Hb. apply (cells_in s a (nw_size n npt)); auto. }
    split; [exact H1|]. rewrite H2, H3, H4, ndoc_nw. intros i Hi. apply G. unfold W. lia.
  - rewrite ndoc_nw in *.
    set (W := fun b => x <= b < x + k_n c \/ k_w c <= b < k_w c + nw_size (k_n c) (k_npt c)).
    assert (S := iterate_safe W W (fun _ => None) (fun b Hb => Hb) ltac:(discriminate) c x (fun b Hb => or_introl Hb)
      (fun b Hb => or_intror Hb) IV f fi fuel s).
    rewrite E in S. destruct S as ((H1 & H2 & H3 & H4) & G & F).
    { apply good_cells. intros b [Hb|Hb]; [apply (cells_in s x (k_n c)); auto|eapply cells_in; eauto]. }
    split; [exact H1|]. rewrite H2, H3, H4. intros i Hi. apply G. right. lia.
  - injection E as <- <-. split; [|exact IC]. apply (cvalid_err c); auto; try discriminate.
    destruct IV as (_ & _ & _ & _ & He & _). exact He.
  - split; [|exact IC]. destruct IV as (Hn & Hp & Hp2 & Hm & _). unfold cvalid, newuoa_restart, k_status.
    cbn [k_set k_n k_npt k_maxfun k_nevals k_v]. repeat (split; [assumption|]). split; [lia|]. nvs. split; [discriminate|]. split; [auto|discriminate].
  - split; [exact IV|exact HC].
Qed.

Lemma iterate_cells c c' f x fi fuel s s' :
  reach ncos nsin c s -> cells s x (k_n c) -> apart x (k_n c) (k_w c) (ndoc_size (k_n c) (k_npt c) None) ->
  newuoa_iterate ncos nsin c f (Some x) fi fuel s = Ret c' s' -> cells s' x (k_n c).
Proof.
  intros HR Hx Ha E. destruct (reach_valid c s HR) as [HV HC]. rewrite ndoc_nw in *.
  set (W := fun b => x <= b < x + k_n c \/ k_w c <= b < k_w c + nw_size (k_n c) (k_npt c)).
  assert (S := iterate_safe W W (fun _ => None) (fun b Hb => Hb) ltac:(discriminate) c x (fun b Hb => or_introl Hb)
    (fun b Hb => or_intror Hb) HV f fi fuel s).
  rewrite E in S. destruct S as (_ & G & F).
  { apply good_cells. intros b [Hb|Hb]; [apply (cells_in s x (k_n c)); auto|eapply cells_in; eauto]. }
  intros i Hi. apply G. left. lia.
Qed.
End Context.
