(** * The functions of cobyla.c that are called by the users *)
From Coq Require Import ZArith List Bool Lia.
From Verif Require Import Num BqLang BqModel BqWp BqSafe BqEval BqRun BqSpec BqTop NwTop CbModel CbSpec CbSafe CbMain.
Import ListNotations.
Local Open Scope Z_scope.

(** The last array of the workspace is the one of trstlp *)
Lemma cpartition_end n m w : o_w n m w + (n * n + n + (m + 1) + n + n + (m + 1)) = w + cb_size n m.
Proof. unfold cb_size, o_w, o_dx, o_sigbar, o_veta, o_vsig, o_a, o_datmat, o_simi, o_sim. ring. Qed.
Lemma cdoc_cb n m : cdoc_size n m = cb_size n m.
Proof. reflexivity. Qed.

(** The check of the scaling factors only reads *)
Lemma check_scl_reads {N : Num} n a (s : mst N) : (forall i, 0 <= i < n -> exists v, mm s (a + i) = Some v) ->
  exists r, opt_check_scl n a s = Ret r s.
Proof.
  intros H. unfold opt_check_scl, loopx. set (body := fun (j : Z) (scaling : bool) => _).
  assert (K : forall k j b, 0 <= j -> j + Z.of_nat k <= Z.max 0 n -> exists r, loopxn k j body b s = Ret r s).
  { induction k as [|k IH]; intros j b H1 H2; cbn [loopxn]; [eexists; reflexivity|].
    destruct (H j) as [v Ev]; [lia|]. unfold bind, body. unfold bind, ld. rewrite Ev. fold body.
    destruct (neq v one); [apply IH; lia|]. destruct (_ || _)%bool; [eexists; reflexivity|apply IH; lia]. }
  destruct (K (Z.to_nat (n - 1 - 0 + 1)) 0 false) as [r Er]; [lia|lia|]. unfold bind. rewrite Er. destruct r; eexists; reflexivity.
Qed.

Section Step.
Context {N : Num}.
Hypothesis HLaws : CbLaws N.
Variables (W Rd : Z -> Prop) (C : Z -> option N).
Hypothesis WRd : forall a, W a -> Rd a.
Hypothesis CW : forall a v, C a = Some v -> ~ W a.
Notation safe := (safe W Rd C).
Variables (n m x : Z) (rhobeg rhoend : N) (maxfun w : Z) (cc : option Z).
Hypothesis (Hn : 1 <= n) (Hm : 0 <= m).
Hypothesis HWx : forall a, x <= a < x + n -> W a.
Hypothesis HWw : forall a, w <= a < w + cb_size n m -> W a.
Hypothesis (Acc : match cc with None => True | Some c => forall k, 0 <= k < m -> Rd (c + k) end).

Lemma carea : o_sim n m w = w + (m + 2) /\ o_simi n m w = o_sim n m w + n * (n + 1) /\ o_datmat n m w = o_simi n m w + n * n /\
  o_a n m w = o_datmat n m w + (m + 2) * (n + 1) /\ o_vsig n m w = o_a n m w + (m + 1) * n /\ o_veta n m w = o_vsig n m w + n /\
  o_sigbar n m w = o_veta n m w + n /\ o_dx n m w = o_sigbar n m w + n /\ o_w n m w = o_dx n m w + n /\
  o_w n m w + (n * n + n + (m + 1) + n + n + (m + 1)) = w + cb_size n m /\
  0 <= n * (n + 1) /\ 0 <= n * n /\ 0 <= (m + 2) * (n + 1) /\ 0 <= (m + 1) * n.
Proof. repeat (split; [reflexivity|]). split; [apply cpartition_end|]. nia. Qed.
Ltac area0 := destruct carea as (G1 & G2 & G3 & G4 & G5 & G6 & G7 & G8 & G9 & G10 & F1 & F2 & F3 & F4).
Ltac area := area0; intros i Hi; apply HWw; unfold at1; lia.
Ltac aream := area0; intros i j Hi Hj; apply HWw; unfold at2.

Lemma c_Ax : arr W x 1 n. Proof. intros i Hi. apply HWx. unfold at1. lia. Qed.
Lemma c_Acon : arr W w 1 (m + 2). Proof. area. Qed.
Lemma c_Asim : mat W (o_sim n m w) n 1 n 1 (n + 1).
Proof. aream. assert (0 <= (j - 1) * n) by nia. assert ((j - 1) * n <= n * n) by nia. lia. Qed.
Lemma c_Asimi : mat W (o_simi n m w) n 1 n 1 n.
Proof. aream. assert (0 <= (j - 1) * n) by nia. assert ((j - 1) * n <= (n - 1) * n) by nia. lia. Qed.
Lemma c_Adat : mat W (o_datmat n m w) (m + 2) 1 (m + 2) 1 (n + 1).
Proof. aream. assert (0 <= (j - 1) * (m + 2)) by nia. assert ((j - 1) * (m + 2) <= n * (m + 2)) by nia. lia. Qed.
Lemma c_Aa : mat W (o_a n m w) n 1 n 1 (m + 1).
Proof. aream. assert (0 <= (j - 1) * n) by nia. assert ((j - 1) * n <= m * n) by nia. lia. Qed.
Lemma c_Avsig : arr W (o_vsig n m w) 1 n. Proof. area. Qed.
Lemma c_Aveta : arr W (o_veta n m w) 1 n. Proof. area. Qed.
Lemma c_Asig : arr W (o_sigbar n m w) 1 n. Proof. area. Qed.
Lemma c_Adx : arr W (o_dx n m w) 1 n. Proof. area. Qed.
Lemma c_Aw : arr W (o_w n m w) 1 n. Proof. area. Qed.
Lemma c_Az : mat W (o_w n m w) n 1 n 0 n.
Proof. aream. assert (- n <= (j - 1) * n) by nia. assert ((j - 1) * n <= (n - 1) * n) by nia. lia. Qed.
Lemma c_Azd : arr W (o_w n m w + n * n) 0 n. Proof. area. Qed.
Lemma c_Avc : arr W (o_w n m w + n * n + n) 0 (m + 1). Proof. area. Qed.
Lemma c_Asd : arr W (o_w n m w + n * n + n + (m + 1)) 1 n. Proof. area. Qed.
Lemma c_Adn : arr W (o_w n m w + n * n + n + (m + 1) + n) 1 n. Proof. area. Qed.
Lemma c_Avd : arr W (o_w n m w + n * n + n + (m + 1) + n + n) 0 (m + 1). Proof. area. Qed.

Lemma cbegin_safe v : safe (cb_begin n m x rhobeg w v)
  (fun u => u = p_iflag 0 (p_rho rhobeg (p_parmu zero (p_jdrop (n + 1) (p_ibrnch 0 v))))).
Proof. unfold cb_begin. apply co_start_safe; auto using c_Ax, c_Asim, c_Asimi. Qed.

Notation step := (co_step n m x rhoend maxfun w (o_sim n m w) (o_simi n m w) (o_datmat n m w) (o_a n m w) (o_vsig n m w)
    (o_veta n m w) (o_sigbar n m w) (o_dx n m w) (o_w n m w) cc).

(** The labels where the functions are not evaluated *)
Lemma cstep_safe {B} (Q : B -> Prop) ev fin fuel c st l :
  fst l <> Ceval -> fst l <> Cend -> cinv n rhoend maxfun c st l -> safe (step ev fin fuel l) (cpost n rhoend maxfun Q c st).
Proof.
  intros N1 N2 H. apply co_step_safe; auto using c_Ax, c_Acon, c_Asim, c_Asimi, c_Adat, c_Aa, c_Avsig, c_Aveta, c_Asig, c_Adx,
    c_Aw, c_Az, c_Azd, c_Avc, c_Asd, c_Adn, c_Avd. unfold o_veta. lia.
Qed.
End Step.

Section Optimize.
Context {N : Num}.
Hypothesis HLaws : CbLaws N.
Notation mst := (mst N).
Variables (n m : Z) (maximize : bool) (fn : list (list N * N) -> list N -> N) (cn : list (list N * N) -> list N -> Z -> N).
Variables (x : Z) (scl : option Z) (rhobeg rhoend : N) (maxfun work : Z) (s0 : mst).
Hypothesis HL : clayout n m x scl work s0.
Notation O := (coutputs n m x work).
Definition oRd (a : Z) : Prop := O a \/ exists b, scl = Some b /\ b <= a < b + n.
Notation oC := (fun _ : Z => @None N).

(** What is always true: nothing else than x and the workspace changes, the calls are added and are not too many *)
Definition ckeep (s : mst) : Prop :=
  (forall a, ~ O a -> mm s a = mm s0 a) /\ exists new, evs s = new ++ evs s0 /\ Z.of_nat (length new) <= Z.max maxfun 1.
Definition ccalls (s : mst) : Z := Z.of_nat (length (evs s)) - Z.of_nat (length (evs s0)).
Definition cjoin (l : clabel * cvars (N := N)) (s : mst) : Prop :=
  good oRd oC s /\ ckeep s /\ cinv n rhoend maxfun (ccalls s) CB_ITERATE l.

Lemma ckeep_frame s s' : ckeep s -> frame O s s' -> ckeep s'.
Proof.
  intros [K1 K2] [F1 F2]. split.
  - intros a Ha. rewrite F1, K1; auto.
  - rewrite F2. exact K2.
Qed.
Lemma ccalls_frame s s' : frame O s s' -> ccalls s' = ccalls s.
Proof. intros [_ F2]. unfold ccalls. rewrite F2. reflexivity. Qed.
Lemma ccalls_ckeep s : ckeep s -> 0 <= ccalls s <= Z.max maxfun 1.
Proof. intros [_ (new & E1 & E2)]. unfold ccalls. rewrite E1, app_length. lia. Qed.

Lemma cO_Rd a : O a -> oRd a.
Proof. left. auto. Qed.
Lemma cC_O : forall a (v : N), oC a = Some v -> ~ O a.
Proof. discriminate. Qed.
Lemma cgood0 : good oRd oC s0.
Proof.
  split; [|discriminate]. intros a [[Ha|Ha]|(b & Eb & Ha)].
  - destruct (cl_x _ _ _ _ _ _ HL (a - x)) as [v Ev]; [lia|]. exists v. rewrite <- Ev. f_equal. lia.
  - destruct (cl_w _ _ _ _ _ _ HL (a - work)) as [v Ev]; [lia|]. exists v. rewrite <- Ev. f_equal. lia.
  - pose proof (cl_scl _ _ _ _ _ _ HL) as K. rewrite Eb in K. destruct (K (a - b)) as [v Ev]; [lia|]. exists v.
    rewrite <- Ev. f_equal. lia.
Qed.
Lemma ckeep0 : ckeep s0.
Proof. split; [auto|]. exists nil. cbn. split; [reflexivity|lia]. Qed.

Section Valid.
Hypothesis (Hn : 1 <= n) (Hm : 0 <= m).
Lemma cO_x a : x <= a < x + n -> O a.
Proof. left. auto. Qed.
Lemma cO_w a : work <= a < work + cb_size n m -> O a.
Proof. right. exact H. Qed.
Lemma cb_size_big : m + 2 + n <= cb_size n m.
Proof. unfold cb_size. nia. Qed.
Lemma cO_scratch i : 0 <= i < n -> O (o_w n m work + i).
Proof. intros Hi. apply cO_w. destruct (carea n m work Hn Hm) as (G1 & G2 & G3 & G4 & G5 & G6 & G7 & G8 & G9 & G10 & F1 & F2 & F3 & F4). lia. Qed.

(** A call of the functions *)
Lemma calcfc_ok a s (Q : N -> mst -> Prop) :
  ccalls s < Z.max maxfun 1 -> good oRd oC s -> ckeep s ->
  (forall i, 0 <= i < n -> oRd (a + i)) ->
  (forall f s', good oRd oC s' -> ckeep s' -> ccalls s' = ccalls s + 1 -> Q f s') ->
  ok ckeep (calcfc n m fn cn work a) s Q.
Proof.
  intros Hc G K Ha HQ. unfold calcfc.
  eapply ok_bind with (P := fun _ s' => s' = s).
  { destruct (readn_spec (Z.to_nat n) a s) as (p & E1 & _ & _).
    - intros i Hi. apply G, Ha. lia.
    - unfold ok. rewrite E1. reflexivity. }
  intros p s' ->. eapply ok_bind with (P := fun h s' => s' = s); [reflexivity|]. intros h s' ->.
  eapply ok_bind.
  { eapply ok_safe with (W := O) (P := fun _ => True); [|exact G|intros s' F; apply (ckeep_frame s s' K F)|].
    - apply safe_loop. intros k u Hk. apply (safe_assign O oRd oC cO_Rd cC_O); [|apply safe_ret; exact I].
      apply cO_w. pose proof cb_size_big. lia.
    - intros u s' _ G' F. exact (conj G' F). }
  intros _ s1 [G1 F1]. unfold ok. apply HQ; [exact G1| |].
  - destruct (ckeep_frame s s1 K F1) as [K1 (new & E2 & E3)]. split; [exact K1|].
    eexists (_ :: new). cbn [evs mm]. rewrite E2. split; [reflexivity|]. rewrite <- (ccalls_frame s s1 F1) in Hc.
    unfold ccalls in Hc. rewrite E2, app_length in Hc. cbn [length]. lia.
  - rewrite <- (ccalls_frame s s1 F1). unfold ccalls. cbn [evs length]. lia.
Qed.

Section Run.
(** [scl'] is [scl], or NULL if all the factors are one *)
Variable scl' : option Z.
Hypothesis Hscl' : scl' = None \/ scl' = scl.

Lemma ccall_ok s v : cjoin (Ceval, v) s ->
  ok ckeep (cb_call n m maximize fn cn x work scl' v) s (fun r s' => match r with inl l => cjoin l s' | inr b => False end).
Proof.
  intros (G & K & ((H1 & H1') & H2 & H3)). unfold cb_call. cbv zeta. unfold cvok, limit, ccnt, cst in *. cvs.
  eapply ok_bind with (P := fun a s' => good oRd oC s' /\ ckeep s' /\ ccalls s' = ccalls s /\ (forall i, 0 <= i < n -> oRd (a + i))).
  - destruct Hscl' as [->|E']; [|destruct scl' as [b|]].
    + apply ok_ret. split; [auto|]. split; [auto|]. split; [auto|]. intros i Hi. left. left. lia.
    + assert (S1 : safe O oRd oC (scale (o_w n m work) n b x) (fun _ => True)).
      { unfold scale. apply safe_loop. intros i u Hi. apply (safe_assign O oRd oC cO_Rd cC_O); [apply cO_scratch; lia|].
        apply safe_lift2; apply safe_ld; [right; exists b; split; [auto|lia]|left; left; lia]. }
      eapply ok_bind.
      * eapply ok_safe; [exact S1|exact G|intros s' F; apply (ckeep_frame s s' K F)|].
        intros u s' _ G' F. exact (conj G' F).
      * intros _ s' [G' F]. apply ok_ret. split; [exact G'|]. split; [apply (ckeep_frame s s' K F)|].
        split; [apply (ccalls_frame s s' F)|]. intros i Hi. apply cO_Rd, cO_scratch, Hi.
    + apply ok_ret. split; [auto|]. split; [auto|]. split; [auto|]. intros i Hi. left. left. lia.
  - intros a s' (G' & K' & C' & Ha). eapply ok_bind.
    + apply calcfc_ok with (Q := fun f s2 => good oRd oC s2 /\ ckeep s2 /\ ccalls s2 = ccalls s + 1); auto; [lia|].
      intros f s2 G2 K2 C2. split; [exact G2|]. split; [exact K2|]. lia.
    + intros f s2 (G2 & K2 & C2). apply ok_ret. split; [auto|]. split; [auto|].
      unfold cinv, clab, cvok, ccnt, cst, limit. cvs. rewrite C2. split; [tauto|]. split; [lia|auto].
Qed.

Definition cfull (st : cstatus) (s : mst) : Prop := st = CB_TOO_MANY_EVALUATIONS -> ccalls s = Z.max maxfun 1.
Definition cdone (r : cstatus * Z) (s : mst) : Prop :=
  ckeep s /\ good oRd oC s /\ cstop (fst r) /\ cfull (fst r) s /\ snd r = ccalls s.

Lemma cend_ok s v : cjoin (Cend, v) s -> ok ckeep (cb_end n maximize x work scl' v) s cdone.
Proof.
  intros (G & K & (H1 & H2 & H3 & H4 & _)). unfold cvok, ccnt in *. cvs. unfold cb_end.
  assert (S1 : safe O oRd oC (
    (match scl' with None => ret tt | Some b => scale x n b x end) ;;
     assign work (ret (if maximize then nopp (c_f v) else c_f v)) ;; assign (work + 1) (ret (c_resmax v)) ;;
     ret (c_status v, c_nfvals v))%bq (fun r => r = (c_status v, c_nfvals v))).
  { pose proof cb_size_big. apply safe_bindT.
    - destruct Hscl' as [->|E']; [apply safe_ret; exact I|]. destruct scl' as [b|]; [|apply safe_ret; exact I].
      unfold scale. apply safe_loop. intros i u Hi. apply (safe_assign O oRd oC cO_Rd cC_O); [left; lia|].
      apply safe_lift2; apply safe_ld; [right; exists b; split; [auto|lia]|left; left; lia].
    - intros _. apply safe_bindT; [|intros _; apply safe_bindT; [|intros _; apply safe_ret; reflexivity]];
        (apply (safe_assign O oRd oC cO_Rd cC_O); [apply cO_w; lia|apply safe_ret; exact I]). }
  eapply ok_safe; [exact S1|exact G|intros s' F; apply (ckeep_frame s s' K F)|].
  intros st s' -> G' F. unfold cdone, cfull. cbn [fst snd]. rewrite (ccalls_frame s s' F).
  split; [apply (ckeep_frame s s' K F)|]. split; [auto|]. split; [auto|]. split; [|exact H2]. intros ET. specialize (H4 ET).
  unfold limit in H4. lia.
Qed.

(** The code of one label *)
Lemma cbstep_ok fi l s' : cjoin l s' ->
  ok ckeep (co_step n m x rhoend maxfun work (o_sim n m work) (o_simi n m work) (o_datmat n m work) (o_a n m work) (o_vsig n m work)
    (o_veta n m work) (o_sigbar n m work) (o_dx n m work) (o_w n m work) None (cb_call n m maximize fn cn x work scl')
    (cb_end n maximize x work scl') fi l) s'
    (fun r t => match r with inl l' => cjoin l' t | inr st => cdone st t end).
Proof.
  intros (G' & K' & H').
  destruct (match fst l with Ceval => true | _ => false end) eqn:E1; [|destruct (match fst l with Cend => true | _ => false end) eqn:E2].
  * destruct l as [l u]. cbn [fst] in E1. destruct l; try discriminate. cbn [co_step fst snd].
    eapply ok_weak; [apply ccall_ok; split; [exact G'|split; [exact K'|exact H']]|].
    intros [r|r] s2 HH; [exact HH|contradiction].
  * destruct l as [l u]. cbn [fst] in E2. destruct l; try discriminate. cbn [co_step fst snd].
    eapply ok_bind; [apply cend_ok; split; [exact G'|split; [exact K'|exact H']]|].
    intros st s3 H5. apply ok_ret. exact H5.
  * assert (HS := cstep_safe HLaws O oRd oC cO_Rd cC_O n m x rhoend maxfun work None Hn Hm cO_x cO_w I (fun _ : cstatus * Z => False)
      (cb_call n m maximize fn cn x work scl') (cb_end n maximize x work scl') fi (ccalls s') CB_ITERATE l).
    eapply ok_safe; [apply HS; [intros EE; rewrite EE in E1; discriminate|intros EE; rewrite EE in E2; discriminate|exact H']|
      exact G'|intros s2 F; apply (ckeep_frame s' s2 K' F)|].
    intros [r|r] s2 HP G2 F; [|contradiction]. split; [exact G2|]. split; [apply (ckeep_frame s' s2 K' F)|].
    rewrite (ccalls_frame s' s2 F). exact HP.
Qed.

Lemma cb_optimize_ok s fi fuel : good oRd oC s -> ckeep s -> ccalls s = 0 ->
  ok ckeep (cb_optimize n m maximize fn cn x rhobeg rhoend maxfun work scl' fi fuel) s cdone.
Proof.
  intros G K C0. unfold cb_optimize.
  eapply ok_bind.
  - eapply ok_safe; [apply (cbegin_safe O oRd oC cO_Rd cC_O); auto using cO_x, cO_w|exact G|
      intros s' F; apply (ckeep_frame s s' K F)|].
    intros v s' H1 G' F. exact (conj H1 (conj G' (conj (ckeep_frame s s' K F) (ccalls_frame s s' F)))).
  - intros v s1 (H1 & G1 & K1 & C1). unfold cb_run. apply ok_machine with (J := cjoin).
    + intros l s' (_ & K' & _). exact K'.
    + intros l s' HJ. apply cbstep_ok, HJ.
    + split; [exact G1|]. split; [exact K1|]. rewrite C1, C0. unfold cinv, clab, cvok, ccnt, cst, limit. rewrite H1. unfold cv0. cvs.
      split; [lia|]. split; reflexivity.
Qed.
End Run.
End Valid.

Definition crefused (st : cstatus) : Prop :=
  st = CB_BAD_NVARS \/ st = CB_BAD_NCONS \/ st = CB_BAD_RHO_RANGE \/ st = CB_BAD_SCALING.
Definition cresult (r : cstatus * option Z) (s : mst) : Prop :=
  ckeep s /\ ((cstop (fst r) /\ cfull (fst r) s /\ snd r = Some (ccalls s)) \/ (crefused (fst r) /\ snd r = None /\ s = s0)).

Lemma cobyla_optimize_ok fi fuel :
  ok ckeep (cobyla_optimize n m maximize fn cn x scl rhobeg rhoend maxfun work fi fuel) s0 cresult.
Proof.
  unfold cobyla_optimize, cresult, crefused. cbv zeta.
  destruct (Z.ltb_spec n 1) as [L|L]; [apply ok_ret; cbn [fst snd]; split; [apply ckeep0|auto]|].
  destruct (Z.ltb_spec m 0) as [L1|L1]; [apply ok_ret; cbn [fst snd]; split; [apply ckeep0|auto 6]|].
  destruct (nle rhoend zero || nlt rhobeg rhoend)%bool eqn:E2; [apply ok_ret; cbn [fst snd]; split; [apply ckeep0|auto 8]|].
  assert (C0 : ccalls s0 = 0) by (unfold ccalls; lia).
  assert (RUN : forall scl' s, scl' = None \/ scl' = scl -> good oRd oC s -> ckeep s -> ccalls s = 0 ->
    ok ckeep (bind (cb_optimize n m maximize fn cn x rhobeg rhoend maxfun work scl' fi fuel) (fun r => ret (fst r, Some (snd r)))) s cresult).
  { intros scl' s H1 G K C1. eapply ok_bind; [apply cb_optimize_ok; auto|]. intros r s' (H2 & H3 & H4 & H5 & H6). apply ok_ret.
    split; [exact H2|]. left. cbn [fst snd]. rewrite H6. auto. }
  unfold cresult, crefused in RUN.
  assert (D : scl = None \/ exists b, scl = Some b) by (clear; destruct scl; eauto).
  destruct D as [Eb|[b Eb]]; rewrite Eb; [apply RUN; auto using cgood0, ckeep0|].
  destruct (check_scl_reads n b s0) as [r Er].
  { intros i Hi. pose proof (cl_scl _ _ _ _ _ _ HL) as K. rewrite Eb in K. apply K, Hi. }
  eapply ok_bind with (P := fun u s => u = r /\ s = s0); [unfold ok; rewrite Er; auto|].
  intros u s [-> ->]. destruct r as [[|]|].
  - eapply ok_bind.
    + eapply ok_safe with (P := fun _ => True); [|apply cgood0|intros s' F; apply (ckeep_frame s0 s' ckeep0 F)|].
      * apply safe_loop. intros i u Hi. apply (safe_assign O oRd oC cO_Rd cC_O); [left; lia|].
        apply safe_lift2; apply safe_ld; [left; left; lia|right; exists b; split; [auto|lia]].
      * intros u s' _ G' F. exact (conj G' F).
    + intros _ s' [G' F]. apply RUN; auto; [apply (ckeep_frame s0 s' ckeep0 F)|rewrite (ccalls_frame s0 s' F); exact C0].
  - apply RUN; auto using cgood0, ckeep0.
  - apply ok_ret. cbn [fst snd]. split; [apply ckeep0|]. right. auto 6.
Qed.
End Optimize.

(** ** The reverse communication version *)
Section Context.
Context {N : Num}.
Hypothesis HLaws : CbLaws N.
Notation mst := (mst N).

(** The contexts that a client may have *)
Definition qvalid (q : ccontext (N := N)) : Prop :=
  1 <= q_n q /\ 0 <= q_m q /\ 1 <= q_maxfun q /\ 0 <= q_nevals q <= q_maxfun q /\
  (q_status q = CB_TOO_MANY_EVALUATIONS -> q_nevals q = q_maxfun q) /\
  (q_status q = CB_SUCCESS -> nlt (q_rhoend q) (c_rho (q_v q)) = false) /\
  (q_status q = CB_ITERATE -> q_nevals q = 0 \/ cinv (q_n q) (q_rhoend q) (q_maxfun q) (q_nevals q) CB_ITERATE (Ceval, q_v q)) /\
  q_status q <> CB_INITIAL_ITERATE.

Section Iterate.
Variables (W Rd : Z -> Prop) (C : Z -> option N).
Hypothesis WRd : forall a, W a -> Rd a.
Hypothesis CW : forall a v, C a = Some v -> ~ W a.
Variables (q : ccontext (N := N)) (x : Z) (cc : option Z).
Hypothesis HWx : forall a, x <= a < x + q_n q -> W a.
Hypothesis HWw : forall a, q_w q <= a < q_w q + cb_size (q_n q) (q_m q) -> W a.
Hypothesis HRc : match cc with None => True | Some c => forall k, 0 <= k < q_m q -> Rd (c + k) end.
Hypothesis HV : qvalid q.
Notation n := (q_n q).
Notation m := (q_m q).
Notation maxfun := (q_maxfun q).

(** Some values of the functions have been requested and are not used yet, or it is the end *)
Definition qpost (k : Z) (v : cvars (N := N)) : Prop :=
  c_nfvals v = k /\ 1 <= k <= limit maxfun /\
  ((c_status v = CB_ITERATE /\ cinv n (q_rhoend q) maxfun k CB_ITERATE (Ceval, v)) \/
   (cstop (c_status v) /\ (c_status v = CB_TOO_MANY_EVALUATIONS -> k = limit maxfun) /\
      (c_status v = CB_SUCCESS -> nlt (q_rhoend q) (c_rho v) = false))).
Definition qinv (k : Z) (l : clabel * cvars (N := N)) : Prop :=
  (1 <= k /\ cinv n (q_rhoend q) maxfun k CB_ITERATE l) \/ (k = 1 /\ cinv n (q_rhoend q) maxfun 0 CB_INITIAL_ITERATE l).

Lemma crun_safe k c fi fuel l : match c with None => True | Some c => forall k, 0 <= k < q_m q -> Rd (c + k) end -> qinv k l ->
  safe W Rd C (cb_run n m x (q_rhoend q) maxfun (q_w q) c cb_request (fun v => ret v) fi fuel l) (qpost k).
Proof.
  destruct HV as (Hn & Hm & Hx & _).
  intros Hc Hl. unfold cb_run. apply safe_machine with (P := qinv k); [|exact Hl]. clear l Hl. intros l HJ.
  destruct (match fst l with Ceval => true | _ => false end) eqn:E1; [|destruct (match fst l with Cend => true | _ => false end) eqn:E2].
  - destruct l as [l u]. cbn [fst] in E1. destruct l; try discriminate. cbn [co_step fst snd]. unfold cb_request.
    destruct HJ as [[K1 H]|[-> H]]; (assert (S := proj2 (proj2 H)); unfold cst in S; cbn [fst snd] in S; rewrite S; apply safe_ret).
    + replace (p_status CB_ITERATE u) with u by (destruct u; cbn in S; subst; reflexivity).
      split; [exact (proj1 (proj2 H))|]. split; [|left; split; [exact S|exact H]].
      destruct H as ((H & _) & H2 & _). unfold cvok, ccnt in *. cvs. lia.
    + left. split; [lia|]. destruct H as (H1 & H2 & _). unfold cinv, clab, cvok, ccnt, cst in *. cvs.
      split; [tauto|]. split; [lia|reflexivity].
  - destruct l as [l u]. cbn [fst] in E2. destruct l; try discriminate. cbn [co_step fst snd].
    apply safe_bind with (P := fun r => r = u); [apply safe_ret; reflexivity|]. intros r ->. apply safe_ret.
    destruct HJ as [[K1 H]|[-> H]]; destruct H as (H1 & H2 & H3); unfold clab, cvok, ccnt, cst in *; cvs.
    + split; [exact H2|]. split; [lia|]. right. split; [tauto|]. split; [|tauto]. intros ET. destruct H3 as (_ & H3 & _). specialize (H3 ET). lia.
    + lia.
  - assert (N1 : fst l <> Ceval) by (intros EE; rewrite EE in E1; discriminate).
    assert (N2 : fst l <> Cend) by (intros EE; rewrite EE in E2; discriminate).
    assert (HS := fun j st => cstep_safe HLaws W Rd C WRd CW n m x (q_rhoend q) maxfun (q_w q) c Hn Hm HWx HWw Hc
      (fun _ : cvars (N := N) => False) cb_request (fun v => ret v) fi j st l N1 N2).
    destruct HJ as [[K1 H]|[Em H]].
    + eapply safe_weak; [apply (HS _ _ H)|]. intros [r|r] HP; [left; split; [exact K1|exact HP]|contradiction].
    + eapply safe_weak; [apply (HS _ _ H)|]. intros [r|r] HP; [right; split; [exact Em|exact HP]|contradiction].
Qed.

Lemma qvalid_set v k : qpost k v -> qvalid (q_set q v).
Proof.
  destruct HV as (Hn & Hm & Hx & _). intros (H1 & H2 & H3). unfold qvalid, q_status, q_nevals, q_set. cbn [q_n q_m q_maxfun q_v].
  unfold limit in *. repeat (split; [assumption|]). split; [lia|]. unfold cstop in H3.
  destruct H3 as [[E H3]|[[E|[E|E]] [H3 H4]]]; rewrite E in *;
    (split; [intros EE; try discriminate EE|split; [intros EE; try discriminate EE|split; [intros EE; try discriminate EE|discriminate]]]).
  - right. rewrite H1. exact H3.
  - apply H4. reflexivity.
  - specialize (H3 eq_refl). lia.
Qed.
Lemma qvalid_err st : st <> CB_ITERATE -> st <> CB_INITIAL_ITERATE -> st <> CB_TOO_MANY_EVALUATIONS -> st <> CB_SUCCESS ->
  qvalid (q_set q (p_status st (q_v q))).
Proof.
  destruct HV as (Hn & Hm & Hx & He & _). intros H1 H2 H4 H5. unfold qvalid, q_status, q_nevals, q_set in *.
  cbn [q_n q_m q_maxfun q_v]. repeat (split; [assumption|]). cvs.
  do 3 (split; [intros E; contradiction|]). exact H2.
Qed.

(** What is known of the context after an accepted call *)
Definition qnext (q' : ccontext (N := N)) : Prop :=
  q_nevals q' = q_nevals q + 1 /\ (q_status q' = CB_ITERATE \/ cstop (q_status q')).
Definition qsame (q' : ccontext (N := N)) : Prop :=
  qvalid q' /\ (q_n q' = q_n q /\ q_m q' = q_m q /\ q_w q' = q_w q).
Definition qrun (x : Z) (f : N) (c : option Z) (fi fuel : nat) : prog N (ccontext (N := N)) :=
  let run := cb_run (q_n q) (q_m q) x (q_rhoend q) (q_maxfun q) (q_w q) c cb_request (fun v => ret v) fi fuel in
  let v := p_f f (q_v q) in
  if (q_nevals q =? 0)%Z then
    bind (cb_begin (q_n q) (q_m q) x (q_rhobeg q) (q_w q)
                (p_status CB_INITIAL_ITERATE (p_prerec zero (p_prerem zero (p_parsig zero v))))) (fun v =>
    bind (run (Ccall, v)) (fun v => ret (q_set q v)))
  else
    bind (run (Cnew, v)) (fun v => ret (q_set q v)).
Lemma qrun_safe f c fi fuel : match c with None => True | Some c => forall k, 0 <= k < q_m q -> Rd (c + k) end ->
  q_status q = CB_ITERATE -> safe W Rd C (qrun x f c fi fuel) (fun q' => qsame q' /\ qnext q').
Proof.
  intros Hc ES. destruct HV as (Hn & Hm & Hx & He & _ & _ & Hs & Hi). specialize (Hs ES).
  assert (FIN : forall k u, k = q_nevals q + 1 -> qpost k u -> qsame (q_set q u) /\ qnext (q_set q u)).
  { intros k u -> Hu. split; [split; [eapply qvalid_set, Hu|auto]|]. destruct Hu as (U1 & U2 & U3).
    unfold qnext, q_nevals, q_status, q_set in *. cbn [q_v]. tauto. }
  unfold qrun. cbv zeta. destruct (Z.eqb_spec (q_nevals q) 0) as [E0|E0].
  - eapply safe_bind; [apply (cbegin_safe W Rd C WRd CW); auto|]. intros v Hv. cbv beta in Hv.
    eapply safe_bind; [apply (crun_safe 1 c); [exact Hc|]|].
    + right. split; [reflexivity|]. rewrite Hv. unfold cinv, clab, cvok, ccnt, cst, limit. cvs. unfold q_nevals in E0. rewrite E0.
      split; [lia|]. split; reflexivity.
    + intros u Hu. apply safe_ret. apply (FIN 1); [lia|exact Hu].
  - destruct Hs as [Hs|Hs]; [contradiction|].
    eapply safe_bind; [apply (crun_safe (q_nevals q + 1) c); [exact Hc|]|].
    + left. split; [lia|]. destruct Hs as (H1 & H2 & H3). unfold cinv, clab, cvok, ccnt, cst in *. cvs.
      split; [tauto|]. split; [lia|auto].
    + intros u Hu. apply safe_ret. apply (FIN (q_nevals q + 1)); [reflexivity|exact Hu].
Qed.

Lemma citerate_safe f fi fuel : safe W Rd C (cobyla_iterate q f (Some x) cc fi fuel) qsame.
Proof.
  destruct HV as (Hn & Hm & Hx & He & _).
  assert (RUN : forall c, match c with None => True | Some c => forall k, 0 <= k < q_m q -> Rd (c + k) end ->
    safe W Rd C (if (match q_status q with CB_ITERATE => false | _ => true end || (q_nevals q <? 0))%bool then
        ret (q_set q (p_status CB_CORRUPTED (q_v q))) else qrun x f c fi fuel) qsame).
  { intros c Hc. destruct (q_nevals q <? 0) eqn:EN; [apply Z.ltb_lt in EN; lia|]. clear EN.
    destruct (q_status q) eqn:ES; cbn [orb]; try (apply safe_ret; split; [apply qvalid_err; discriminate|auto]).
    eapply safe_weak; [apply qrun_safe; [exact Hc|exact ES]|]. intros q' [H _]. exact H. }
  unfold cobyla_iterate. destruct cc as [c|].
  - apply (RUN (Some c)). exact HRc.
  - destruct (Z.ltb_spec 0 (q_m q)) as [L|L].
    + apply safe_ret. split; [apply qvalid_err; discriminate|auto].
    + apply (RUN (Some 0)). intros k Hk. lia.
Qed.
Lemma citerate_count : (cc = None -> q_m q = 0) -> q_status q = CB_ITERATE ->
  forall f fi fuel, safe W Rd C (cobyla_iterate q f (Some x) cc fi fuel) qnext.
Proof.
  intros H0 ES f fi fuel. destruct HV as (Hn & Hm & Hx & He & _).
  assert (RUN : forall c, match c with None => True | Some c => forall k, 0 <= k < q_m q -> Rd (c + k) end ->
    safe W Rd C (if (match q_status q with CB_ITERATE => false | _ => true end || (q_nevals q <? 0))%bool then
        ret (q_set q (p_status CB_CORRUPTED (q_v q))) else qrun x f c fi fuel) qnext).
  { intros c Hc. destruct (q_nevals q <? 0) eqn:EN; [apply Z.ltb_lt in EN; lia|]. rewrite ES. cbn [orb].
    eapply safe_weak; [apply qrun_safe; [exact Hc|exact ES]|]. intros q' [_ H]. exact H. }
  unfold cobyla_iterate. destruct cc as [c|].
  - apply (RUN (Some c)). exact HRc.
  - destruct (Z.ltb_spec 0 (q_m q)) as [L|L]; [specialize (H0 eq_refl); lia|].
    apply (RUN (Some 0)). intros k Hk. lia.
Qed.
End Iterate.

Lemma citerate_args (q q' : ccontext (N := N)) f x c fi fuel s s' : cobyla_iterate q f x c fi fuel s = Ret q' s' ->
  q_n q' = q_n q /\ q_m q' = q_m q /\ q_w q' = q_w q.
Proof.
  intros E. unfold cobyla_iterate in E. destruct x as [x|]; [|injection E as <- <-; auto].
  destruct (match c with Some c => Some c | None => if 0 <? q_m q then None else Some 0 end) as [c'|]; [|injection E as <- <-; auto].
  destruct (_ || _)%bool; [injection E as <- <-; auto|]. cbv zeta in E. unfold bind in E. destruct (q_nevals q =? 0).
  - destruct (cb_begin _ _ _ _ _ _ s) as [v s1|s1|s1|s1]; try discriminate E.
    destruct (cb_run _ _ _ _ _ _ _ _ _ _ _ _ s1) as [v2 s2|s2|s2|s2]; try discriminate E. injection E as <- <-. auto.
  - destruct (cb_run _ _ _ _ _ _ _ _ _ _ _ _ s) as [v s1|s1|s1|s1]; try discriminate E. injection E as <- <-. auto.
Qed.

Lemma ccreate_args n m (rhobeg rhoend : N) maxfun a q s s' : cobyla_create n m rhobeg rhoend maxfun (Some a) s = Ret (Some q) s' ->
  q_n q = n /\ q_m q = m /\ q_w q = a.
Proof.
  unfold cobyla_create. destruct (_ || _)%bool; [discriminate|].
  unfold bind. destruct (loop _ _ _ _ s); try discriminate. intros [= <- _]. auto.
Qed.

Lemma ccreate_safe (W Rd : Z -> Prop) (C : Z -> option N) (n m : Z) (rhobeg rhoend : N) (maxfun a : Z) :
  (forall b, W b -> Rd b) -> (forall b v, C b = Some v -> ~ W b) ->
  (forall b, a <= b < a + cb_size n m -> W b) ->
  safe W Rd C (cobyla_create n m rhobeg rhoend maxfun (Some a) : prog N _)
    (fun r => match r with None => True | Some q => qvalid q end).
Proof.
  intros WRd CW HW. unfold cobyla_create.
  destruct ((n <? 1) || (m <? 0) || nlt rhobeg rhoend || nle rhoend zero || (maxfun <? 1))%bool eqn:E; [apply safe_ret; exact I|].
  rewrite !orb_false_iff in E. destruct E as ((((E1 & E2) & _) & _) & E3). apply Z.ltb_ge in E1, E2, E3.
  apply safe_bindT.
  - apply safe_loop. intros i u Hi. apply (safe_assign W Rd C WRd CW); [apply HW; lia|apply safe_ret; auto].
  - intros _. apply safe_ret. unfold qvalid, q_status, q_nevals. cbn [q_n q_m q_maxfun q_v]. unfold cv0. cvs.
    do 4 (split; [lia|]). split; [discriminate|]. split; [discriminate|]. split; [auto|discriminate].
Qed.

(** The cells written and read by cobyla_iterate *)
Definition qW (q : ccontext (N := N)) (x : Z) (b : Z) : Prop :=
  x <= b < x + q_n q \/ q_w q <= b < q_w q + cb_size (q_n q) (q_m q).
Definition qR (q : ccontext (N := N)) (x : Z) (c : option Z) (b : Z) : Prop :=
  qW q x b \/ exists c', c = Some c' /\ c' <= b < c' + q_m q.
Lemma qgood q x c s : cgiven q x c s -> cells s (q_w q) (cdoc_size (q_n q) (q_m q)) -> good (qR q x c) (fun _ => None) s.
Proof.
  intros (H1 & _ & H2) H3. apply good_cells. intros b [[Hb|Hb]|(c' & -> & Hb)].
  - apply (cells_in s x (q_n q)); auto.
  - apply (cells_in s (q_w q) (cb_size (q_n q) (q_m q))); auto.
  - apply (cells_in s c' (q_m q)); auto.
Qed.
Lemma qiterate_safe q x c s f fi fuel : qvalid q -> cgiven q x c s -> cells s (q_w q) (cdoc_size (q_n q) (q_m q)) ->
  match cobyla_iterate q f (Some x) c fi fuel s with
  | Ret q' s' => qsame q q' /\ good (qR q x c) (fun _ => None) s' /\ frame (qW q x) s s'
  | Undef _ => False
  | Cast s' | More s' => frame (qW q x) s s'
  end.
Proof.
  intros HV Hx Hc.
  assert (K1 : match c with None => True | Some c0 => forall k, 0 <= k < q_m q -> qR q x c (c0 + k) end).
  { destruct c as [c0|]; [|exact I]. intros k Hk. right. exists c0. split; [reflexivity|lia]. }
  apply (citerate_safe (qW q x) (qR q x c) (fun _ => None) (fun b Hb => or_introl Hb) ltac:(discriminate) q x c
      (fun b Hb => or_introl Hb) (fun b Hb => or_intror Hb) K1 HV f fi fuel s), qgood; auto.
Qed.

Lemma creach_valid q s : creach q s -> qvalid q /\ cells s (q_w q) (cdoc_size (q_n q) (q_m q)).
Proof.
  intros H. induction H as [n m rb re maxfun a s q s' Hc E|q f x c fi fuel s q' s' H [IV IC] Hx E|q f c fi fuel s q' s' H [IV IC] E|
    q s H [IV IC]|q s s' H [IV IC] HC].
  - set (W := fun b => a <= b < a + cb_size n m).
    assert (S := ccreate_safe W W (fun _ => None) n m rb re maxfun a (fun b Hb => Hb) ltac:(discriminate) (fun b Hb => Hb) s).
    rewrite E in S. destruct S as (H1 & G & F).
    { apply good_cells. intros b Hb. apply (cells_in s a (cb_size n m)); auto. }
    split; [exact H1|]. destruct (ccreate_args _ _ _ _ _ _ _ _ _ E) as (-> & -> & ->). intros i Hi. apply G. unfold W.
    rewrite cdoc_cb in Hi. lia.
  - assert (S := qiterate_safe q x c s f fi fuel IV Hx IC). rewrite E in S. destruct S as ((H1 & H2 & H3 & H4) & G & F).
    split; [exact H1|]. rewrite H2, H3, H4. intros i Hi. apply G. left. right. rewrite cdoc_cb in Hi. lia.
  - injection E as <- <-. split; [|exact IC]. apply (qvalid_err q); auto; discriminate.
  - split; [|exact IC]. destruct IV as (Hn & Hm & Hx & _). unfold qvalid, cobyla_restart, q_status, q_nevals.
    cbn [q_set q_n q_m q_maxfun q_v]. cvs. repeat (split; [assumption|]). split; [lia|]. split; [discriminate|]. split; [discriminate|]. split; [auto|discriminate].
  - split; [exact IV|exact HC].
Qed.
End Context.
