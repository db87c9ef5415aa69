(** * COBYLA: the linear programming subroutine does not end when the gradient of the objective function is a NaN

    For no constraint (m = 0) and any number of variables. *)
From Coq Require Import ZArith List Bool Lia.
From Verif Require Import Num BqLang BqModel BqWp BqStart CbModel.
Import ListNotations.
Local Open Scope Z_scope.

(** What is used of the NaN: [isnan] absorbs the operations, all comparisons are false; and zero is equal to itself. *)
Record NanLaws (N : Num) (isnan : N -> Prop) : Prop := {
  nn_add_l : forall a b, isnan a -> isnan (nadd a b);
  nn_add_r : forall a b, isnan b -> isnan (nadd a b);
  nn_sub_l : forall a b, isnan a -> isnan (nsub a b);
  nn_mul_l : forall a b, isnan a -> isnan (nmul a b);
  nn_mul_r : forall a b, isnan b -> isnan (nmul a b);
  nn_div_l : forall a b, isnan a -> isnan (ndiv a b);
  nn_div_r : forall a b, isnan b -> isnan (ndiv a b);
  nn_abs : forall a, isnan a -> isnan (nabs a);
  nn_sqrt : forall a, isnan a -> isnan (nsqrt a);
  nn_lt : forall a b, isnan a -> nlt a b = false;
  nn_le_l : forall a b, isnan a -> nle a b = false;
  nn_le_r : forall a b, isnan b -> nle a b = false;
  nn_eq : forall a b, isnan a -> neq a b = false;
  nn_zero : neq (nZ 0 : N) (nZ 0) = true
}.

(** [wp p s Q]: the program [p] does not end with [Cast] from [s] and, if it ends normally, then [Q].  The absence of accesses
    out of the arrays is proved elsewhere. *)
Section Wp.
Context {N : Num}.
Notation mst := (mst N).
Notation prog := (prog N).
Definition wp {A} (p : prog A) (s : mst) (Q : A -> mst -> Prop) : Prop :=
  match p s with Ret a t => Q a t | Cast _ => False | Undef _ | More _ => True end.

Lemma wp_weak {A} (p : prog A) s (P Q : A -> mst -> Prop) : wp p s P -> (forall a s', P a s' -> Q a s') -> wp p s Q.
Proof. unfold wp. destruct (p s); auto. Qed.
Lemma wp_ret {A} (a : A) s (Q : A -> mst -> Prop) : Q a s -> wp (ret a) s Q.
Proof. auto. Qed.
Lemma wp_bind {A B} (p : prog A) (q : A -> prog B) s Q : wp p s (fun a s' => wp (q a) s' Q) -> wp (bind p q) s Q.
Proof. unfold wp, bind. destruct (p s); auto. Qed.
Lemma wp_ld a s (Q : N -> mst -> Prop) : (forall v, mm s a = Some v -> Q v s) -> wp (ld a) s Q.
Proof. intros H. unfold wp, ld. destruct (mm s a) as [u|] eqn:Ea; auto. Qed.
Lemma wp_sto a v s (Q : unit -> mst -> Prop) : Q tt (upd s a v) -> wp (sto a v) s Q.
Proof. intros H. unfold wp, sto. destruct (mm s a); auto. Qed.
Lemma wp_assign a e s (Q : unit -> mst -> Prop) : wp e s (fun v s' => Q tt (upd s' a v)) -> wp (assign a e) s Q.
Proof. intros H. apply wp_bind. eapply wp_weak; [exact H|]. intros v s' K. apply wp_sto, K. Qed.
Lemma wp_lift1 {A B} (f : A -> B) p s (Q : B -> mst -> Prop) : wp p s (fun a s' => Q (f a) s') -> wp (lift1 f p) s Q.
Proof. intros H. apply wp_bind. eapply wp_weak; [exact H|]. intros a s' K. apply wp_ret, K. Qed.
Lemma wp_lift2 {A B D} (f : A -> B -> D) p q s (Q : D -> mst -> Prop) :
  wp p s (fun a s' => wp q s' (fun b s'' => Q (f a b) s'')) -> wp (lift2 f p q) s Q.
Proof.
  intros H. apply wp_bind. eapply wp_weak; [exact H|]. intros a s' K. apply wp_bind. eapply wp_weak; [exact K|].
  intros b s'' L. apply wp_ret, L.
Qed.
Lemma wp_loopJ {A} (J : Z -> A -> mst -> Prop) lo hi body (a : A) s (Q : A -> mst -> Prop) :
  lo <= hi + 1 -> J lo a s ->
  (forall i b t, lo <= i <= hi -> J i b t -> wp (body i b) t (J (i + 1))) ->
  (forall b t, J (hi + 1) b t -> Q b t) -> wp (loop lo hi body a) s Q.
Proof.
  intros H Ha Hb HQ. unfold loop.
  assert (E : hi + 1 = lo + Z.of_nat (Z.to_nat (hi - lo + 1))) by lia. rewrite E in HQ.
  assert (K : forall i b t, lo <= i < lo + Z.of_nat (Z.to_nat (hi - lo + 1)) -> J i b t -> wp (body i b) t (J (i + 1)))
    by (intros; apply Hb; auto; lia).
  clear Hb E H. revert K HQ. generalize (Z.to_nat (hi - lo + 1)). intros k K HQ. revert lo a s Ha K HQ.
  induction k as [|k IH]; intros lo a s Ha K HQ; cbn [loopn].
  - apply wp_ret, HQ. rewrite Z.add_0_r. exact Ha.
  - apply wp_bind. eapply wp_weak; [apply K; [lia|exact Ha]|]. intros b t Hj. apply IH; auto.
    + intros i c u Hi. apply K. lia.
    + intros c u. replace (lo + 1 + Z.of_nat k) with (lo + Z.of_nat (S k)) by lia. apply HQ.
Qed.
Lemma wp_machine {L B} (J : L -> mst -> Prop) (Q : B -> mst -> Prop) (step : L -> prog (L + B)) fuel l s :
  J l s -> (forall l t, J l t -> wp (step l) t (fun r t => match r with inl l => J l t | inr b => Q b t end)) ->
  wp (machine fuel step l) s Q.
Proof.
  intros Hl Hs. revert l s Hl. induction fuel as [|fuel IH]; intros l s Hl; cbn [machine]; [exact I|].
  apply wp_bind. eapply wp_weak; [apply Hs, Hl|]. intros [r|r] t Hr; [apply IH, Hr|apply wp_ret, Hr].
Qed.
End Wp.

Section Nan.
Context {N : Num} (isnan : N -> Prop) (HN : NanLaws N isnan).
Notation mst := (mst N).
Notation prog := (prog N).
Variables (n a b : Z) (rho : N) (dx : Z).
Hypothesis Hn : 1 <= n.
Let z := dx + n.
Let zdota := z + n * n.
Let vmultc := zdota + n.
Let sdirn := vmultc + (0 + 1).
Let dxnew := sdirn + n.
Let vmultd := dxnew + n.
Hypothesis Ha : a + n <= dx.
Hypothesis Hrho : nle (nmul tiny rho) (nabs (nZ 0)) = false.
Hypothesis Hrho2 : nle (nmul rho rho) (nZ 0) = false.

Let nn : 0 <= n * n. Proof. nia. Qed.

Definition nanc (s : mst) (q : Z) : Prop := forall v, mm s q = Some v -> isnan v.
Definition nanv (s : mst) (p : Z) : Prop := forall i, 1 <= i <= n -> nanc s (at1 p i).
Definition same (P : Z -> Prop) (s t : mst) : Prop := forall q, P q -> mm t q = mm s q.

Lemma nanv_same P s t p : nanv s p -> same P s t -> (forall i, 1 <= i <= n -> P (at1 p i)) -> nanv t p.
Proof. intros H K L i Hi v E. rewrite K in E by auto. exact (H i Hi v E). Qed.
Lemma same_refl P s : same P s s. Proof. intros q _. reflexivity. Qed.
Lemma same_trans P s t u : same P s t -> same P t u -> same P s u.
Proof. intros H K q Hq. rewrite K, H; auto. Qed.
Lemma same_weak (P Q : Z -> Prop) s t : same P s t -> (forall q, Q q -> P q) -> same Q s t.
Proof. intros H K q Hq. apply H, K, Hq. Qed.
Lemma same_upd P s q v : ~ P q -> same P s (upd s q v).
Proof. intros H r Hr. cbn. destruct (Z.eqb_spec r q) as [->|]; [contradiction|reflexivity]. Qed.
Lemma nanc_upd s q v : isnan v -> nanc (upd s q v) q.
Proof. intros H u. cbn. rewrite Z.eqb_refl. intros [= <-]. exact H. Qed.

Lemma negl_nan e e2 : isnan e -> negligible e e2 = false.
Proof.
  intros H. unfold negligible. rewrite (nn_le_l _ _ HN), (nn_le_l _ _ HN); [reflexivity| |];
    apply (nn_add_r _ _ HN), (nn_mul_r _ _ HN), (nn_abs _ _ HN), H.
Qed.

(** The scalar product with DXNEW *)
Lemma zdot_nan k s : nanv s dxnew -> wp (tr_zdot n z dxnew k) s (fun r t => t = s /\ isnan (fst r)).
Proof.
  intros H. unfold tr_zdot.
  apply wp_loopJ with (fun i (r : N * N) t => t = s /\ (1 < i -> isnan (fst r))).
  - lia.
  - split; [reflexivity|lia].
  - intros i [sp ab] t Hi [-> _]. apply wp_bind, wp_lift2, wp_ld. intros u _. apply wp_ld. intros v E. apply wp_ret.
    split; [reflexivity|]. intros _. cbn. apply (nn_add_r _ _ HN), (nn_mul_r _ _ HN), (H i Hi v E).
  - intros r t [-> K]. split; [reflexivity|]. apply K. lia.
Qed.

(** A loop that stores NaN in an array *)
Lemma fill_nan p e s :
  (forall i t, 1 <= i <= n -> same (fun q => ~ (p <= q < p + n)) s t -> (forall j, i <= j <= n -> mm t (at1 p j) = mm s (at1 p j)) ->
     wp (e i) t (fun v u => u = t /\ isnan v)) ->
  wp (loop 1 n (fun i _ => assign (at1 p i) (e i)) tt) s (fun _ t => same (fun q => ~ (p <= q < p + n)) s t /\ nanv t p).
Proof.
  intros H. apply wp_loopJ with (fun i _ t => same (fun q => ~ (p <= q < p + n)) s t /\
    (forall j, i <= j <= n -> mm t (at1 p j) = mm s (at1 p j)) /\ forall j, 1 <= j < i -> nanc t (at1 p j)).
  - lia.
  - split; [apply same_refl|]. split; [reflexivity|lia].
  - intros i _ t Hi (K1 & K2 & K3). apply wp_assign. eapply wp_weak; [apply (H i t Hi K1 K2)|]. intros v u [-> Hv].
    split; [eapply same_trans; [exact K1|apply same_upd; unfold at1; lia]|]. split.
    + intros j Hj. cbn. destruct (Z.eqb_spec (at1 p j) (at1 p i)) as [E|]; [unfold at1 in E; lia|apply K2; lia].
    + intros j Hj. destruct (Z.eq_dec j i) as [->|]; [apply nanc_upd, Hv|]. intros w. cbn.
      destruct (Z.eqb_spec (at1 p j) (at1 p i)) as [E|]; [unfold at1 in E; lia|]. apply K3. lia.
  - intros _ t (K1 & _ & K3). split; [exact K1|]. intros i Hi. apply K3. lia.
Qed.

(** cobyla.c 1185-1211 with NACT = 0 *)
Lemma rotate_nan s : nanv s dxnew ->
  wp (tr_rotate n z dxnew 0) s (fun tot t => isnan tot /\ same (fun q => q < z \/ zdota <= q) s t).
Proof.
  intros H. unfold tr_rotate.
  apply wp_loopJ with (fun i tot t => (1 < i -> isnan tot) /\ (i = 1 -> tot = zero) /\ same (fun q => q < z \/ zdota <= q) s t).
  - lia.
  - split; [lia|]. split; [reflexivity|apply same_refl].
  - intros i tot t Hi (K1 & K2 & K3). apply wp_bind.
    eapply wp_weak; [apply zdot_nan; apply (nanv_same _ _ _ _ H K3); intros j Hj; unfold at1, dxnew, sdirn, vmultc; lia|].
    intros [sp ab] u [-> Hs]. cbn [fst] in Hs. rewrite negl_nan by exact Hs.
    destruct (Z.eq_dec i 1) as [->|Hi1].
    + rewrite K2 by reflexivity. unfold zero. rewrite (nn_zero _ _ HN). apply wp_ret. split; [auto|]. split; [lia|exact K3].
    + rewrite (nn_eq _ _ HN) by (apply K1; lia). cbv zeta. apply wp_bind, wp_lift1.
      repeat (first [apply wp_lift2 | apply wp_ret]).
      apply wp_bind.
      apply wp_loopJ with (fun _ _ t' => same (fun q => q < z \/ zdota <= q) s t').
      * lia.
      * exact K3.
      * intros j _ t' Hj K4.
        assert (L1 : z <= at2 z n j (n + 1 - i) < zdota) by (unfold at2, zdota; nia).
        assert (L2 : z <= at2 z n j (n + 1 - i + 1) < zdota) by (unfold at2, zdota; nia).
        repeat first [apply wp_assign | apply wp_lift2 | apply wp_bind | apply wp_ret | apply wp_ld; intros ? _].
        eapply same_trans; [|apply same_upd; lia]. eapply same_trans; [exact K4|apply same_upd; lia].
      * intros _ t' K4. apply wp_ret. split; [intros _; apply (nn_sqrt _ _ HN), (nn_add_l _ _ HN), (nn_mul_l _ _ HN), Hs|].
        split; [lia|exact K4].
  - intros tot t (K1 & _ & K3). split; [apply K1; lia|exact K3].
Qed.

(** cobyla.c 1408-1424 *)
Lemma stpful_nan s :
  nanv s sdirn -> (forall i, 1 <= i <= n -> mm s (at1 dx i) = Some (nZ 0)) \/ nanv s dx ->
  wp (tr_stpful n rho dx sdirn) s (fun r t => t = s /\ exists v, r = Some v /\ isnan v).
Proof.
  intros H Hd. unfold tr_stpful. apply wp_bind.
  apply wp_loopJ with (fun i (r : N * N * N) t => t = s /\ fst (fst r) = nmul rho rho /\ (1 < i -> isnan (snd (fst r)))).
  - lia.
  - split; [reflexivity|]. split; [reflexivity|lia].
  - intros i [[dd sd] ss] t Hi (-> & E1 & E2). cbn [fst snd] in *. apply wp_bind, wp_ld. intros d Ed. apply wp_bind, wp_ld. intros v Ev.
    apply wp_ret. split; [reflexivity|]. cbn [fst snd]. split.
    + destruct Hd as [Hd|Hd]; [rewrite Hd in Ed by exact Hi; injection Ed as <-; rewrite Hrho; exact E1|].
      rewrite (nn_le_r _ _ HN); [exact E1|]. apply (nn_abs _ _ HN), (Hd i Hi d Ed).
    + intros _. apply (nn_add_r _ _ HN), (nn_mul_l _ _ HN), (H i Hi v Ev).
  - intros [[dd sd] ss] t (-> & E1 & E2). cbn [fst snd] in *. specialize (E2 ltac:(lia)). rewrite E1. unfold zero. rewrite Hrho2.
    apply wp_ret. split; [reflexivity|]. eexists. split; [reflexivity|]. apply (nn_div_r _ _ HN), (nn_add_r _ _ HN), E2.
Qed.

Notation step := (tr_step n 0 a b rho dx z zdota vmultc sdirn dxnew vmultd).

(** The variables and the memory at the labels *)
Definition dxst (s : mst) : Prop := (forall i, 1 <= i <= n -> mm s (at1 dx i) = Some (nZ 0)) \/ nanv s dx.
Definition ninv3 (l : tlabel * tvars (N := N)) (s : mst) : Prop :=
  let v := snd l in
  nanv s a /\ dxst s /\
  match fst l with
  | T480 => t_nact v = 0 \/ t_nact v = 1 /\ nanv s dx
  | T60 | T70 => (t_nact v = 0 \/ t_nact v = 1 /\ nanv s dx) /\ t_mcon v = 1 /\ t_icon v = 1 /\ t_ia v 1 = Some 1 /\
      (fst l = T70 -> t_icount v = 0)
  | T210 kk => kk = 1 /\ t_nact v = 1 /\ t_mcon v = 1 /\ t_icon v = 1 /\ t_ia v 1 = Some 1 /\ nanc s zdota
  | T260 => t_nact v = 1 /\ t_mcon v = 1 /\ t_icon v = 1 /\ t_ia v 1 = Some 1 /\ nanv s dx
  | T320 => t_mcon v = 1 /\ t_ia v 1 = Some 1 /\ (t_nact v = 1 /\ nanc s zdota \/ t_nact v = 0 /\ nanv s dx)
  | T340 => t_mcon v = 1 /\ t_ia v 1 = Some 1 /\ (t_nact v = 1 \/ t_nact v = 0) /\ nanv s sdirn
  | T490 => False
  end.

Lemma dxst_same P s t : dxst s -> same P s t -> (forall q, dx <= q < dx + n -> P q) -> dxst t.
Proof.
  intros [H|H] K L; [left|right].
  - intros i Hi. rewrite K; [apply H, Hi|apply L; unfold at1; lia].
  - eapply nanv_same; [exact H|exact K|]. intros i Hi. apply L. unfold at1. lia.
Qed.

Notation post := (fun r t => match r with inl l => ninv3 l t | inr _ => False end).
Notation low := (fun q => q < z).

Lemma progress_nan (v : tvars (N := N)) s : t_mcon v = 1 -> t_icount v = 0 ->
  wp (tr_progress n 0 a dx v) s (fun r t => t = s /\ exists o, r = Some (u_optold o (u_nactx (t_nact v) (u_icount 3 v)))).
Proof.
  intros E1 E2. unfold tr_progress. apply wp_bind. rewrite E1. cbn [Z.eqb].
  apply wp_loopJ with (fun _ _ t => t = s); [lia|reflexivity| |].
  - intros i o t Hi ->. apply wp_lift2, wp_ret, wp_lift2, wp_ld. intros u _. apply wp_ld. intros w _. reflexivity.
  - intros o t ->. rewrite E2. cbn [Z.eqb orb]. apply wp_ret. split; [reflexivity|eauto].
Qed.

Lemma vmultd_nan (v : tvars (N := N)) s : t_mcon v = 1 -> t_nact v = 1 \/ t_nact v = 0 -> nanv s dxnew ->
  wp (tr_vmultd n 0 a z zdota dxnew vmultd v) s
    (fun _ t => same (fun q => q < dxnew) s t /\ (t_nact v = 1 -> nanc t vmultd)).
Proof.
  intros H1 H2 H3. unfold tr_vmultd. apply wp_bind.
  assert (E : Z.max (t_nact v) 1 = 1) by lia. rewrite E. unfold loop. change (Z.to_nat (1 - 1 + 1)) with 1%nat. cbn [loopn].
  replace (t_nact v + 1 - 1) with (t_nact v) by lia.
  apply wp_bind, wp_bind. eapply wp_weak; [apply zdot_nan, H3|]. intros [zd ab] t [-> Hz]. cbn [fst] in Hz. rewrite negl_nan by exact Hz.
  apply wp_bind, wp_assign, wp_lift2, wp_ret, wp_ld. intros u _.
  replace (t_nact v <? 2) with true by (symmetry; apply Z.ltb_lt; lia). do 2 apply wp_ret. rewrite H1. cbn [Z.ltb Z.compare].
  apply wp_bind, wp_ld. intros c. cbn [mm upd]. rewrite Z.eqb_refl. intros [= <-].
  unfold zero. rewrite (nn_lt _ _ HN) by (apply (nn_div_l _ _ HN), Hz). apply wp_ret. split.
  - apply same_upd. unfold at1, vmultd. lia.
  - intros E1. rewrite E1. replace (at1 vmultd 1) with vmultd by (unfold at1; lia). apply nanc_upd, (nn_div_l _ _ HN), Hz.
Qed.

Lemma residuals_nan (v : tvars (N := N)) resmax s : t_mcon v = 1 -> t_nact v = 1 \/ t_nact v = 0 -> t_ia v 1 = Some 1 ->
  nanv s a -> (t_nact v = 1 -> nanc s vmultd) ->
  wp (tr_residuals n 0 a b dxnew vmultd v resmax) s (fun _ t => same (fun q => q <> vmultd) s t /\ nanc t vmultd).
Proof.
  intros H1 H2 H3 HA H4. unfold tr_residuals. rewrite H1. destruct H2 as [H2|H2]; rewrite H2.
  - unfold loop. change (Z.to_nat (1 - (1 + 1) + 1)) with 0%nat. cbn [loopn]. apply wp_ret. split; [apply same_refl|auto].
  - unfold loop. change (Z.to_nat (1 - (0 + 1) + 1)) with 1%nat. cbn [loopn]. apply wp_bind, wp_bind.
    unfold iget. cbn [Z.eqb Z.leb Z.compare Pos.compare Pos.compare_cont andb Z.add]. rewrite H3. apply wp_ret.
    apply wp_bind, wp_lift2, wp_ret, wp_ld. intros bk _. apply wp_bind, wp_lift2, wp_ret, wp_lift1, wp_ld. intros bk2 _.
    apply wp_bind.
    apply wp_loopJ with (fun i (r : N * N) t => t = s /\ (1 < i -> isnan (fst r))).
    + lia.
    + split; [reflexivity|lia].
    + intros i [sp ab] t Hi [-> _]. apply wp_bind, wp_lift2, wp_ld. intros u E. apply wp_ld. intros w _. apply wp_ret.
      split; [reflexivity|]. intros _. cbn. apply (nn_add_r _ _ HN), (nn_mul_l _ _ HN), (HA i Hi). rewrite <- E. f_equal; unfold at1, at2; lia.
    + intros [sp ab] t [-> K]. specialize (K ltac:(lia)). cbn [fst] in K. rewrite negl_nan by exact K.
      apply wp_assign, wp_ret, wp_ret. replace (at1 vmultd 1) with vmultd by (unfold at1; lia).
      split; [apply same_upd; lia|apply nanc_upd, K].
Qed.

Lemma step_nan l s : ninv3 l s -> wp (step l) s post.
Proof.
  destruct l as [l v]. intros (HA & HD & H). unfold tr_step. cbn [fst snd] in *.
  destruct l.
  - apply wp_ret. split; [exact HA|]. split; [exact HD|]. cbn. intuition.
  - destruct H as (H1 & H2 & H3 & H4 & H5). specialize (H5 eq_refl). unfold tr_70. apply wp_bind.
    eapply wp_weak; [apply progress_nan; assumption|]. intros r t [-> [o ->]]. cbn [t_icon t_nact u_optold u_nactx u_icount]. rewrite H3.
    destruct H1 as [H1|[H1 H6]]; rewrite H1; cbn [Z.leb Z.compare Pos.compare Pos.compare_cont].
    2:{ apply wp_ret. split; [exact HA|]. split; [exact HD|]. cbn. tauto. }
    unfold tr_add. cbn [t_icon t_nact t_ia u_optold u_nactx u_icount]. rewrite H1, H3. apply wp_bind.
    unfold iget. cbn [Z.eqb Z.leb Z.compare Pos.compare Pos.compare_cont andb Z.add]. rewrite H4. apply wp_ret.
    apply wp_bind. eapply wp_weak.
    { apply fill_nan. intros i t Hi K1 K2. apply wp_ld. intros u E. split; [reflexivity|].
      apply (HA i Hi). rewrite K1 in E; [|unfold at2, dxnew, sdirn, vmultc, zdota, z; lia]. unfold at2 in E. unfold at1.
      replace (a + (i - 1)) with (a + ((1 - 1) * n + (i - 1))) by lia. exact E. }
    intros _ s1 [K1 K2]. apply wp_bind. eapply wp_weak; [apply rotate_nan, K2|]. intros tot s2 [Ht K3]. cbv zeta.
    unfold zero. rewrite (nn_eq _ _ HN) by exact Ht. cbn [negb Z.add].
    repeat first [apply wp_assign | apply wp_lift2 | apply wp_bind | apply wp_ret | apply wp_ld; intros ? _].
    assert (L : same low s s2).
    { eapply same_trans; [eapply same_weak; [exact K1|]|eapply same_weak; [exact K3|]]; cbn; unfold dxnew, sdirn, vmultc, zdota; lia. }
    set (s3 := upd _ _ _).
    assert (L3 : same low s s3).
    { unfold s3. do 3 (eapply same_trans; [|apply same_upd; unfold at1, vmultc, zdota; lia]). exact L. }
    split; [eapply nanv_same; [exact HA|exact L3|]; intros i Hi; unfold at1, z; lia|].
    split; [eapply dxst_same; [exact HD|exact L3|]; intros q Hq; unfold z; lia|].
    cbn. do 5 (split; [auto|]). intros u. unfold s3. cbn. unfold at1, vmultc.
    destruct (Z.eqb_spec zdota (zdota + n + (1 - 1))); [lia|]. destruct (Z.eqb_spec zdota (zdota + n + (1 - 1))); [lia|].
    replace (zdota + (1 - 1)) with zdota by lia. rewrite Z.eqb_refl. intros [= <-]. exact Ht.
  - destruct H as (-> & H1 & H2 & H3 & H4 & H5). unfold tr_210. rewrite H1, H2, H3. unfold iget, iput.
    cbn [Z.eqb Z.leb Z.compare Pos.compare Pos.compare_cont andb Z.add]. rewrite H4.
    cbn [Z.ltb Z.compare Pos.eqb negb].
    do 4 apply wp_bind, wp_ret. cbn [t_mcon u_ia]. rewrite ?H2. apply wp_ret.
    split; [exact HA|]. split; [exact HD|]. cbn. auto 8.
  - destruct H as (H1 & H2 & H3 & H4 & H5). unfold tr_260, tr_last. cbn [t_mcon u_nact u_ia]. rewrite H1, H2, H3. cbn [Z.ltb Z.compare Pos.compare Pos.compare_cont Z.sub Z.add Z.opp Z.pos_sub].
    apply wp_bind, wp_ret. apply wp_ret. split; [exact HA|]. split; [exact HD|]. cbn. auto 8.
  - destruct H as (H1 & H2 & H3). unfold tr_320. apply wp_bind.
    apply wp_weak with (fun temp t => t = s /\ (t_nact v = 1 -> isnan temp)).
    { apply wp_lift2, wp_ret, wp_ld. intros u E. split; [reflexivity|]. intros E1. apply (nn_div_r _ _ HN).
      destruct H3 as [[_ H3]|[H3 _]]; [|lia]. apply H3. rewrite <- E, E1. f_equal; unfold at1; lia. }
    intros temp t [-> Et]. apply wp_bind. eapply wp_weak.
    { apply fill_nan. intros i t Hi K1 K2. apply wp_lift2, wp_ret, wp_ld. intros u E. split; [reflexivity|].
      destruct H3 as [[H3 _]|[H3 H4]]; [apply (nn_mul_l _ _ HN), Et, H3|].
      apply (nn_mul_r _ _ HN), (H4 i Hi). rewrite K1 in E; [|unfold at2; rewrite H3; unfold sdirn, vmultc, zdota, z; lia].
      rewrite <- E, H3; f_equal; unfold at1, at2, z; lia. }
    intros _ t [K1 K2]. apply wp_ret.
    assert (L : same low s t) by (eapply same_weak; [exact K1|]; cbn; unfold sdirn, vmultc, zdota; lia).
    split; [eapply nanv_same; [exact HA|exact L|]; intros i Hi; unfold at1, z; lia|].
    split; [eapply dxst_same; [exact HD|exact L|]; intros q Hq; unfold z; lia|]. cbn. tauto.
  - destruct H as (H1 & H2 & H3 & H4). unfold tr_340. apply wp_bind. eapply wp_weak; [apply stpful_nan; assumption|].
    intros r t [-> (st & -> & Hst)]. rewrite H1. cbv zeta. cbn [Z.eqb andb].
    assert (F : forall t, same (fun q => q < dxnew) s t ->
      wp (loop 1 n (fun i _ => assign (at1 dxnew i) (lift2 nadd (ld (at1 dx i)) (lift2 nmul (ret st) (ld (at1 sdirn i))))) tt) t
        (fun _ u => same (fun q => ~ (dxnew <= q < dxnew + n)) t u /\ nanv u dxnew)).
    { intros t _. apply fill_nan. intros i u Hi K1 K2. apply wp_lift2, wp_ld. intros d _. apply wp_lift2, wp_ret, wp_ld. intros w _.
      split; [reflexivity|]. apply (nn_add_r _ _ HN), (nn_mul_l _ _ HN), Hst. }
    apply wp_bind. eapply wp_weak; [apply F, same_refl|]. intros _ s1 [K1 K2].
    assert (L1 : same (fun q => q < dxnew) s s1) by (eapply same_weak; [exact K1|]; cbn; lia).
    apply wp_bind, wp_ret, wp_bind. eapply wp_weak; [apply vmultd_nan; assumption|]. intros _ s2 [K3 K4].
    assert (L2 : same (fun q => q < dxnew) s s2) by (eapply same_trans; eassumption).
    apply wp_bind. eapply wp_weak; [apply F, L2|]. intros _ s3 [K5 K6].
    assert (L3 : same (fun q => q < dxnew) s s3) by (eapply same_trans; [exact L2|]; eapply same_weak; [exact K5|]; cbn; lia).
    assert (LA : forall t, same (fun q => q < dxnew) s t -> nanv t a).
    { intros t L. eapply nanv_same; [exact HA|exact L|]; intros i Hi; unfold at1, dxnew, sdirn, vmultc, zdota, z; lia. }
    apply wp_bind. eapply wp_weak.
    { apply residuals_nan; [assumption|assumption|assumption|apply LA, L3|]. intros E u Hu. rewrite K5 in Hu; [|unfold vmultd; lia]. apply K4; assumption. }
    intros _ s4 [K7 K8].
    assert (L4 : same (fun q => q < dxnew) s s4) by (eapply same_trans; [exact L3|]; eapply same_weak; [exact K7|]; cbn; unfold vmultd; lia).
    assert (X4 : nanv s4 dxnew) by (eapply nanv_same; [exact K6|exact K7|]; intros i Hi; unfold at1, vmultd; lia).
    apply wp_bind. unfold LOOP, loop at 1. change (Z.to_nat (1 - 1 + 1)) with 1%nat. cbn [loopn].
    apply wp_bind, wp_bind, wp_ld. intros d Ed. unfold zero at 1. rewrite (nn_lt _ _ HN).
    2:{ apply K8. rewrite <- Ed. f_equal; unfold at1; lia. }
    do 2 apply wp_ret. apply wp_bind. eapply wp_weak.
    { apply fill_nan. intros i t Hi J1 J2. apply wp_lift2, wp_lift2, wp_ret, wp_ld. intros u _. apply wp_lift2, wp_ret, wp_ld. intros w Ew.
      split; [reflexivity|]. apply (nn_add_r _ _ HN), (nn_mul_r _ _ HN), (X4 i Hi). rewrite J1 in Ew; [exact Ew|].
      unfold at1, dxnew, sdirn, vmultc, zdota, z. lia. }
    intros _ s5 [K9 K10].
    assert (X5 : nanv s5 a).
    { eapply nanv_same; [apply (LA _ L4)|exact K9|]. intros i Hi. unfold at1. lia. }
    apply wp_bind. eapply wp_weak with (P := fun _ t => same (fun q => q < z) s5 t).
    { unfold loop. change (Z.to_nat (1 - 1 + 1)) with 1%nat. cbn [loopn].
      repeat first [apply wp_assign | apply wp_lift2 | apply wp_bind | apply wp_ret | apply wp_ld; intros ? _].
      apply same_upd. unfold at1, vmultc, zdota. lia. }
    intros _ s6 L6. cbn [Z.ltb Z.compare]. rewrite (nn_eq _ _ HN) by exact Hst. apply wp_ret.
    assert (X6 : nanv s6 dx) by (eapply nanv_same; [exact K10|exact L6|]; intros i Hi; unfold at1, z; lia).
    split; [eapply nanv_same; [exact X5|exact L6|]; intros i Hi; unfold at1, z; lia|]. split; [right; exact X6|].
    cbn. tauto.
  - unfold tr_480. unfold iput. cbn [Z.eqb Z.leb Z.compare Pos.compare Pos.compare_cont andb Z.add].
    apply wp_bind, wp_ret. apply wp_bind, wp_assign, wp_ret, wp_ret.
    assert (L : same low s (upd s (at1 vmultc 1) zero)) by (apply same_upd; unfold at1, vmultc, zdota; lia).
    split; [eapply nanv_same; [exact HA|exact L|]; intros i Hi; unfold at1, z; lia|].
    split; [eapply dxst_same; [exact HD|exact L|]; intros q Hq; unfold z; lia|]. cbn [fst snd t_nact t_mcon t_icon t_ia u_mcon u_icon u_ia].
    split; [|cbn; repeat split; discriminate]. destruct H as [H|[H K]]; [left; exact H|right]. split; [exact H|].
    eapply nanv_same; [exact K|exact L|]; intros i Hi; unfold at1, z; lia.
  - contradiction.
Qed.

(** For every number of steps, trstlp does not return. *)
Theorem trstlp_nan fuel s : nanv s a -> wp (trstlp n 0 a b rho dx z zdota vmultc sdirn dxnew vmultd fuel) s (fun _ _ => False).
Proof.
  intros HA.
  unfold trstlp, tr_init. apply wp_bind, wp_bind.
  apply wp_loopJ with (fun i _ t => same (fun q => q < dx) s t /\ forall j, 1 <= j < i -> mm t (at1 dx j) = Some (nZ 0)).
  - lia.
  - split; [apply same_refl|lia].
  - intros i _ t1 Hi [K1 K2]. apply wp_bind.
    apply wp_loopJ with (fun _ _ t2 => same (fun q => q < z) t1 t2).
    + lia.
    + apply same_refl.
    + intros j _ t2 Hj L. apply wp_assign, wp_ret. eapply same_trans; [exact L|]. apply same_upd. unfold at2. nia.
    + intros _ t2 L. apply wp_bind, wp_assign, wp_ret, wp_assign, wp_ret.
      assert (L2 : same (fun q => q < z) t1 (upd t2 (at2 z n i i) one)) by (eapply same_trans; [exact L|]; apply same_upd; unfold at2; nia).
      split.
      * intros q Hq. cbn [mm upd]. destruct (Z.eqb_spec q (at1 dx i)) as [E|]; [unfold at1 in E; lia|].
        etransitivity; [apply L2; unfold z; lia|apply K1, Hq].
      * intros j Hj. cbn [mm upd]. destruct (Z.eqb_spec (at1 dx j) (at1 dx i)) as [E|E]; [reflexivity|].
        etransitivity; [apply L2; unfold at1, z; lia|]. apply K2. assert (j <> i) by (intros ->; contradiction). lia.
  - intros _ t1 [K1 K2]. unfold loop. change (Z.to_nat (0 - 1 + 1)) with 0%nat. cbn [loopn]. do 2 apply wp_bind, wp_ret.
    unfold zero. rewrite (nn_zero _ _ HN). apply wp_ret.
    apply wp_machine with ninv3; [|intros l u; apply step_nan].
    split; [eapply nanv_same; [exact HA|exact K1|]; intros i Hi; unfold at1; lia|].
    split; [left; intros i Hi; apply K2; lia|]. left. reflexivity.
Qed.
End Nan.
