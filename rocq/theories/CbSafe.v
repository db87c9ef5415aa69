(** * Accesses of the functions of cobyla.c *)
From Coq Require Import ZArith List Bool Lia.
From Verif Require Import Num BqLang BqModel BqWp BqSafe BqRun CbModel.
Import ListNotations.
Local Open Scope Z_scope.

(** The first [k] elements are set to indices of constraints *)
Definition iok (k : Z) (ia : iarr) : Prop := forall j, 1 <= j <= k -> exists c, ia j = Some c /\ 1 <= c <= k.

Section Iact.
Context {N : Num}.
Variables (W Rd : Z -> Prop) (C : Z -> option N).
Lemma iget_safe m ia mcon k : mcon <= m + 1 -> iok mcon ia -> 0 <= k <= mcon ->
  safe W Rd C (iget m ia k) (fun c => 1 <= c <= mcon /\ 1 <= k).
Proof.
  intros Hm Hi Hk s G. unfold iget. destruct (Z.eqb_spec k 0) as [E|E]; [apply frame_refl|].
  destruct (Hi k) as (c & Ec & Hc); [lia|].
  destruct (Z.leb_spec 1 k); [|lia]. destruct (Z.leb_spec k (m + 1)); [|lia]. cbn [andb]. rewrite Ec. cbn.
  repeat split; auto; try lia; apply G.
Qed.

Lemma iput_safe m ia mcon k v : 0 <= k <= m + 1 -> iok mcon ia -> 1 <= v <= mcon ->
  safe W Rd C (iput m ia k v) (iok mcon).
Proof.
  intros Hk Hi Hv s G. unfold iput. destruct (Z.eqb_spec k 0) as [E|E]; [apply frame_refl|].
  destruct (Z.leb_spec 1 k); [|lia]. destruct (Z.leb_spec k (m + 1)); [|lia]. cbn [andb]. cbn.
  split; [|split; [auto|apply frame_refl]].
  intros j Hj. destruct (Z.eqb_spec j k); [exists v; auto|apply Hi, Hj].
Qed.

Lemma iput_grow m ia k v : 1 <= k <= m + 1 -> iok (k - 1) ia -> 1 <= v <= k ->
  safe W Rd C (iput m ia k v) (iok k).
Proof.
  intros Hk Hi Hv s G. unfold iput. destruct (Z.eqb_spec k 0) as [E|E]; [lia|].
  destruct (Z.leb_spec 1 k); [|lia]. destruct (Z.leb_spec k (m + 1)); [|lia]. cbn [andb]. cbn.
  split; [|split; [auto|apply frame_refl]].
  intros j Hj. destruct (Z.eqb_spec j k); [exists v; split; auto; lia|]. destruct (Hi j) as (c & E1 & E2); [lia|].
  exists c. split; auto. lia.
Qed.

Lemma iput_same m ia k v : 1 <= k <= m + 1 -> safe W Rd C (iput m ia k v) (fun ia' => ia' = fun j => if (j =? k)%Z then Some v else ia j).
Proof.
  intros Hk s G. unfold iput. destruct (Z.eqb_spec k 0) as [E|E]; [lia|].
  destruct (Z.leb_spec 1 k); [|lia]. destruct (Z.leb_spec k (m + 1)); [|lia]. cbn [andb]. cbn.
  split; [reflexivity|split; [auto|apply frame_refl]].
Qed.
End Iact.

Ltac cf1 :=
  lazymatch goal with
  | |- safe _ _ _ (ret _) _ => apply safe_ret; try exact I
  | |- safe _ _ _ (bind _ _) _ => apply safe_bindT; [|intro]
  | |- safe _ _ _ (ld _) _ => apply safe_ld; rd
  | |- safe _ _ _ (assign _ _) _ => apply safe_assign; [eassumption|eassumption|rd|]
  | |- safe _ _ _ (assign_add _ _) _ => apply safe_assign_add; [eassumption|eassumption|rd|]
  | |- safe _ _ _ (assign_sub _ _) _ => apply safe_assign_sub; [eassumption|eassumption|rd|]
  | |- safe _ _ _ (lift1 _ _) _ => apply safe_lift1
  | |- safe _ _ _ (lift2 _ _ _) _ => apply safe_lift2
  | |- safe _ _ _ (emin _ _) _ => apply safe_lift2
  | |- safe _ _ _ (emax _ _) _ => apply safe_lift2
  | |- safe _ _ _ (eabs _) _ => apply safe_lift1
  | |- safe _ _ _ (esqrt _) _ => apply safe_lift1
  | |- safe _ _ _ (ifp _ _ _) _ => apply safe_ifp
  | |- safe _ _ _ (andp _ _) _ => apply safe_andp
  | |- safe _ _ _ (orp _ _) _ => apply safe_orp
  | |- safe _ _ _ (LOOP _ _ _) T => unfold LOOP; apply safe_loop; intros
  | |- safe _ _ _ (LOOP_ _ _) T => unfold LOOP_; apply safe_loop; intros
  | |- safe _ _ _ (loop _ _ _ _) T => apply safe_loop; intros
  | |- safe _ _ _ (if ?c then _ else _) _ => let E := fresh "E" in destruct c eqn:E
  | |- safe _ _ _ (match ?c with _ => _ end) _ => destruct c
  | |- safe _ _ _ (let _ := _ in _) _ => cbv zeta
  end.
Ltac cf := intros; repeat cf1.

Section Safe.
Context {N : Num}.
Hypothesis Heq : neq (zero : N) zero = true.
Variables (W Rd : Z -> Prop) (C : Z -> option N).
Hypothesis WRd : forall a, W a -> Rd a.
Hypothesis CW : forall a v, C a = Some v -> ~ W a.
Notation safe := (safe W Rd C).

Section Trstlp.
Variables (n m a b : Z) (rho : N) (dx z zdota vmultc sdirn dxnew vmultd : Z).
Hypothesis (Hn : 1 <= n) (Hm : 0 <= m).
Hypothesis (Ha : mat Rd a n 1 n 1 (m + 1)) (Hb : arr Rd b 1 (m + 1)).
(** The index 0 is the last element of the array before *)
Hypothesis (Hdx : arr W dx 1 n) (Hz : mat W z n 1 n 0 n) (Hzd : arr W zdota 0 n) (Hvc : arr W vmultc 0 (m + 1))
  (Hsd : arr W sdirn 1 n) (Hdn : arr W dxnew 1 n) (Hvd : arr W vmultd 0 (m + 1)).

Definition tbase (v : tvars (N := N)) : Prop :=
  (t_mcon v = m \/ t_mcon v = m + 1) /\ 0 <= t_nact v <= n /\ t_nact v <= t_mcon v /\ iok (t_mcon v) (t_ia v).
Definition tinv (l : tlabel * tvars (N := N)) : Prop :=
  let v := snd l in
  tbase v /\
  match fst l with
  | T60 | T70 => 1 <= t_icon v <= t_mcon v
  | T210 kk => t_nact v <= t_icon v <= t_mcon v /\ 1 <= kk <= t_mcon v
  | T260 => 1 <= t_icon v <= t_nact v
  | T320 | T340 | T480 | T490 => True
  end.
Definition tpost (r : tlabel * tvars (N := N) + Z) : Prop := match r with inl l => tinv l | inr r => r = 0 \/ r = 1 end.

Lemma tgoto_safe l v : tinv (l, v) -> safe (tgoto l v) tpost.
Proof. intros H. apply safe_ret, H. Qed.

Lemma tr_zdot_safe k : 0 <= k <= n -> safe (tr_zdot n z dxnew k) T.
Proof. intros Hk. unfold tr_zdot. cf. Qed.

Lemma tr_init_safe : safe (tr_init n m b dx z vmultc sdirn) tinv.
Proof.
  unfold tr_init. apply safe_bindT; [cf|]. intros _.
  apply safe_bind with (P := fun r : N * Z => r = (zero, 0) \/ 1 <= snd r <= m).
  { unfold LOOP. apply safe_loopP; [|auto]. intros k [rm ic] Hk H. apply safe_bindT; [cf|]. intros bk. apply safe_ret.
    destruct (nlt rm bk); cbn; auto. }
  intros [rm ic] H. apply safe_bind with (P := iok m).
  { unfold LOOP. apply (safe_weak W Rd C _ (iok (m + 1 - 1))); [|intros ia; replace (m + 1 - 1) with m by lia; auto].
    apply (safe_loopJ W Rd C (fun k ia => iok (k - 1) ia)); [lia| |intros j Hj; lia].
    intros k ia Hk Hi. eapply safe_bind; [apply (iput_grow W Rd C m ia k k); auto; lia|]. intros ia' Hi'. cbv beta in Hi'.
    cf. replace (k + 1 - 1) with k by lia. exact Hi'. }
  intros ia Hi. destruct (neq rm zero) eqn:E.
  - apply safe_ret. split; cbn; [|exact I]. unfold tbase. cbn. repeat split; auto; lia.
  - apply safe_bindT; [cf|]. intros _. apply safe_ret. split; cbn; [unfold tbase; cbn; repeat split; auto; lia|].
    destruct H as [H|H]; [inversion H; subst; congruence|exact H].
Qed.

Lemma tr_move_safe mcon ia k : mcon <= m + 1 -> iok mcon ia -> 1 <= k -> k + 1 <= n -> k + 1 <= mcon ->
  safe (tr_move n m a z zdota vmultc ia k) (iok mcon).
Proof.
  intros Hm1 Hi Hk Hk1 Hk2. unfold tr_move. cbv zeta. eapply safe_bind; [apply (iget_safe W Rd C m ia mcon); auto; lia|].
  intros kw [Hkw _].
  do 4 (apply safe_bindT; [cf|intro]). do 3 (apply safe_bindT; [cf|intro]).
  eapply safe_bind; [apply (iput_safe W Rd C m ia mcon); auto; lia|]. intros ia' Hi'. apply safe_bindT; [cf|]. intros _.
  apply safe_ret, Hi'.
Qed.

Lemma tr_last_safe mcon ia icon nact : mcon <= m + 1 -> iok mcon ia -> 1 <= icon -> 0 <= nact <= n -> nact <= mcon ->
  safe (tr_last n m a z zdota vmultc ia icon nact) (iok mcon).
Proof.
  intros Hm1 Hi Hic Hna Hnm. unfold tr_last. destruct (Z.ltb_spec icon nact); [|apply safe_ret, Hi].
  eapply safe_bind; [apply (iget_safe W Rd C m ia mcon); auto; lia|]. intros isave [His _].
  apply safe_bindT; [cf|]. intros vs. apply safe_bind with (P := iok mcon).
  { apply safe_loopP; [|exact Hi]. intros k ia' Hk Hi'. apply tr_move_safe; auto; lia. }
  intros ia' Hi'. eapply safe_bind; [apply (iput_safe W Rd C m ia' mcon); auto; lia|]. intros ia2 Hi2. apply safe_bindT; [cf|].
  intros _. apply safe_ret, Hi2.
Qed.

Lemma tr_rotate_safe nact : 0 <= nact <= n -> safe (tr_rotate n z dxnew nact) (fun tot => nact = n -> tot = zero).
Proof.
  intros Hna. unfold tr_rotate.
  apply (safe_weak W Rd C _ (fun tot => n - nact + 1 = 1 -> tot = zero)); [|intros tot Q1 Q2; apply Q1; lia].
  apply (safe_loopJ W Rd C (fun t tot => t = 1 -> tot = zero)); [lia| |auto].
  intros t tot Ht H. apply (safe_weak W Rd C _ T); [|intros tot' _ Q; exfalso; lia].
  apply safe_bindT; [apply tr_zdot_safe; lia|]. intros [sp spabs]. cbv zeta. destruct (neq tot zero) eqn:E; [cf|].
  assert (t <> 1) by (intros E1; specialize (H E1); subst tot; congruence). cf.
Qed.

Lemma tr_multipliers_safe mcon ia nact : mcon <= m + 1 -> iok mcon ia -> 0 <= nact <= n -> nact <= mcon ->
  safe (tr_multipliers n m a z zdota vmultc dxnew vmultd ia nact) T.
Proof.
  intros Hm1 Hi Hna Hnm. unfold tr_multipliers. apply safe_loop. intros t ratio Ht. cbv zeta.
  apply safe_bindT; [apply tr_zdot_safe; lia|]. intros [zv za]. cf1; [|cf].
  apply safe_bindT; [cf|]. intros temp. apply safe_bindT.
  { cf1; [|cf]. eapply safe_bind; [apply (iget_safe W Rd C m ia mcon); auto; lia|]. intros c [Hc Hk]. cf. }
  intros ratio'. apply safe_bindT; [|intros _; cf]. cf1; [|cf]. apply Z.leb_le in E0.
  eapply safe_bind; [apply (iget_safe W Rd C m ia mcon); auto; lia|]. intros c [Hc Hk]. cf.
Qed.

Ltac tp := apply tgoto_safe; unfold tinv, tbase in *; cbn in *.

Lemma tr_progress_safe v : tbase v -> safe (tr_progress n m a dx v)
  (fun r => match r with None => True | Some w => tbase w /\ t_icon w = t_icon v /\ t_mcon w = t_mcon v /\ t_nact w = t_nact v end).
Proof.
  intros B. pose proof B as (H1 & H2 & H3 & H4). unfold tr_progress. apply safe_bindT; [cf|]. intros o. apply safe_ret.
  repeat match goal with |- context [if ?c then _ else _] => destruct c end; auto.
Qed.

Lemma tr_add_safe v : tinv (T70, v) -> t_nact v < t_icon v -> safe (tr_add n m a z zdota vmultc dxnew vmultd v) tpost.
Proof.
  intros [(H1 & H2 & H3 & H4) H5] H6. cbn [fst snd] in *. unfold tr_add. cbv zeta.
  eapply safe_bind; [apply (iget_safe W Rd C m (t_ia v) (t_mcon v)); auto; lia|]. intros kk [Hkk _].
  apply safe_bindT; [cf|]. intros _. eapply safe_bind; [apply tr_rotate_safe, H2|]. intros tot Htot. cbv beta in Htot.
  destruct (neq tot zero) eqn:E; cbn [negb].
  2:{ assert (t_nact v <> n) by (intros Q; rewrite (Htot Q) in E; congruence).
      do 3 (apply safe_bindT; [cf|intros _]). tp. repeat split; auto; try lia. }
  apply safe_bindT; [apply tr_multipliers_safe with (mcon := t_mcon v); auto; lia|]. intros ratio.
  destruct (nlt ratio zero); [tp; repeat split; auto; lia|].
  apply safe_bindT; [cf|]. intros _. eapply safe_bind; [apply tr_last_safe with (mcon := t_mcon v); auto; lia|].
  intros ia Hi. apply safe_bindT; [cf|]. intros temp. destruct (neq temp zero); [tp; repeat split; auto; lia|].
  do 3 (apply safe_bindT; [cf|intros _]). tp. repeat split; auto; lia.
Qed.

Lemma tr_70_safe v : tinv (T70, v) -> safe (tr_70 n m a dx z zdota vmultc dxnew vmultd v) tpost.
Proof.
  intros [B H]. cbn [fst snd] in *. unfold tr_70. eapply safe_bind; [apply tr_progress_safe, B|]. intros [w|].
  - intros (B' & E1 & E2 & E3). destruct (Z.leb_spec (t_icon w) (t_nact w)).
    + apply tgoto_safe. split; cbn [fst snd]; [exact B'|lia].
    + apply tr_add_safe; [split; cbn [fst snd]; [exact B'|lia]|lia].
  - intros _. apply tgoto_safe. split; cbn [fst snd]; auto.
Qed.

Lemma tr_210_safe kk v : tinv (T210 kk, v) -> safe (tr_210 n m a z zdota vmultc sdirn kk v) tpost.
Proof.
  intros [(H1 & H2 & H3 & H4) [H5 H6]]. cbn [fst snd] in *. unfold tr_210. cbv zeta.
  eapply safe_bind; [apply (iget_safe W Rd C m (t_ia v) (t_mcon v)); auto; lia|]. intros c [Hc Hk].
  eapply safe_bind; [apply (iput_safe W Rd C m (t_ia v) (t_mcon v)); auto; lia|]. intros ia Hi.
  eapply safe_bind; [apply (iput_safe W Rd C m ia (t_mcon v)); auto; lia|]. intros ia' Hi'.
  apply safe_bind with (P := iok (t_mcon v)).
  { cf1; [|apply safe_ret, Hi']. do 4 (apply safe_bindT; [cf|intro]). do 3 (apply safe_bindT; [cf|intro]).
    eapply safe_bind; [apply (iget_safe W Rd C m ia' (t_mcon v)); auto; lia|]. intros c' [Hc' Hk'].
    eapply safe_bind; [apply (iput_safe W Rd C m ia' (t_mcon v)); auto; lia|]. intros ia2 Hi2.
    eapply safe_bind; [apply (iput_safe W Rd C m ia2 (t_mcon v)); auto; lia|]. intros ia3 Hi3.
    do 3 (apply safe_bindT; [cf|intro]). apply safe_ret, Hi3. }
  intros ia2 Hi2. cbn [t_mcon u_ia]. cf1; [tp; repeat split; auto; lia|].
  eapply safe_bind; [apply (iget_safe W Rd C m ia2 (t_mcon v)); auto; lia|]. intros kk' [Hkk' _].
  do 3 (apply safe_bindT; [cf|intro]). tp; repeat split; auto; lia.
Qed.

Lemma tr_260_safe v : tinv (T260, v) -> safe (tr_260 n m a z zdota vmultc sdirn v) tpost.
Proof.
  intros [(H1 & H2 & H3 & H4) H5]. cbn [fst snd] in *. unfold tr_260. cbv zeta.
  eapply safe_bind; [apply tr_last_safe with (mcon := t_mcon v); auto; lia|]. intros ia Hi. cbn [t_mcon u_ia u_nact].
  cf1; [tp; repeat split; auto; lia|]. do 2 (apply safe_bindT; [cf|intro]). tp; repeat split; auto; lia.
Qed.

Lemma tr_320_safe v : tinv (T320, v) -> safe (tr_320 n z zdota sdirn v) tpost.
Proof.
  intros [(H1 & H2 & H3 & H4) _]. cbn [fst snd] in *. unfold tr_320.
  do 2 (apply safe_bindT; [cf|intro]). tp; repeat split; auto; lia.
Qed.

Lemma tr_stpful_safe : safe (tr_stpful n rho dx sdirn) T.
Proof. unfold tr_stpful. apply safe_bindT; [cf|]. intros [[dd sd] ss]. cf. Qed.

Lemma tr_resmax_safe mcon ia nact : mcon <= m + 1 -> iok mcon ia -> nact <= mcon -> safe (tr_resmax n m a b dxnew ia nact) T.
Proof.
  intros Hm1 Hi Hna. unfold tr_resmax, LOOP at 1. apply safe_loop. intros k r Hk.
  eapply safe_bind; [apply (iget_safe W Rd C m ia mcon); auto; lia|]. intros kk [Hkk _]. cf.
Qed.

Lemma tr_vmultd_safe v : tbase v -> safe (tr_vmultd n m a z zdota dxnew vmultd v) T.
Proof.
  intros (H1 & H2 & H3 & H4). unfold tr_vmultd. apply safe_bindT.
  - apply safe_loop. intros t _ Ht. cbv zeta. apply safe_bindT; [apply tr_zdot_safe; lia|]. intros [zw za].
    apply safe_bindT; [cf|]. intros _. destruct (Z.ltb_spec (t_nact v + 1 - t) 2); [cf|].
    eapply safe_bind; [apply (iget_safe W Rd C m (t_ia v) (t_mcon v)); auto; lia|]. intros kk [Hkk _]. cf.
  - intros _. cf.
Qed.

Lemma tr_residuals_safe v r : tbase v -> safe (tr_residuals n m a b dxnew vmultd v r) T.
Proof.
  intros (H1 & H2 & H3 & H4). unfold tr_residuals. apply safe_loop. intros k _ Hk.
  eapply safe_bind; [apply (iget_safe W Rd C m (t_ia v) (t_mcon v)); auto; lia|]. intros kk [Hkk _].
  do 2 (apply safe_bindT; [cf|intro]). apply safe_bindT; [cf|]. intros [su sa]. cf.
Qed.

Lemma tr_340_safe v : tinv (T340, v) -> safe (tr_340 n m a b rho dx z zdota vmultc sdirn dxnew vmultd v) tpost.
Proof.
  intros [B _]. cbn [snd] in B. pose proof B as (H1 & H2 & H3 & H4). unfold tr_340. cbv zeta.
  apply safe_bindT; [apply tr_stpful_safe|]. intros [stpful|]; [|apply tgoto_safe; split; auto; exact Logic.I].
  cf1; [apply tgoto_safe; split; auto; exact Logic.I|].
  apply safe_bindT; [cf|]. intros _. apply safe_bindT.
  { cf1; [apply tr_resmax_safe with (mcon := t_mcon v); auto; lia|cf]. }
  intros rm. apply safe_bindT; [apply tr_vmultd_safe, B|]. intros _. apply safe_bindT; [cf|]. intros _.
  apply safe_bindT; [apply tr_residuals_safe, B|]. intros _.
  apply safe_bind with (P := fun r : N * Z => 0 <= snd r <= t_mcon v).
  { unfold LOOP. apply safe_loopP; [|cbn; lia]. intros k [ra ic] Hk Hr. cbn [snd] in Hr. apply safe_bindT; [cf|]. intros d.
    cf1; [|cf; auto]. apply safe_bindT; [cf|]. intros temp. apply safe_ret. destruct (nlt temp ra); cbn [snd]; lia. }
  intros [ra ic] Hic. cbn [snd] in Hic. do 2 (apply safe_bindT; [cf|intros _]).
  destruct (Z.ltb_spec 0 ic).
  - tp. repeat split; auto; lia.
  - cf1; [apply safe_ret; cbn; auto|]. tp. repeat split; auto; lia.
Qed.

Lemma tr_480_safe v : tinv (T480, v) -> safe (tr_480 m vmultc v) tpost.
Proof.
  intros [(H1 & H2 & H3 & H4) _]. cbn [fst snd] in *. unfold tr_480. cbv zeta.
  eapply safe_bind; [apply (iput_same W Rd C m (t_ia v)); lia|]. intros ia Hi. cbv beta in Hi. apply safe_bindT; [cf|]. intros _.
  tp. repeat split; auto; try lia. subst ia. intros j Hj. destruct (Z.eqb_spec j (m + 1)); [exists (m + 1); split; auto; lia|].
  destruct (H4 j) as (c & E1 & E2); [lia|]. exists c. split; auto. lia.
Qed.

Lemma trstlp_safe fuel : safe (trstlp n m a b rho dx z zdota vmultc sdirn dxnew vmultd fuel) (fun r => r = 0 \/ r = 1).
Proof.
  unfold trstlp. eapply safe_bind; [apply tr_init_safe|]. intros l Hl. cbv beta in Hl.
  apply (safe_machine W Rd C tinv); auto. clear l Hl. intros [l v] H. unfold tr_step. cbn [fst snd]. destruct l.
  - apply tgoto_safe. destruct H as [B H]. split; auto.
  - apply tr_70_safe, H.
  - apply tr_210_safe, H.
  - apply tr_260_safe, H.
  - apply tr_320_safe, H.
  - apply tr_340_safe, H.
  - apply tr_480_safe, H.
  - destruct H as [B H]. cf1; [apply tgoto_safe; split; auto|apply safe_ret; cbn; auto].
Qed.
End Trstlp.
End Safe.
