(** * Accesses of update, trsbox and altmov *)
From Coq Require Import ZArith List Bool Lia.
From Verif Require Import Num BqLang BqModel BqWp.
Import ListNotations.
Local Open Scope Z_scope.

Notation T := (fun _ => True).

(** The index of the element (i,j) of a triangle stored by columns *)
Lemma tri_range n j i ih : 1 <= i <= j -> j <= n -> 2 * ih = j * (j - 1) + 2 * (i - 1) -> 1 <= ih + 1 <= n * (n + 1) / 2.
Proof.
  intros Hi Hj E. assert (0 <= ih) by nia. split; [lia|]. apply Z.div_le_lower_bound; [lia|]. nia.
Qed.

Lemma diag_range n j : 1 <= j <= n -> 1 <= Z.quot (j + j * j) 2 <= n * (n + 1) / 2.
Proof.
  intros Hj. rewrite Z.quot_div_nonneg by nia. split.
  - apply Z.div_le_lower_bound; nia.
  - apply Z.div_le_mono; nia.
Qed.

(** One step of the proof that a program is safe.  Variables of index type need more care. *)
Ltac rd :=
  match goal with
  | H : arr ?W ?p _ _ |- ?W (at1 ?p _) => apply H; lia
  | H : mat ?W ?p ?l _ _ _ _ |- ?W (at2 ?p ?l _ _) => apply H; lia
  | H : rarr ?R ?p _ _ |- ?R (at1 ?p _) => apply H; lia
  | HW : forall a, ?W a -> ?R a, H : arr ?W ?p _ _ |- ?R (at1 ?p _) => apply HW, H; lia
  | HW : forall a, ?W a -> ?R a, H : mat ?W ?p ?l _ _ _ _ |- ?R (at2 ?p ?l _ _) => apply HW, H; lia
  end.

Ltac sf1 :=
  lazymatch goal with
  | |- safe _ _ _ (ret _) _ => apply safe_ret; try exact I
  | |- safe _ _ _ (bind _ _) _ => apply safe_bindT; [|intro]
  | |- safe _ _ _ (ld _) _ => apply safe_ld; rd
  | |- safe _ _ _ (assign _ _) _ => apply safe_assign; [eassumption|eassumption|rd|]
  | |- safe _ _ _ (assign_add _ _) _ => apply safe_assign_add; [eassumption|eassumption|rd|]
  | |- safe _ _ _ (assign_sub _ _) _ => apply safe_assign_sub; [eassumption|eassumption|rd|]
  | |- safe _ _ _ (lift1 _ _) _ => apply safe_lift1
  | |- safe _ _ _ (lift2 _ _ _) _ => apply safe_lift2
  | |- safe _ _ _ (emin _ _) _ => apply safe_lift2
  | |- safe _ _ _ (emax _ _) _ => apply safe_lift2
  | |- safe _ _ _ (eabs _) _ => apply safe_lift1
  | |- safe _ _ _ (esqrt _) _ => apply safe_lift1
  | |- safe _ _ _ (eclamp _ _ _) _ => unfold eclamp
  | |- safe _ _ _ (ifp _ _ _) _ => apply safe_ifp
  | |- safe _ _ _ (andp _ _) _ => apply safe_andp
  | |- safe _ _ _ (orp _ _) _ => apply safe_orp
  | |- safe _ _ _ (LOOP _ _ _) T => unfold LOOP; apply safe_loop; intros
  | |- safe _ _ _ (LOOP_ _ _) T => unfold LOOP_; apply safe_loop; intros
  | |- safe _ _ _ (loop _ _ _ _) T => apply safe_loop; intros
  | |- safe _ _ _ (if ?c then _ else _) _ => let E := fresh "E" in destruct c eqn:E
  | |- safe _ _ _ (match ?c with _ => _ end) _ => destruct c
  | |- safe _ _ _ (let _ := _ in _) _ => cbv zeta
  end.
Ltac sf := repeat sf1.

Section Safe.
Context {N : Num}.
Variables (W Rd : Z -> Prop) (C : Z -> option N).
Hypothesis WRd : forall a, W a -> Rd a.
Hypothesis CW : forall a v, C a = Some v -> ~ W a.
Notation safe := (safe W Rd C).

Lemma update_safe n npt bmat zmat ndim vlag beta denom knew w :
  2 <= n -> n + 2 <= npt -> ndim = npt + n -> 0 <= knew <= npt ->
  mat W bmat ndim 0 ndim 1 n -> mat W zmat npt 0 npt 1 (npt - n - 1) -> arr W vlag 0 ndim ->
  arr W w 1 ndim -> arr Rd w 0 ndim ->
  safe (update n npt bmat zmat ndim vlag beta denom knew w) T.
Proof.
  intros Hn Hnpt Hnd Hk Hb Hz Hv Hw Rw. unfold update.
  sf.
Qed.

(** ** trsbox *)
Section Trsbox.
Variables (n npt xpt xopt gopt hq pq sl su : Z) (delta : N) (xnew d gnew xbdi s hs hred : Z).
Hypothesis (Hn : 2 <= n) (Hnpt : n + 2 <= npt).
Hypothesis (Hxpt : mat Rd xpt npt 0 npt 1 n) (Hxopt : arr Rd xopt 1 n) (Hgopt : arr Rd gopt 1 n)
  (Hhq : arr Rd hq 1 (n * (n + 1) / 2)) (Hpq : arr Rd pq 0 npt) (Hsl : arr Rd sl 1 n) (Hsu : arr Rd su 1 n)
  (Hxnew : arr W xnew 1 n) (Hd : arr W d 1 n) (Hgnew : arr W gnew 1 n) (Hxbdi : arr W xbdi 1 n) (Hs : arr W s 1 n)
  (Hhs : arr W hs 1 n) (Hhred : arr W hred 1 n).

Definition tinv (l : tlabel * tvars (N := N)) : Prop := 0 <= t_iact (snd l) <= n.
Notation tpost := (fun r : tlabel * tvars + tvars => match r with inl l => tinv l | inr _ => True end).

Lemma trs_init_safe : safe (trs_init n xopt gopt sl su delta d gnew xbdi) (fun v => t_iact v = 0).
Proof. unfold trs_init. sf. reflexivity. Qed.

Lemma trs_20_safe v : 0 <= t_iact v <= n -> safe (trs_20 v) tpost.
Proof. intros H. destruct v. cbn in H. unfold trs_20. sf. exact H. Qed.

Lemma trs_30_safe v : 0 <= t_iact v <= n -> safe (trs_30 n gnew xbdi s v) tpost.
Proof. intros H. destruct v. cbn in H. unfold trs_30. sf; exact H. Qed.

Lemma trs_50_safe v : 0 <= t_iact v <= n -> safe (trs_50 n xopt sl su d gnew xbdi s hs v) tpost.
Proof.
  intros H. destruct v. cbn in H. unfold trs_50.
  apply safe_bindT; [sf|]. intros [[resid ds] shs]. sf1; [sf; exact H|].
  do 3 (apply safe_bindT; [sf|intro]).
  apply safe_bind with (P := fun r : N * Z => 0 <= snd r <= n).
  - unfold LOOP. apply safe_loopP; [|cbn; lia]. intros i [stplen iact] Hi Hp. sf; cbn [snd] in *; try lia.
  - intros [stplen iact] Hia. cbn [snd] in Hia.
    apply safe_bindT; [sf|]. intros [[[[[sdec iterc] crv] ggsav] gredsq] qred].
    sf; exact Hia.
Qed.

Lemma trs_90_safe v : 0 <= t_iact v <= n -> safe (trs_90 v) tpost.
Proof. intros H. destruct v. cbn in H. unfold trs_90. sf. exact H. Qed.

Lemma trs_100_safe v : 0 <= t_iact v <= n -> safe (trs_100 n d gnew xbdi s v) tpost.
Proof. intros H. destruct v. cbn in H. unfold trs_100. sf; exact H. Qed.

Lemma trs_120_safe v : 0 <= t_iact v <= n -> safe (trs_120 n xopt sl su d gnew xbdi s v) tpost.
Proof.
  intros H. destruct v. cbn in H. unfold trs_120. cbv zeta.
  apply safe_bindT; [sf|]. intros temp. sf1; [sf; exact H|].
  apply safe_bindT; [sf|]. intros _.
  eapply safe_bind.
  - apply (safe_loopxP W Rd C (fun r : N * Z * N => 0 <= snd (fst r) <= n) (fun r : N * Z * N * Z => 0 <= snd (fst (fst r)) <= n)).
    + intros i [[angbd iact] xsav] Hi Hp. cbn [fst snd] in Hp.
      sf1; [sf| |sf; exact Hp].
      do 2 (apply safe_bindT; [sf|intro]).
      sf1; [sf; exact Hp|]. sf1; [sf; exact Hp|].
      do 3 (apply safe_bindT; [sf|intro]).
      apply safe_bind with (P := fun r : N * Z * N => 0 <= snd (fst r) <= n); [sf; cbn; lia|].
      intros [[angbd1 iact1] xsav1] Hp1. cbn [fst snd] in Hp1.
      do 2 (apply safe_bindT; [sf|intro]).
      apply safe_bind with (P := fun r : N * Z * N => 0 <= snd (fst r) <= n); [sf; cbn; lia|].
      intros [[angbd2 iact2] xsav2] Hp2. sf. exact Hp2.
    + cbn. lia.
  - intros [[[angbd iact] xsav]|[[[angbd iact] xsav] nact]] Hr; sf; exact Hr.
Qed.

Lemma trs_150_safe v : 0 <= t_iact v <= n -> safe (trs_150 n d gnew xbdi s hs hred v) tpost.
Proof.
  intros H. destruct v. cbn in H. unfold trs_150. cbv zeta.
  apply safe_bindT; [sf|]. intros [[shs dhs] dhd].
  eapply safe_bind; [apply safe_trunc; lia|]. intros iu Hiu.
  sf; exact H.
Qed.

Lemma trs_190_safe : safe (trs_190 n xopt sl su xnew d xbdi) T.
Proof. unfold trs_190. sf. Qed.

Lemma trs_210_safe v : 0 <= t_iact v <= n -> safe (trs_210 n npt xpt hq pq s hs hred v) tpost.
Proof.
  intros H. unfold trs_210. cbv zeta.
  apply safe_bindT.
  - apply (safe_weak W Rd C _ (fun ih => 2 * ih = (n + 1) * (n + 1 - 1))); [|auto].
    unfold LOOP at 1. apply (safe_loopJ W Rd C (fun j ih => 2 * ih = j * (j - 1))); [lia| |lia].
    intros j ih Hj E. apply safe_bindT; [sf|]. intros _.
    apply (safe_weak W Rd C _ (fun ih => 2 * ih = j * (j - 1) + 2 * (j + 1 - 1))); [|intros; lia].
    unfold LOOP. apply (safe_loopJ W Rd C (fun i ih => 2 * ih = j * (j - 1) + 2 * (i - 1))); [lia| |lia].
    intros i ih' Hi E'. assert (K := tri_range n j i ih' Hi (proj2 Hj) E'). sf. lia.
  - intros _. apply safe_bindT; [sf|]. intros _. sf; exact H.
Qed.

Lemma trsbox_safe fuel :
  safe (trsbox n npt xpt xopt gopt hq pq sl su delta xnew d gnew xbdi s hs hred fuel) T.
Proof.
  unfold trsbox. eapply safe_bind; [apply trs_init_safe|]. intros v Hv.
  apply safe_bindT.
  - apply (safe_machine W Rd C tinv); [|unfold tinv; cbn [snd]; rewrite Hv; lia].
    intros [l u] Hl. unfold tinv in Hl. cbn [snd] in Hl.
    destruct l; cbn [trs_step]; auto using trs_20_safe, trs_30_safe, trs_50_safe, trs_90_safe, trs_100_safe, trs_120_safe,
      trs_150_safe, trs_210_safe.
    apply safe_ret. exact I.
  - intros u. apply safe_bindT; [apply trs_190_safe|]. intros dsq. sf.
Qed.
End Trsbox.

(** ** altmov *)
Section Altmov.
Variables (n npt xpt xopt bmat zmat ndim sl su kopt knew : Z) (adelt : N) (xnew xalt glag hcol w : Z).
Hypothesis (Hn : 2 <= n) (Hnpt : n + 2 <= npt) (Hndim : ndim = npt + n) (Hknew : 1 <= knew <= npt).
Hypothesis (Hxpt : mat Rd xpt npt 0 npt 1 n) (Hxopt : arr Rd xopt 1 n)
  (Hbmat : mat Rd bmat ndim 0 ndim 1 n) (Hzmat : mat Rd zmat npt 0 npt 1 (npt - n - 1)) (Hsl : arr Rd sl 1 n) (Hsu : arr Rd su 1 n)
  (Hxnew : arr W xnew 1 n) (Hxalt : arr W xalt 1 n) (Hglag : arr W glag 1 n) (Hhcol : arr W hcol 1 npt)
  (Hw : arr W w 1 (2 * n)).

Lemma alt_lag_safe : safe (alt_lag n npt xpt xopt bmat zmat ndim knew glag hcol) T.
Proof. unfold alt_lag. sf. Qed.

Notation ibd r := (- n <= r <= n).

Lemma alt_line_safe k slbd subd sumin : 1 <= k <= npt ->
  safe (alt_line n npt xpt xopt sl su k slbd subd sumin) (fun r => ibd (snd (fst r)) /\ ibd (snd r)).
Proof.
  intros Hk. unfold alt_line, LOOP. apply safe_loopP; [|cbn; lia].
  intros i [[[slbd1 subd1] ilbd] iubd] Hi [H1 H2]. cbn [fst snd] in H1, H2.
  apply safe_bindT; [sf|]. intros temp.
  sf1; [|sf1; [|sf; cbn; lia]].
  - apply safe_bind with (P := fun r => ibd (snd r)); [sf; cbn; lia|]. intros [slbd2 ilbd2] H3. cbn [snd] in H3.
    apply safe_bind with (P := fun r => ibd (snd r)); [sf; cbn; lia|]. intros [subd2 iubd2] H4. cbn [snd] in H4.
    sf. cbn. lia.
  - apply safe_bind with (P := fun r => ibd (snd r)); [sf; cbn; lia|]. intros [slbd2 ilbd2] H3. cbn [snd] in H3.
    apply safe_bind with (P := fun r => ibd (snd r)); [sf; cbn; lia|]. intros [subd2 iubd2] H4. cbn [snd] in H4.
    sf. cbn. lia.
Qed.

Lemma alt_lines_safe ha :
  safe (alt_lines n npt xpt xopt sl su kopt knew adelt glag ha)
    (fun r => 0 <= fst (fst (fst r)) <= npt /\ ibd (snd (fst r))).
Proof.
  unfold alt_lines. eapply safe_bind.
  - unfold LOOP at 1.
    apply (safe_loopP W Rd C (fun r : N * Z * N * Z * N => 0 <= snd (fst (fst (fst r))) <= npt /\ ibd (snd (fst r)))); [|cbn; lia].
    intros k [[[[presav ksav] stpsav] ibdsav] step] Hk [H1 H2]. cbn [fst snd] in H1, H2.
    sf1; [sf; cbn; lia|].
    apply safe_bindT; [sf|]. intros [dderiv distsq].
    do 3 (apply safe_bindT; [sf|intro]).
    eapply safe_bind; [apply alt_line_safe, Hk|]. intros [[[slbd subd] ilbd] iubd] [H3 H4]. cbn [fst snd] in H3, H4.
    apply safe_bind with (P := fun r : N * N * Z => ibd (snd r)).
    + sf1.
      * do 3 (apply safe_bindT; [sf|intro]).
        destruct (if nlt _ _ then _ else _) as [[step2 vlag2] isbd2] eqn:E2.
        assert (K2 : ibd isbd2) by (destruct (nlt _ _); injection E2; intros; subst; lia).
        do 3 (apply safe_bindT; [sf|intro]). sf; cbn; lia.
      * do 2 (apply safe_bindT; [sf|intro]).
        destruct (if nlt _ _ then (subd, _, _) else _) as [[step2 vlag2] isbd2] eqn:E2.
        assert (K2 : ibd isbd2) by (destruct (nlt _ _); injection E2; intros; subst; lia).
        clear E2. destruct (if nlt half subd then _ else _) as [[step3 vlag3] isbd3] eqn:E3.
        assert (K3 : ibd isbd3).
        { destruct (nlt half subd); [destruct (nlt _ _)|]; injection E3; intros; subst; lia. }
        sf. cbn. lia.
    + intros [[step1 vlag1] isbd1] H5. cbn [snd] in H5. do 2 (apply safe_bindT; [sf|intro]). sf; cbn; lia.
  - intros [[[[presav ksav] stpsav] ibdsav] step] H. sf. cbn in *. lia.
Qed.

Lemma alt_xnew_safe ksav stpsav ibdsav : 0 <= ksav <= npt -> ibd ibdsav ->
  safe (alt_xnew n npt xpt xopt sl su xnew ksav stpsav ibdsav) T.
Proof. intros H1 H2. unfold alt_xnew. sf. Qed.

Lemma alt_pass_safe fuel second step :
  safe (alt_pass n npt xpt xopt sl su adelt xalt glag hcol w fuel second step) T.
Proof.
  unfold alt_pass, alt_free, alt_xalt, alt_cauchy. cbv zeta. apply safe_bindT; [sf|]. intros ggfree. sf1; [sf|].
  apply safe_bindT.
  - apply (safe_machine W Rd C T); auto. intros [[wfixsq gg] stp] _. unfold alt_fix. sf.
  - intros stp. sf.
Qed.

Lemma altmov_safe fuel :
  safe (altmov n npt xpt xopt bmat zmat ndim sl su kopt knew adelt xnew xalt glag hcol w fuel) T.
Proof.
  unfold altmov. apply safe_bindT; [apply alt_lag_safe|]. intros alpha.
  eapply safe_bind; [apply alt_lines_safe|]. intros [[[ksav stpsav] ibdsav] step] [H1 H2]. cbn [fst snd] in H1, H2.
  apply safe_bindT; [apply alt_xnew_safe; auto|]. intros _.
  apply safe_bindT; [apply alt_pass_safe|]. intros [[csave|] step1]; [|sf].
  apply safe_bindT; [sf|]. intros _.
  apply safe_bindT; [apply alt_pass_safe|]. intros [[c|] step2]; sf.
Qed.
End Altmov.
End Safe.
