(** * Accesses and evaluations of prelim, rescue and bobyqb *)
From Coq Require Import ZArith List Bool Lia.
From Verif Require Import Num BqLang BqModel BqWp BqSafe BqEval.
Import ListNotations.
Local Open Scope Z_scope.

Ltac rd ::=
  match goal with
  | H : arr ?W ?p _ _ |- ?W (at1 ?p _) => apply H; lia
  | H : mat ?W ?p ?l _ _ _ _ |- ?W (at2 ?p ?l _ _) => apply H; lia
  | H : rarr ?R ?p _ _ |- ?R (at1 ?p _) => apply H; lia
  | HW : forall a, ?W a -> ?R a, H : arr ?W ?p _ _ |- ?R (at1 ?p _) => apply HW, H; lia
  | HW : forall a, ?W a -> ?R a, H : mat ?W ?p ?l _ _ _ _ |- ?R (at2 ?p ?l _ _) => apply HW, H; lia
  end.

Ltac cb := cbn [p_nf p_kopt p_ipt p_jpt fst snd] in *.

(** The diagonal elements of a triangle, written in two other ways *)
Lemma diag_range' n j : 1 <= j <= n -> 1 <= Z.quot (j * (j + 1)) 2 <= n * (n + 1) / 2.
Proof. intros H. replace (j * (j + 1)) with (j + j * j) by ring. apply diag_range, H. Qed.
Lemma diag_range'' n j : 0 <= j <= n -> 0 <= Z.quot (j * j + j) 2 <= n * (n + 1) / 2.
Proof.
  intros H. rewrite Z.quot_div_nonneg by nia. split; [apply Z.div_pos; nia|apply Z.div_le_mono; nia].
Qed.

(** The element of row [ipt] and column [jpt] in prelim *)
Lemma off_range n i j : 1 <= i <= n -> 1 <= j <= n -> 1 <= Z.quot (i * (i - 1)) 2 + j <= n * (n + 1) / 2.
Proof.
  intros Hi Hj. rewrite Z.quot_div_nonneg by nia.
  assert (0 <= i * (i - 1) / 2) by (apply Z.div_pos; nia).
  assert (i * (i - 1) / 2 + n <= n * (n + 1) / 2).
  { rewrite <- (Z.div_add _ n 2) by lia. apply Z.div_le_mono; nia. }
  lia.
Qed.

(** The element of indices ip and iq in rescue *)
Lemma iw_range n ip iq : 1 <= ip <= n -> 1 <= iq <= n -> 1 <= res_iw ip iq <= n * (n + 1) / 2.
Proof.
  intros Hp Hq. unfold res_iw. rewrite !Z.quot_div_nonneg by nia.
  assert (K : forall j, 1 <= j <= n -> j <= (j + j * j) / 2 <= n * (n + 1) / 2).
  { intros j Hj. split; [apply Z.div_le_lower_bound; nia|apply Z.div_le_mono; nia]. }
  pose proof (K ip Hp). pose proof (K iq Hq). destruct (Z.leb_spec iq ip); lia.
Qed.

Section Run.
Context {N : Num}.
Notation mst := (mst N).
Notation prog := (prog N).
Variables (W Rd : Z -> Prop) (C : Z -> option N).
Hypothesis WRd : forall a, W a -> Rd a.
Hypothesis CW : forall a v, C a = Some v -> ~ W a.
Notation safe := (safe W Rd C).

Variables (n npt : Z) (ctx : context (N := N)) (x xl xu : Z) (rhobeg rhoend : N) (maxfun : Z).
Variables (xbase xpt fval xopt gopt hq pq bmat zmat ndim sl su xnew xalt d vlag w : Z).
Hypothesis (Hn : 2 <= n) (Hnpt : n + 2 <= npt <= (n + 1) * (n + 2) / 2) (Hndim : ndim = npt + n).
Hypothesis (Hxbase : arr W xbase 1 n) (Hxpt : mat W xpt npt 0 npt 1 n) (Hfval : arr W fval 0 npt) (Hxopt : arr W xopt 1 n)
  (Hgopt : arr W gopt 1 n) (Hhq : arr W hq 0 (n * (n + 1) / 2)) (Hpq : arr W pq 0 npt)
  (Hbmat : mat W bmat ndim 0 ndim 1 n) (Hzmat : mat W zmat npt 0 npt 1 (npt - n - 1)) (Hsl : arr W sl 1 n) (Hsu : arr W su 1 n)
  (Hxnew : arr W xnew 1 n) (Hxalt : arr W xalt 1 n) (Hd : arr W d 1 n) (Hvlag : arr W vlag 0 ndim).
(** The same for reading, so that each lemma tells which arrays are only read *)
Hypothesis (Rxbase : arr Rd xbase 1 n) (Rxpt : mat Rd xpt npt 0 npt 1 n) (Rfval : arr Rd fval 0 npt) (Rxopt : arr Rd xopt 1 n)
  (Rgopt : arr Rd gopt 1 n) (Rhq : arr Rd hq 0 (n * (n + 1) / 2)) (Rpq : arr Rd pq 0 npt)
  (Rbmat : mat Rd bmat ndim 0 ndim 1 n) (Rzmat : mat Rd zmat npt 0 npt 1 (npt - n - 1)) (Rsl : arr Rd sl 1 n) (Rsu : arr Rd su 1 n)
  (Rxnew : arr Rd xnew 1 n) (Rxalt : arr Rd xalt 1 n) (Rd_ : arr Rd d 1 n) (Rvlag : arr Rd vlag 0 ndim).
(** The bounds and the variables *)
Variables (lo hi sc : Z -> N).
Hypothesis (Hcn : c_n ctx = n).
Variables (O : Z -> Prop) (m0 : Z -> option N).
Hypothesis HO : forall a, W a -> O a.
Hypothesis Hx : forall i, 1 <= i <= n -> Rd (at1 x i) /\ ~ W (at1 x i) /\ C (at1 x i) = None /\ O (at1 x i).
Hypothesis Hxl : forall i, 1 <= i <= n -> C (at1 xl i) = Some (lo i).
Hypothesis Hxu : forall i, 1 <= i <= n -> C (at1 xu i) = Some (hi i).
Hypothesis Hscl : match c_scl ctx with
  | None => True
  | Some scl => forall i, 0 <= i < n ->
      C (scl + i) = Some (sc (i + 1)) /\
      Rd (c_ws ctx + i) /\ ~ W (c_ws ctx + i) /\ C (c_ws ctx + i) = None /\ O (c_ws ctx + i) /\
      (forall j, 1 <= j <= n -> at1 x j <> c_ws ctx + i)
  end.
Variable box : Z -> N -> Prop.
Hypothesis HB : forall i, 1 <= i <= n -> box i (lo i) /\ box i (hi i) /\ forall v, box i (clamp v (lo i) (hi i)).
Notation st := (st Rd C n maxfun ctx sc box O m0).
Notation sx := (sx Rd C n maxfun x ctx sc box O m0).
Notation ht := (ht n maxfun ctx sc box O m0).
Notation boxed := (boxed n box).
Notation all := (fun _ => True).

Lemma hnpt : n + 2 <= npt.
Proof. lia. Qed.
Lemma npt2 : 2 * npt <= (n + 1) * (n + 2).
Proof. assert (H := Z.mul_div_le ((n + 1) * (n + 2)) 2). lia. Qed.
Lemma Rhq1 : arr Rd hq 1 (n * (n + 1) / 2).
Proof. intros i Hi. apply Rhq. lia. Qed.
Lemma Hrx : rarr Rd x 1 n.
Proof. intros i Hi. apply Hx, Hi. Qed.

(** ** Expressions whose value is in the box *)
Lemma pure_clamp e i : 1 <= i <= n -> pure Rd C e (fun _ => True) ->
  pure Rd C (eclamp e (ld (at1 xl i)) (ld (at1 xu i))) (box i).
Proof.
  intros Hi He. unfold eclamp.
  eapply pure_bind; [exact He|]. intros v _.
  eapply pure_bind; [apply (pure_ldC Rd C _ _ (Hxl i Hi))|]. intros l ->.
  eapply pure_bind; [apply (pure_ldC Rd C _ _ (Hxu i Hi))|]. intros h ->.
  apply pure_ret. apply HB, Hi.
Qed.
Lemma pure_lo i : 1 <= i <= n -> pure Rd C (ld (at1 xl i)) (box i).
Proof. intros Hi s G. destruct (pure_ldC Rd C _ _ (Hxl i Hi) s G) as [v [E1 ->]]. exists (lo i). split; auto. apply HB, Hi. Qed.
Lemma pure_hi i : 1 <= i <= n -> pure Rd C (ld (at1 xu i)) (box i).
Proof. intros Hi s G. destruct (pure_ldC Rd C _ _ (Hxu i Hi) s G) as [v [E1 ->]]. exists (hi i). split; auto. apply HB, Hi. Qed.

Ltac pr := repeat first [apply pure_lift2 | apply pure_ld; rd | apply pure_ret; exact Logic.I].

(** ** prelim *)
Lemma pre_init_safe : safe (pre_init n npt x xbase xpt hq pq bmat zmat ndim) T.
Proof. pose proof Hrx. unfold pre_init. sf. Qed.

Lemma pre_point_safe nf v : 1 <= nf <= npt -> 0 <= p_kopt v <= npt ->
  safe (pre_point n npt rhobeg xpt sl su nf v)
    (fun v' => p_nf v' = nf /\ p_kopt v' = p_kopt v /\ (2 * n + 1 < nf -> 1 <= p_ipt v' <= n /\ 1 <= p_jpt v' <= n)).
Proof.
  intros Hnf Hk. unfold pre_point. destruct v as [nf0 kopt stepa stepb fbeg ipt jpt]. cb. cbv zeta.
  destruct (Z.leb_spec (nf - 1) (2 * n)) as [L|L].
  - destruct (_ && _)%bool eqn:E1; [|destruct (Z.ltb_spec n (nf - 1))].
    + apply andb_true_iff in E1. destruct E1 as [E1 E2]. apply Z.leb_le in E1, E2. sf; cb; repeat split; lia.
    + sf; cb; repeat split; lia.
    + sf; cb; repeat split; lia.
  - assert (D := Z.quot_rem (nf - 1 - (n + 1)) n ltac:(lia)).
    assert (R := Z.rem_bound_pos (nf - 1 - (n + 1)) n ltac:(lia) ltac:(lia)).
    set (it := Z.quot (nf - 1 - (n + 1)) n) in *.
    assert (H2 := npt2).
    assert (Hit0 : 0 <= it) by (apply Z.quot_pos; lia).
    assert (Hit : it <= n) by nia.
    destruct (Z.ltb_spec n (nf - 1 - it * n - n + it)) as [L2|L2]; sf; cb; repeat split; lia.
Qed.

Lemma pre_model_safe f v : 1 <= p_nf v <= npt -> 0 <= p_kopt v <= npt ->
  (2 * n + 1 < p_nf v -> 1 <= p_ipt v <= n /\ 1 <= p_jpt v <= n) ->
  safe (pre_model n npt rhobeg xpt fval gopt hq bmat zmat ndim f v) (fun v' => p_nf v' = p_nf v /\ 0 <= p_kopt v' <= npt).
Proof.
  intros Hnf Hk Hij. unfold pre_model. destruct v as [nf kopt stepa stepb fbeg ipt jpt]. cb. cbv zeta.
  apply safe_bindT; [sf|]. intros _.
  apply safe_bind with (P := fun r => 0 <= snd r <= npt); [sf; cb; lia|]. intros [fbeg1 kopt1] Hk1. cbn [snd] in Hk1.
  destruct (Z.leb_spec nf (2 * n + 1)) as [L|L].
  - destruct (_ && _)%bool eqn:E1; [|destruct (Z.leb_spec (n + 2) nf)].
    + apply andb_true_iff in E1. destruct E1 as [E1 E2]. apply Z.leb_le in E1, E2. sf; cb; lia.
    + assert (K := diag_range' n (nf - 1 - n) ltac:(lia)).
      do 4 (apply safe_bindT; [sf|intro]).
      apply safe_bind with (P := fun r => 0 <= r <= npt).
      { apply safe_ifp; [sf| |sf; lia]. apply safe_ifp; [sf| |sf; lia].
        do 4 (apply safe_bindT; [sf|intro]). apply safe_ret. destruct (kopt1 =? nf); lia. }
      intros kopt2 Hk2. sf; cb; lia.
    + sf; cb; lia.
  - assert (K := off_range n ipt jpt ltac:(lia) ltac:(lia)). sf; cb; lia.
Qed.

Lemma pre_x_ht nf k : 1 <= k <= npt -> ht (st nf) (pre_x n npt x xl xu xbase xpt sl su k) (fun _ => sx nf).
Proof.
  intros Hk. unfold pre_x, LOOP_.
  assert (Ha : forall i, 1 <= i <= n -> Rd (at1 x i) /\ C (at1 x i) = None /\ O (at1 x i)) by (intros i Hi; repeat split; apply Hx, Hi).
  eapply ht_weak.
  - apply (ht_loopJ n maxfun ctx sc box O m0
      (fun i (_ : unit) => part Rd C n maxfun ctx sc box O m0 x (fun _ => True) nf (fun j => 1 <= j < i)) 1 n); [lia|].
    intros i u Hi.
    eapply ht_bind; [apply ht_wr; auto; apply pure_clamp; auto; pr|]. intros u1.
    eapply ht_bind; [apply ht_wr_if; [auto|auto|auto|auto|pr|apply pure_lo, Hi]|]. intros u2.
    eapply ht_post; [apply ht_wr_if; [auto|auto|exact Hi|right; reflexivity|pr|apply pure_hi, Hi]|].
    intros _ s (H1 & H2 & H3). split; [auto|]. split; [|auto]. intros j Hj Kj. apply H2; [auto|lia].
  - intros s Hs. split; [auto|]. split; [|exact Logic.I]. intros j Hj Kj. lia.
  - intros _ s (H1 & H2 & H3). split; [auto|]. intros j Hj _. apply H2; [auto|lia].
Qed.

Definition pinv (v : pvars (N := N)) (s : mst) : Prop :=
  (0 <= p_nf v < npt /\ (p_nf v = 0 \/ p_nf v < maxfun) /\ 0 <= p_kopt v <= npt) /\ st (p_nf v) s.
Definition pres (r : Z * Z) (s : mst) : Prop := (1 <= fst r <= npt /\ 0 <= snd r <= npt) /\ sx (fst r) s.

Lemma pre_iter_ht v :
  ht (pinv v) (pre_iter n npt ctx x xl xu rhobeg maxfun xbase xpt fval gopt hq bmat zmat ndim sl su v)
    (fun r s => match r with inl v => pinv v s | inr r => pres r s end).
Proof.
  unfold pinv at 1. apply ht_ctx. intros (H1 & H2 & H3). unfold pre_iter. cbv zeta.
  eapply ht_quiet0; [exact HO|apply pre_point_safe; lia|]. intros v1 (E1 & E2 & E3).
  eapply ht_bind; [apply pre_x_ht; lia|]. intros u1.
  eapply ht_bind.
  { eapply ht_weak; [apply (ht_call W Rd C n maxfun x ctx sc box Hcn O m0 Hscl (p_nf v) x)| |].
    - lia.
    - intros i Hi. split; [apply Hx, Hi|auto].
    - intros s [A B]. auto.
    - intros f s Hs. exact Hs. }
  intros f. cbv beta.
  eapply ht_quiet; [exact HO|exact Hx|apply pre_model_safe; lia|]. intros v2 [E4 E5].
  rewrite E1 in E4. rewrite E4.
  destruct (_ && _)%bool eqn:Ec; apply ht_ret; intros s Hs.
  - apply andb_true_iff in Ec. destruct Ec as [Ec1 Ec2]. apply Z.ltb_lt in Ec1, Ec2.
    unfold pinv. rewrite E4. split; [lia|apply Hs].
  - unfold pres. cb. split; [lia|exact Hs].
Qed.

Lemma prelim_ht :
  ht (st 0) (prelim n npt ctx x xl xu rhobeg maxfun xbase xpt fval gopt hq pq bmat zmat ndim sl su) pres.
Proof.
  unfold prelim. eapply ht_quiet0; [exact HO|apply pre_init_safe|]. intros _ _.
  eapply ht_weak.
  - apply (ht_machine n maxfun ctx sc box O m0 pinv pres); [|apply pre_iter_ht].
    intros v s [_ Hs]. exact (st_E Rd C n maxfun ctx sc box O m0 _ s Hs).
  - intros s Hs. unfold pinv. cb. split; [lia|exact Hs].
  - auto.
Qed.

(** ** rescue *)
(** The conversion of bobyqa.c line 2107 is right *)
Hypothesis Hcast : forall k iw (s s' : mst), 2 * (n + 1) <= k <= npt ->
  trunc npt (ndiv (nsub (nZ (k - (n + 1))) half) (nZ n)) s = Ret iw s' -> 1 <= k - (n + 1) - iw * n <= n.

Section Rescue.
Variables (delta : N) (ptsaux ptsid v : Z).
Hypothesis (Hp1 : mat W ptsaux 2 1 1 1 n) (Hp2 : mat W ptsaux 2 2 2 0 n) (Hid : arr W ptsid 0 npt) (Rid : arr Rd ptsid 0 npt)
  (Hv : arr W v 1 (ndim + npt)) (Rv : arr Rd v 0 (ndim + npt)).

Lemma res_shift_safe : safe (res_shift n npt xpt xopt hq pq zmat ndim v) T.
Proof.
  unfold res_shift. apply safe_bindT; [sf|]. intros [sumpq winc].
  apply safe_bindT; [|intro; sf].
  apply (safe_weak W Rd C _ (fun ih => 2 * ih = (n + 1) * (n + 1 - 1))); [|auto].
  unfold LOOP at 1. apply (safe_loopJ W Rd C (fun j ih => 2 * ih = j * (j - 1))); [lia| |lia].
  intros j ih Hj E. do 2 (apply safe_bindT; [sf|intro]).
  apply (safe_weak W Rd C _ (fun ih => 2 * ih = j * (j - 1) + 2 * (j + 1 - 1))); [|intros; lia].
  unfold LOOP. apply (safe_loopJ W Rd C (fun i ih => 2 * ih = j * (j - 1) + 2 * (i - 1))); [lia| |lia].
  intros i ih' Hi E'. assert (K := tri_range n j i ih' Hi (proj2 Hj) E'). sf. lia.
Qed.

Lemma res_base_safe : safe (res_base n xbase xopt bmat ndim sl su delta ptsaux) T.
Proof.
  unfold res_base. sf. 
Qed.

Lemma res_ids_safe : safe (res_ids n npt bmat zmat ndim ptsaux ptsid) T.
Proof.
  assert (H2 := npt2). unfold res_ids. cbv zeta. apply safe_bindT; [sf|]. intros _. apply safe_bindT; [sf|]. intros _.
  sf1; [|sf]. apply safe_loop. intros k u Hk.
  apply safe_bind with (P := fun iw => 0 <= iw <= npt /\ 1 <= k - (n + 1) - iw * n <= n).
  - intros s G. assert (S := safe_trunc W Rd C npt (ndiv (nsub (nZ (k - (n + 1))) half) (nZ n)) ltac:(lia) s G).
    destruct (trunc npt _ s) as [iw s'|s'|s'|s'] eqn:Et; auto. destruct S as (S1 & S2 & S3).
    split; [|auto]. split; [exact S1|]. exact (Hcast k iw s s' ltac:(lia) Et).
  - intros iw [Hi1 Hi2]. assert (Hi3 : iw <= n) by nia.
    destruct (Z.ltb_spec n (k - (n + 1) - iw * n + iw)); sf.
Qed.

Lemma trunc_safe lim (u : N) : 0 <= lim -> safe (trunc lim u) (fun i => 0 <= i <= lim).
Proof. apply safe_trunc. Qed.

Lemma res_ip_safe k : 0 <= k <= npt -> safe (res_ip n ptsid k) (fun i => 0 <= i <= n).
Proof. intros Hk. unfold res_ip. apply safe_bindT; [sf|]. intros u. apply safe_trunc. lia. Qed.
Lemma res_iq_safe k ip : 0 <= k <= npt -> safe (res_iq n ptsid k ip) (fun i => 0 <= i <= n).
Proof. intros Hk. unfold res_iq. apply safe_bindT; [sf|]. intros u. apply safe_trunc. lia. Qed.

Definition rinv (l : rlabel * rvars (N := N)) : Prop := 0 <= r_kold (snd l) <= npt /\ 0 <= r_knew (snd l) <= npt.
Notation rpost := (fun r : rlabel * rvars + bool => match r with inl l => rinv l | inr _ => True end).

Lemma res_80_safe kopt u : rinv (R80, u) -> safe (res_80 n npt bmat zmat ndim vlag ptsid v kopt u) rpost.
Proof.
  intros [H1 H2]. destruct u as [beta denom kold knew nrem]. cbn [snd r_kold r_knew] in *. unfold res_80. cbv zeta.
  do 5 (apply safe_bindT; [sf|intro]).
  sf1; [sf; split; assumption|].
  do 3 (apply safe_bindT; [sf|intro]).
  apply safe_bindT.
  { apply update_safe; auto; try lia; intros i Hi; [apply Hv|apply Rv]; lia. }
  intros _. sf. split; assumption.
Qed.

Lemma res_pick_safe knew : 0 <= knew <= npt ->
  safe (res_pick npt ndim v knew) (fun r => 0 <= snd r <= npt).
Proof.
  intros Hk. unfold res_pick, LOOP. apply safe_loopP; [|cb; lia].
  intros i [dsqmin kn] Hi Hp. sf; cb; lia.
Qed.

Lemma res_wvec_safe kopt knew : 0 <= knew <= npt -> safe (res_wvec n npt xpt ptsaux ptsid v kopt knew) T.
Proof.
  intros Hk. unfold res_wvec. cbv zeta. apply safe_bindT; [sf|]. intros _. unfold LOOP_. apply safe_loop. intros k u Hi.
  apply safe_bindT; [|intro; sf].
  sf1; [sf|]. apply safe_ifp; [sf|sf|].
  eapply safe_bind; [apply res_ip_safe; lia|]. intros ip Hip; cbv beta in Hip.
  apply safe_bindT; [sf|]. intros sum.
  eapply safe_bind; [apply res_iq_safe; lia|]. intros iq Hiq; cbv beta in Hiq.
  destruct (ip =? 0); sf.
Qed.

Lemma res_vlag_safe kopt knew : 0 <= kopt <= npt -> 0 <= knew <= npt ->
  safe (res_vlag n npt xpt bmat zmat ndim vlag v kopt knew) T.
Proof. intros H1 H2. unfold res_vlag. sf. Qed.

Lemma res_kold_safe beta kold : 0 <= kold <= npt ->
  safe (res_kold n npt zmat vlag ptsid beta kold) (fun r => 0 <= snd r <= npt).
Proof.
  intros Hk. unfold res_kold, LOOP at 1. apply safe_loopP; [|cb; lia].
  intros i [[denom vlm] kd] Hi Hp. cb.
  apply safe_bind with (P := fun r => 0 <= snd r <= npt); [sf; cb; lia|]. intros [den kd1] Hk1. sf. cb. lia.
Qed.

Lemma res_120_safe kopt winc u : 0 <= kopt <= npt -> rinv (R120, u) ->
  safe (res_120 n npt xpt bmat zmat ndim vlag ptsaux ptsid v kopt winc u) rpost.
Proof.
  intros Hko [H1 H2]. destruct u as [beta denom kold knew nrem]. cbn [snd r_kold r_knew] in *. unfold res_120.
  eapply safe_bind; [apply res_pick_safe, H2|]. intros [dsqmin knew1] Hk1. cb.
  sf1; [sf|].
  apply safe_bindT; [apply res_wvec_safe, Hk1|]. intros _.
  apply safe_bindT; [apply res_vlag_safe; auto|]. intros beta1.
  eapply safe_bind; [apply res_kold_safe, H1|]. intros [[denom1 vlm] kold1] Hk2. cb.
  sf; split; assumption.
Qed.

Lemma res_machine_safe fuel kopt winc l : 0 <= kopt <= npt -> rinv l ->
  safe (machine fuel (res_step n npt xpt bmat zmat ndim vlag ptsaux ptsid v kopt winc) l) T.
Proof.
  intros Hk Hl. apply (safe_machine W Rd C rinv); [|exact Hl].
  intros [[|] u] Hu; cbn [res_step]; [apply res_80_safe, Hu|apply res_120_safe; auto].
Qed.

Lemma res_newpt_safe kpt xp xq : 1 <= kpt <= npt ->
  safe (res_newpt n npt xpt hq pq ptsaux ptsid v kpt xp xq)
    (fun r => 0 <= fst (fst (fst r)) <= n /\ 0 <= snd (fst (fst r)) <= n).
Proof.
  intros Hk. unfold res_newpt.
  apply safe_bindT.
  { apply (safe_weak W Rd C _ (fun ih => 2 * ih = (n + 1) * (n + 1 - 1))); [|auto].
    unfold LOOP at 1. apply (safe_loopJ W Rd C (fun j ih => 2 * ih = j * (j - 1))); [lia| |lia].
    intros j ih Hj E. do 4 (apply safe_bindT; [sf|intro]).
    apply (safe_weak W Rd C _ (fun ih => 2 * ih = j * (j - 1) + 2 * (j + 1 - 1))); [|intros; lia].
    unfold LOOP. apply (safe_loopJ W Rd C (fun i ih => 2 * ih = j * (j - 1) + 2 * (i - 1))); [lia| |lia].
    intros i ih' Hi E'. assert (K := tri_range n j i ih' Hi (proj2 Hj) E'). sf. lia. }
  intros _. apply safe_bindT; [sf|]. intros _.
  eapply safe_bind; [apply res_ip_safe; lia|]. intros ip Hip; cbv beta in Hip.
  eapply safe_bind; [apply res_iq_safe; lia|]. intros iq Hiq; cbv beta in Hiq.
  apply safe_bindT; [sf|]. intros xp1.
  apply safe_bindT; [destruct (ip =? 0); sf|]. intros xq1.
  sf. cb. lia.
Qed.

Lemma res_vquad_safe ip iq xp xq fbase : 0 <= ip <= n -> 0 <= iq <= n ->
  safe (res_vquad npt xpt gopt hq pq ip iq xp xq fbase) T.
Proof.
  intros Hp Hq. unfold res_vquad.
  assert (D : forall j, 0 < j <= n -> 1 <= Z.quot (j + j * j) 2 <= n * (n + 1) / 2) by (intros; apply diag_range; lia).
  apply safe_bindT.
  { destruct (Z.ltb_spec 0 ip) as [L|L]; [|sf]. specialize (D ip ltac:(lia)). sf. }
  intros v1. apply safe_bindT; [|intro; sf].
  destruct (Z.ltb_spec 0 iq) as [L|L]; [|sf].
  assert (D1 := D iq ltac:(lia)).
  apply safe_bindT; [sf|]. intros v2.
  destruct (Z.ltb_spec 0 ip) as [L1|L1]; [|sf].
  assert (D2 := iw_range n ip iq ltac:(lia) ltac:(lia)). sf.
Qed.

Lemma res_model_safe kpt diff : 1 <= kpt <= npt ->
  safe (res_model n npt gopt hq pq bmat zmat ndim ptsaux ptsid kpt diff) T.
Proof.
  intros Hk. unfold res_model. cbv zeta. apply safe_bindT; [sf|]. intros _. unfold LOOP_. apply safe_loop. intros k u Hi.
  do 2 (apply safe_bindT; [sf|intro]). apply safe_ifp; [sf|sf|].
  eapply safe_bind; [apply res_ip_safe; lia|]. intros ip Hip; cbv beta in Hip.
  eapply safe_bind; [apply res_iq_safe; lia|]. intros iq Hiq; cbv beta in Hiq.
  assert (D1 := diag_range'' n iq Hiq). assert (D2 := diag_range'' n ip Hip).
  destruct (Z.eqb_spec ip 0) as [E0|E0]; [sf|].
  do 2 (apply safe_bindT; [sf|intro]).
  destruct (Z.ltb_spec 0 iq) as [L|L]; [|sf].
  assert (D3 := iw_range n ip iq ltac:(lia) ltac:(lia)). sf.
Qed.

Lemma res_x_ht nf kpt : 1 <= kpt <= npt ->
  ht (sx nf) (res_x n npt xl xu xbase xpt sl su v kpt) (fun _ s => st nf s /\ boxed v all s /\ boxed x all s).
Proof.
  intros Hk. unfold res_x, LOOP_.
  assert (Ha : forall i, 1 <= i <= n -> Rd (at1 v i) /\ C (at1 v i) = None /\ O (at1 v i)).
  { intros i Hi. assert (Wi : W (at1 v i)) by (apply Hv; lia). split; [auto|]. split; [|auto].
    destruct (C (at1 v i)) eqn:E; [|reflexivity]. destruct (CW _ _ E Wi). }
  assert (HX : forall s i u, 1 <= i <= n -> boxed x all s ->
    boxed x all (mkmst (fun b => if Z.eqb b (at1 v i) then Some u else mm s b) (evs s))).
  { intros s i u Hi Hs j Hj _. cbn. destruct (Z.eqb_spec (at1 x j) (at1 v i)) as [e|e]; [|exact (Hs j Hj Logic.I)].
    assert (Wi : W (at1 v i)) by (apply Hv; lia). destruct (Hx j Hj) as (_ & Nw & _). destruct Nw. rewrite e. exact Wi. }
  eapply ht_weak.
  - apply (ht_loopJ n maxfun ctx sc box O m0
      (fun i (_ : unit) => part Rd C n maxfun ctx sc box O m0 v (boxed x all) nf (fun j => 1 <= j < i)) 1 n); [lia|].
    intros i u Hi.
    eapply ht_bind with (R := fun _ => part Rd C n maxfun ctx sc box O m0 v (boxed x all) nf (fun j => 1 <= j < i)).
    { intros s Hs. assert (Q : pure Rd C (ld (at2 xpt npt kpt i)) T) by pr.
      destruct (Q s (proj1 (proj1 Hs))) as [a [Ea _]]. rewrite Ea. exact Hs. }
    intros temp. eapply ht_post.
    + apply ht_wr; [exact Ha|exact HX|exact Hi|].
      apply pure_ifp; [pr|apply pure_hi, Hi|]. apply pure_ifp; [pr|apply pure_lo, Hi|]. apply pure_clamp; [exact Hi|pr].
    + intros _ s (H1 & H2 & H3). split; [auto|]. split; [|auto]. intros j Hj Kj. apply H2; [auto|lia].
  - intros s [Hs Hb]. split; [auto|]. split; [|exact Hb]. intros j Hj Kj. lia.
  - intros _ s (H1 & H2 & H3). split; [auto|]. split; [|auto]. intros j Hj _. apply H2; [auto|lia].
Qed.

Definition einv (r : Z * Z * N * N) (s : mst) : Prop :=
  0 <= snd (fst (fst r)) <= npt /\ sx (fst (fst (fst r))) s.
Definition eexit (kopt : Z) (s : mst) : Prop := 0 <= kopt <= npt /\ exists nf, sx nf s.

Lemma res_eval_ht fbase kpt r : 1 <= kpt <= npt ->
  ht (einv r) (res_eval n npt ctx xl xu maxfun xbase xpt fval gopt hq pq bmat zmat ndim sl su ptsaux ptsid v fbase kpt r)
    (fun r s => match r with inl r => einv r s | inr k => eexit k s end).
Proof.
  intros Hk. destruct r as [[[nf kopt] xp] xq]. unfold einv at 1. cb. apply ht_ctx. intros Hko. unfold res_eval.
  eapply ht_quietT; [exact HO|exact Hx|sf|]. intros [|]; [apply ht_ret; intros s Hs; split; cb; auto|].
  destruct (Z.leb_spec maxfun nf) as [L|L]; [apply ht_ret; intros s Hs; split; [auto|exists nf; auto]|].
  eapply ht_quiet; [exact HO|exact Hx|apply res_newpt_safe, Hk|]. intros [[[ip iq] xp1] xq1] [Hip Hiq]. cb.
  eapply ht_quietT; [exact HO|exact Hx|apply res_vquad_safe; auto|]. intros vquad.
  eapply ht_bind; [apply res_x_ht, Hk|]. intros u1.
  eapply ht_bind.
  { apply (ht_call W Rd C n maxfun x ctx sc box Hcn O m0 Hscl nf v); [lia|].
    intros i Hi. assert (Wi : W (at1 v i)) by (apply Hv; lia). auto. }
  intros f. cbv beta.
  eapply ht_quietT; [exact HO|exact Hx|sf|]. intros _.
  eapply ht_quiet with (P := fun k => 0 <= k <= npt); [exact HO|exact Hx|sf; lia|]. intros kopt1 Hk1.
  eapply ht_quietT; [exact HO|exact Hx|sf|]. intros diff.
  eapply ht_quietT; [exact HO|exact Hx|apply res_model_safe, Hk|]. intros _.
  eapply ht_quietT; [exact HO|exact Hx|sf|]. intros _.
  apply ht_ret. intros s Hs. split; cb; auto.
Qed.

Definition rres (r : Z * Z) (s : mst) : Prop :=
  0 <= snd r <= npt /\ (0 <= fst r -> sx (fst r) s) /\ exists nf, sx nf s.

Lemma rescue_ht fuel nf kopt : 0 <= nf -> 0 <= kopt <= npt ->
  ht (sx nf)
    (rescue n npt ctx xl xu maxfun xbase xpt fval xopt gopt hq pq bmat zmat ndim sl su delta vlag ptsaux ptsid v fuel nf kopt)
    rres.
Proof.
  intros Hnf Hk. unfold rescue.
  eapply ht_quietT; [exact HO|exact Hx|apply res_shift_safe|]. intros winc.
  eapply ht_quietT; [exact HO|exact Hx|apply res_base_safe|]. intros _.
  eapply ht_quietT; [exact HO|exact Hx|sf|]. intros fbase.
  eapply ht_quietT; [exact HO|exact Hx|apply res_ids_safe|]. intros _.
  eapply ht_quietT; [exact HO|exact Hx|apply res_machine_safe; [exact Hk|split; cbn [snd r_kold r_knew]; lia]|]. intros [|].
  { apply ht_ret. intros s Hs. split; cb; [auto|]. split; [auto|exists nf; auto]. }
  eapply ht_bind.
  - eapply ht_weak; [apply (ht_loopx n maxfun ctx sc box O m0 einv eexit 1 npt)| |].
    + intros i r Hi. apply res_eval_ht, Hi.
    + intros s Hs. split; cb; auto.
    + intros r s Hs. exact Hs.
  - intros [[[[nf1 kopt1] xp] xq]|kopt1]; cbv beta; apply ht_ret; intros s Hs.
    + destruct Hs as [H1 H2]. cb. split; cb; [auto|]. split; [auto|exists nf1; auto].
    + destruct Hs as [H1 H2]. split; cb; [auto|]. split; [lia|auto].
Qed.
End Rescue.

(** ** bobyqb *)
Hypothesis (Hw : arr W w 0 (3 * ndim)) (Rw : arr Rd w 0 (3 * ndim)).

Lemma sub_arr k lo1 hi1 : 1 <= k + lo1 -> k + hi1 - 1 <= 3 * ndim -> arr W (at1 w k) lo1 hi1.
Proof. intros H1 H2 i Hi. unfold at1. replace (w + (k - 1) + (i - 1)) with (at1 w (k + i - 1)) by (unfold at1; lia). apply Hw. lia. Qed.

Lemma gopt_hq_safe s : arr Rd s 1 n -> safe (bq_gopt_hq n gopt hq s) T.
Proof.
  intros Hs. unfold bq_gopt_hq. apply safe_bindT; [|intro; sf].
  apply (safe_weak W Rd C _ (fun ih => 2 * ih = (n + 1) * (n + 1 - 1))); [|auto].
  unfold LOOP at 1. apply (safe_loopJ W Rd C (fun j ih => 2 * ih = j * (j - 1))); [lia| |lia].
  intros j ih Hj E.
  apply (safe_weak W Rd C _ (fun ih => 2 * ih = j * (j - 1) + 2 * (j + 1 - 1))); [|intros; lia].
  unfold LOOP. apply (safe_loopJ W Rd C (fun i ih => 2 * ih = j * (j - 1) + 2 * (i - 1))); [lia| |lia].
  intros i ih' Hi E'. assert (K := tri_range n j i ih' Hi (proj2 Hj) E'). sf. lia.
Qed.

Lemma gopt_pq_safe s : arr Rd s 1 n -> safe (bq_gopt_pq n npt xpt gopt pq s) T.
Proof. intros Hs. unfold bq_gopt_pq. sf. Qed.

Lemma shift_safe xoptsq : safe (bq_shift n npt xbase xpt xopt hq pq bmat zmat ndim sl su xnew vlag w xoptsq) T.
Proof.
  unfold bq_shift. cbv zeta. apply safe_bindT; [sf|]. intros fracsq.
  apply safe_bindT; [sf|]. intros sumpq. apply safe_bindT; [sf|]. intros _.
  apply safe_bindT; [|intro; sf].
  apply (safe_weak W Rd C _ (fun ih => 2 * ih = (n + 1) * (n + 1 - 1))); [|auto].
  unfold LOOP at 1. apply (safe_loopJ W Rd C (fun j ih => 2 * ih = j * (j - 1))); [lia| |lia].
  intros j ih Hj E. do 2 (apply safe_bindT; [sf|intro]).
  apply (safe_weak W Rd C _ (fun ih => 2 * ih = j * (j - 1) + 2 * (j + 1 - 1))); [|intros; lia].
  unfold LOOP. apply (safe_loopJ W Rd C (fun i ih => 2 * ih = j * (j - 1) + 2 * (i - 1))); [lia| |lia].
  intros i ih' Hi E'. assert (K := tri_range n j i ih' Hi (proj2 Hj) E'). sf. lia.
Qed.

Lemma bq_vlag_safe kopt xoptsq : 0 <= kopt <= npt -> safe (bq_vlag n npt xpt xopt bmat zmat ndim d vlag w kopt xoptsq) T.
Proof. intros Hk. unfold bq_vlag. sf. Qed.

Lemma scan_safe skip xv delta beta denom : arr Rd xv 1 n ->
  safe (bq_scan n npt xpt zmat vlag skip xv delta beta denom) (fun r => 0 <= snd (fst r) <= npt).
Proof.
  intros Hv. unfold bq_scan. cbv zeta. unfold LOOP at 1. apply safe_loopP; [|cb; lia].
  intros k [[[scaden biglsq] knew] den] Hk Hp. cb. sf1; [sf; cb; lia|].
  do 5 (apply safe_bindT; [sf|intro]).
  destruct (nlt scaden _); (apply safe_bindT; [sf|]); intro; (apply safe_bindT; [sf|]); intro; sf; cb; lia.
Qed.

Lemma vquad_safe : safe (bq_vquad n npt gopt hq pq d w) T.
Proof.
  unfold bq_vquad. apply safe_bindT.
  - apply (safe_weak W Rd C _ (fun r => 2 * snd r = (n + 1) * (n + 1 - 1))); [|auto].
    unfold LOOP at 1. apply (safe_loopJ W Rd C (fun j (r : N * Z) => 2 * snd r = j * (j - 1))); [lia| |cb; lia].
    intros j [vq ih] Hj E. cb. apply safe_bindT; [sf|]. intros vq1.
    apply (safe_weak W Rd C _ (fun r => 2 * snd r = j * (j - 1) + 2 * (j + 1 - 1))); [|intros; cb; lia].
    unfold LOOP. apply (safe_loopJ W Rd C (fun i (r : N * Z) => 2 * snd r = j * (j - 1) + 2 * (i - 1))); [lia| |cb; lia].
    intros i [vq2 ih'] Hi E'. cb. assert (K := tri_range n j i ih' Hi (proj2 Hj) E'). sf. cb. lia.
  - intros [vq ih]. sf.
Qed.

Lemma update_safe' beta denom knew : 0 <= knew <= npt -> safe (update n npt bmat zmat ndim vlag beta denom knew w) T.
Proof. intros Hk. apply update_safe; auto; try lia; intros i Hi; [apply Hw|apply Rw]; lia. Qed.

Lemma move_safe beta denom diff f knew : 0 <= knew <= npt ->
  safe (bq_move n npt xpt fval xopt gopt hq pq bmat zmat ndim xnew vlag w beta denom diff f knew) T.
Proof.
  intros Hk. unfold bq_move. apply safe_bindT; [apply update_safe', Hk|]. intros _.
  do 2 (apply safe_bindT; [sf|intro]).
  apply safe_bindT; [|intro; sf].
  apply (safe_weak W Rd C _ (fun ih => 2 * ih = (n + 1) * (n + 1 - 1))); [|auto].
  unfold LOOP at 1. apply (safe_loopJ W Rd C (fun j ih => 2 * ih = j * (j - 1))); [lia| |lia].
  intros j ih Hj E. apply safe_bindT; [sf|intro].
  apply (safe_weak W Rd C _ (fun ih => 2 * ih = j * (j - 1) + 2 * (j + 1 - 1))); [|intros; lia].
  unfold LOOP. apply (safe_loopJ W Rd C (fun i ih => 2 * ih = j * (j - 1) + 2 * (i - 1))); [lia| |lia].
  intros i ih' Hi E'. assert (K := tri_range n j i ih' Hi (proj2 Hj) E'). sf. lia.
Qed.

Lemma newopt_safe : safe (bq_newopt n npt xpt xopt gopt hq pq xnew d) T.
Proof.
  unfold bq_newopt. apply safe_bindT.
  - apply (safe_weak W Rd C _ (fun r => 2 * snd r = (n + 1) * (n + 1 - 1))); [|auto].
    unfold LOOP at 1. apply (safe_loopJ W Rd C (fun j (r : N * Z) => 2 * snd r = j * (j - 1))); [lia| |cb; lia].
    intros j [xs ih] Hj E. cb. do 3 (apply safe_bindT; [sf|intro]).
    apply safe_bind with (P := fun ih => 2 * ih = j * (j - 1) + 2 * (j + 1 - 1)).
    + unfold LOOP. apply (safe_loopJ W Rd C (fun i ih => 2 * ih = j * (j - 1) + 2 * (i - 1))); [lia| |lia].
      intros i ih' Hi E'. assert (K := tri_range n j i ih' Hi (proj2 Hj) E'). sf. lia.
    + intros ih1 E1. sf. cb. lia.
  - intros [xs ih]. apply safe_bindT; [apply gopt_pq_safe; auto|]. intros _. sf.
Qed.

Lemma frob_safe kopt itest : 0 <= kopt <= npt ->
  safe (bq_frob n npt xpt fval xopt gopt hq pq bmat zmat ndim sl su vlag w kopt itest) T.
Proof.
  intros Hk. unfold bq_frob. cbv zeta. do 3 (apply safe_bindT; [sf|intro]).
  apply safe_bindT; [sf|]. intros [gq gi]. sf.
Qed.

(** *** The invariant *)
Definition blab (l : blabel) (v : bvars (N := N)) : Prop :=
  match l with
  | B20 | B60 => 0 <= b_ntrits v
  | B90 | B190 | B230 => 0 <= b_ntrits v /\ (b_ntrits v = 0 -> 1 <= b_knew v)
  | B210 => 0 <= b_ntrits v /\ 1 <= b_knew v
  | B360 | B650 | B680 => -1 <= b_ntrits v
  | Bdone => True
  end.
Definition bidx (v : bvars (N := N)) : Prop := 0 <= b_kopt v <= npt /\ 0 <= b_knew v <= npt /\ 0 <= b_nf v.
Definition binv (l : blabel * bvars (N := N)) (s : mst) : Prop :=
  (blab (fst l) (snd l) /\ (fst l <> Bdone -> bidx (snd l)) /\ 0 <= b_kopt (snd l) <= npt) /\
  (fst l <> Bdone -> sx (b_nf (snd l)) s) /\ exists nf, sx nf s.
Definition bpost (r : blabel * bvars (N := N) + bvars (N := N)) (s : mst) : Prop :=
  match r with inl l => binv l s | inr v => 0 <= b_kopt v <= npt /\ exists nf, sx nf s end.

Lemma binv_intro l v s : blab l v -> bidx v -> sx (b_nf v) s -> binv (l, v) s.
Proof. intros H1 H2 H3. split; [|split; [auto|exists (b_nf v); exact H3]]. cb. split; [exact H1|]. split; [auto|apply H2]. Qed.

Lemma ht_goto l v nf : blab l v -> bidx v -> nf = b_nf v -> ht (sx nf) (goto l v) bpost.
Proof. intros H1 H2 ->. apply ht_ret. intros s Hs. apply binv_intro; auto. Qed.
Lemma ht_done v nf : 0 <= b_kopt v <= npt -> ht (sx nf) (goto Bdone v) bpost.
Proof.
  intros H1. apply ht_ret. intros s Hs. split; [|split; [cb; congruence|exists nf; exact Hs]]. cb.
  split; [exact Logic.I|]. split; [congruence|exact H1].
Qed.
Lemma ht_fail st v nf : 0 <= b_kopt v <= npt -> ht (sx nf) (fail st v) bpost.
Proof. intros H1. unfold fail. apply ht_done. destruct v. exact H1. Qed.

Ltac bb := cbn [fst snd blab b_ntrits b_knew b_kopt b_nf b_nfsav b_nresc set_adelt set_alpha set_beta set_cauchy set_crvmin set_delta set_denom set_diffa set_diffb set_diffc set_distsq set_dnorm set_dsq set_f set_fsave set_ratio set_rho set_xoptsq set_itest set_kbase set_knew set_kopt set_nf set_nfsav set_nresc set_ntrits set_status] in *.
Ltac gt := first [apply ht_goto; [bb; lia|unfold bidx in *; bb; lia|bb; lia] | apply ht_fail; unfold bidx in *; bb; lia
  | apply ht_done; unfold bidx in *; bb; lia].

Lemma bq_20_ht v nf : blab B20 v -> bidx v -> nf = b_nf v -> ht (sx nf) (bq_20 n npt xpt xopt gopt hq pq v) bpost.
Proof.
  intros Hl Hi E. unfold bq_20. eapply ht_quietT; [exact HO|exact Hx| |intros _; gt].
  sf; try (apply gopt_hq_safe; auto); apply gopt_pq_safe; auto.
Qed.

Lemma bq_60_ht fuel v nf : blab B60 v -> bidx v -> nf = b_nf v ->
  ht (sx nf) (bq_60 n npt xpt xopt gopt hq pq sl su xnew d w fuel v) bpost.
Proof.
  intros Hl Hi E. unfold bq_60. eapply ht_quietT; [exact HO|exact Hx| |].
  - apply trsbox_safe; auto; try apply sub_arr; try lia; try apply Rhq1.
    intros i Hii. apply Hw. lia.
  - intros [dsq crv]. cbv zeta. destruct (nlt _ _); [|gt]. bb.
    destruct (b_nf v <=? _); [gt|]. destruct (_ && _)%bool; [gt|].
    eapply ht_quietT; [exact HO|exact Hx| |intros [u|u]; gt].
    apply (safe_weak W Rd C _ (fun r : unit + unit => match r with inl _ => True | inr _ => True end)); [|auto].
    apply (safe_loopxP W Rd C (fun _ : unit => True) (fun _ : unit => True)); auto.
    intros j [] Hj _. assert (K := diag_range n j Hj). 
    apply safe_bindT; [sf|]. intros bd. sf1; [|sf].
    do 3 (apply safe_bindT; [sf|intro]). sf.
Qed.

Lemma bq_90_ht v nf : blab B90 v -> bidx v -> nf = b_nf v ->
  ht (sx nf) (bq_90 n npt xbase xpt xopt hq pq bmat zmat ndim sl su xnew vlag w v) bpost.
Proof.
  intros Hl Hi E. unfold bq_90.
  eapply ht_quiet with (P := fun v' => b_ntrits v' = b_ntrits v /\ b_knew v' = b_knew v /\ b_kopt v' = b_kopt v /\ b_nf v' = b_nf v);
    [exact HO|exact Hx| |].
  - sf1; [|sf; auto]. apply safe_bindT; [apply shift_safe|]. intros _. sf. auto.
  - intros v' (E1 & E2 & E3 & E4). destruct (Z.eqb_spec (b_ntrits v') 0) as [E0|E0]; gt.
Qed.

Lemma bq_190_ht fuel v nf : blab B190 v -> bidx v -> nf = b_nf v ->
  ht (sx nf) (bq_190 n npt ctx xl xu maxfun xbase xpt fval xopt gopt hq pq bmat zmat ndim sl su vlag w fuel v) bpost.
Proof.
  intros Hl (Hi1 & Hi2 & Hi3) E. unfold bq_190. cbv zeta.
  eapply ht_bind.
  { subst nf. apply rescue_ht; auto.
    - intros i j Hii Hj. unfold at2. replace (w + ((j - 1) * 2 + (i - 1))) with (at1 w ((j - 1) * 2 + i)) by (unfold at1; lia).
      apply Hw. lia.
    - intros i j Hii Hj. unfold at2. replace (w + ((j - 1) * 2 + (i - 1))) with (at1 w ((j - 1) * 2 + i)) by (unfold at1; lia).
      apply Hw. lia.
    - apply sub_arr; lia.
    - intros i Hii. apply WRd. apply sub_arr with (lo1 := 0) (hi1 := npt); lia.
    - apply sub_arr; lia.
    - intros i Hii. apply WRd. apply sub_arr with (lo1 := 0) (hi1 := ndim + npt); lia. }
  intros [nf1 kopt1]. unfold rres. cb. apply ht_ctx. intros Hk1.
  destruct (Z_lt_ge_dec nf1 0) as [L|L].
  - apply ht_weak with (P := fun s => exists nf, sx nf s) (Q := bpost); [|tauto|auto]. apply ht_ex. intros nf2.
    eapply ht_quietT; [exact HO|exact Hx|sf|]. intros xs. destruct (Z.ltb_spec nf1 0); [gt|lia].
  - apply ht_weak with (P := sx nf1) (Q := bpost); [|intros s [H1 _]; apply H1; lia|auto].
    eapply ht_quietT; [exact HO|exact Hx|sf|]. intros xs. destruct (Z.ltb_spec nf1 0); [lia|].
    destruct (_ <? nf1); [gt|]. bb. destruct (Z.ltb_spec 0 (b_ntrits v)); gt.
Qed.

Lemma bq_210_ht fuel v nf : blab B210 v -> bidx v -> nf = b_nf v ->
  ht (sx nf) (bq_210 n npt xpt xopt bmat zmat ndim sl su xnew xalt d w fuel v) bpost.
Proof.
  intros Hl Hi E. unfold bq_210. assert (Hi' := Hi). destruct Hi' as (Hi1 & Hi2 & Hi3). bb.
  eapply ht_quietT; [exact HO|exact Hx| |].
  - apply altmov_safe; auto; try apply sub_arr; try lia.
    intros i Hii. apply Hw. lia.
  - intros [alpha cauchy]. eapply ht_quietT; [exact HO|exact Hx|sf|]. intros _. gt.
Qed.

Lemma bq_230_ht v nf : blab B230 v -> bidx v -> nf = b_nf v ->
  ht (sx nf) (bq_230 n npt xpt xopt bmat zmat ndim xnew xalt d vlag w v) bpost.
Proof.
  intros Hl Hi E. unfold bq_230. assert (Hi' := Hi). destruct Hi' as (Hi1 & Hi2 & Hi3).
  eapply ht_quietT; [exact HO|exact Hx|apply bq_vlag_safe, Hi1|]. intros [beta dsq]. cbv zeta. bb.
  destruct (Z.eqb_spec (b_ntrits v) 0) as [E0|E0].
  - eapply ht_quietT; [exact HO|exact Hx|sf|]. intros denom. bb. destruct (_ && _)%bool.
    + eapply ht_quietT; [exact HO|exact Hx|sf|]. intros _. gt.
    + eapply ht_quietT; [exact HO|exact Hx|sf|]. intros [|]; [|gt]. destruct (_ <? _); gt.
  - eapply ht_quiet; [exact HO|exact Hx|apply scan_safe; auto|]. intros [[[scaden biglsq] knew] denom] Hk. bb.
    destruct (nle _ _); [|gt]. destruct (_ <? _); gt.
Qed.

Lemma bq_x_ht xv nf : arr W xv 1 n -> ht (sx nf) (bq_x n x xl xu xbase sl su xv) (fun _ => sx nf).
Proof.
  intros Hv. unfold bq_x, LOOP_.
  assert (Ha : forall i, 1 <= i <= n -> Rd (at1 x i) /\ C (at1 x i) = None /\ O (at1 x i)) by (intros i Hi; repeat split; apply Hx, Hi).
  eapply ht_weak.
  - apply (ht_loopJ n maxfun ctx sc box O m0
      (fun i (_ : unit) => part Rd C n maxfun ctx sc box O m0 x (fun _ => True) nf (fun j => 1 <= j < i)) 1 n); [lia|].
    intros i u Hi. eapply ht_post.
    + apply ht_wr; [exact Ha|auto|exact Hi|].
      apply pure_ifp; [pr|apply pure_hi, Hi|]. apply pure_ifp; [pr|apply pure_lo, Hi|]. apply pure_clamp; [exact Hi|pr].
    + intros _ s (H1 & H2 & H3). split; [auto|]. split; [|auto]. intros j Hj Kj. apply H2; [auto|lia].
  - intros s [Hs _]. split; [auto|]. split; [|exact Logic.I]. intros j Hj Kj. lia.
  - intros _ s (H1 & H2 & H3). split; [auto|]. intros j Hj _. apply H2; [auto|lia].
Qed.

Lemma bq_after_ht f v nf : -1 <= b_ntrits v -> bidx v -> nf = b_nf v ->
  ht (sx nf) (bq_after n npt xpt fval xopt gopt hq pq bmat zmat ndim sl su xnew d vlag w f v) bpost.
Proof.
  intros Hl Hi E. unfold bq_after. assert (Hi' := Hi). destruct Hi' as (Hi1 & Hi2 & Hi3).
  destruct (Z.eqb_spec (b_ntrits v) (-1)) as [E1|E1]; [gt|].
  eapply ht_quietT; [exact HO|exact Hx|sf|]. intros fopt.
  eapply ht_quietT; [exact HO|exact Hx|apply vquad_safe|]. intros vquad. cbv zeta.
  set (v1 := if nlt _ _ then _ else _).
  assert (E2 : b_ntrits v1 = b_ntrits v /\ b_knew v1 = b_knew v /\ b_kopt v1 = b_kopt v /\ b_nf v1 = b_nf v).
  { unfold v1. destruct (nlt _ _); auto. }
  clearbody v1. destruct E2 as (F1 & F2 & F3 & F4). rewrite F1.
  destruct (_ && _)%bool; [gt|].
  eapply ht_quiet with (P := fun v' => b_ntrits v' = b_ntrits v /\ 0 <= b_knew v' <= npt /\ b_kopt v' = b_kopt v /\ b_nf v' = b_nf v);
    [exact HO|exact Hx| |].
  { sf1; [|sf; repeat split; auto; lia].
    sf1; [|sf; bb; repeat split; auto; lia].
    eapply safe_bind; [apply scan_safe; auto|]. intros [[[scaden biglsq] knew] denom] Hk. bb.
    sf; bb; repeat split; auto; lia. }
  intros v2 (G1 & G2 & G3 & G4).
  eapply ht_quietT; [exact HO|exact Hx|apply move_safe, G2|]. intros _.
  eapply ht_quiet with (P := fun v' => b_ntrits v' = b_ntrits v /\ 0 <= b_knew v' <= npt /\ 0 <= b_kopt v' <= npt /\ b_nf v' = b_nf v);
    [exact HO|exact Hx| |].
  { sf1; [|sf; repeat split; auto; lia]. apply safe_bindT; [apply newopt_safe|]. intros xs. sf. bb. repeat split; auto; lia. }
  intros v3 (K1 & K2 & K3 & K4).
  eapply ht_quiet with (P := fun v' => b_ntrits v' = b_ntrits v /\ 0 <= b_knew v' <= npt /\ 0 <= b_kopt v' <= npt /\ b_nf v' = b_nf v);
    [exact HO|exact Hx| |].
  { sf1; [|sf; repeat split; auto; lia]. apply safe_bindT; [apply frob_safe, K3|]. intros it. sf. bb. repeat split; auto; lia. }
  intros v4 (M1 & M2 & M3 & M4). destruct (_ || _)%bool; gt.
Qed.

Lemma bq_360_ht v nf : blab B360 v -> bidx v -> nf = b_nf v ->
  ht (sx nf) (bq_360 n npt ctx x xl xu maxfun xbase xpt fval xopt gopt hq pq bmat zmat ndim sl su xnew d vlag w v) bpost.
Proof.
  intros Hl Hi E. unfold bq_360. eapply ht_bind; [apply bq_x_ht; auto|]. intros u. cbv beta.
  destruct (Z.leb_spec maxfun (b_nf v)) as [L|L]; [gt|]. cbv zeta.
  eapply ht_bind.
  { eapply ht_weak; [apply (ht_call W Rd C n maxfun x ctx sc box Hcn O m0 Hscl nf x)| |].
    - lia.
    - intros i Hii. split; [apply Hx, Hii|auto].
    - intros s [A B]. auto.
    - intros f s Hs. exact Hs. }
  intros f. cbv beta. apply bq_after_ht; [exact Hl| |bb; lia]. unfold bidx in *. bb. lia.
Qed.

Lemma bq_650_ht v nf : blab B650 v -> bidx v -> nf = b_nf v -> ht (sx nf) (bq_650 n npt xpt xopt v) bpost.
Proof.
  intros Hl Hi E. unfold bq_650. assert (Hi' := Hi). destruct Hi' as (Hi1 & Hi2 & Hi3).
  eapply ht_quiet with (P := fun r => 0 <= fst r <= npt); [exact HO|exact Hx| |].
  - unfold LOOP at 1. apply (safe_loopP W Rd C (fun r : Z * N => 0 <= fst r <= npt)); [|cb; lia].
    intros k [kn ds] Hk Hp. cb. apply safe_bindT; [sf|]. intros sum. sf; cb; lia.
  - intros [knew distsq] Hk. bb. cbv zeta. bb.
    destruct (Z.ltb_spec 0 knew); [gt|]. destruct (Z.eqb_spec (b_ntrits v) (-1)); [gt|].
    destruct (_ || _)%bool; gt.
Qed.

Lemma bq_680_ht v nf : blab B680 v -> bidx v -> nf = b_nf v -> ht (sx nf) (bq_680 rhoend v) bpost.
Proof.
  intros Hl Hi E. unfold bq_680. cbv zeta. destruct (nlt _ _); [gt|]. destruct (_ =? _); gt.
Qed.

Lemma bq_step_ht fuel l :
  ht (binv l)
    (bq_step n npt ctx x xl xu rhoend maxfun xbase xpt fval xopt gopt hq pq bmat zmat ndim sl su xnew xalt d vlag w fuel l) bpost.
Proof.
  destruct l as [l v]. unfold binv at 1. cb. apply ht_ctx. intros (H1 & H2 & H3).
  destruct l; cbn [bq_step];
    try (assert (H4 := H2 ltac:(discriminate));
         eapply ht_weak with (P := sx (b_nf v)) (Q := bpost); [|intros s [Hs _]; apply Hs; discriminate|auto]).
  - apply bq_20_ht; auto.
  - apply bq_60_ht; auto.
  - apply bq_90_ht; auto.
  - apply bq_190_ht; auto.
  - apply bq_210_ht; auto.
  - apply bq_230_ht; auto.
  - apply bq_360_ht; auto.
  - apply bq_650_ht; auto.
  - apply bq_680_ht; auto.
  - apply ht_ret. intros s [_ Hs]. split; auto.
Qed.

Lemma bq_done_ht v : 0 <= b_kopt v <= npt ->
  ht (fun s => exists nf, sx nf s) (bq_done n x xl xu xbase fval xopt sl su v) (fun _ s => exists nf, sx nf s).
Proof.
  intros Hk. apply ht_ex. intros nf.
  eapply ht_post with (Q := fun _ => sx nf); [|intros _ s Hs; exists nf; exact Hs].
  unfold bq_done. eapply ht_bind with (R := fun _ => sx nf).
  - eapply ht_quietT; [exact HO|exact Hx|sf|]. intros [|].
    + eapply ht_bind; [apply bq_x_ht; auto|]. intros u. cbv beta. eapply ht_post; [eapply (ht_safex W); [exact HO|exact Hx|sf]|].
      intros f s [_ Hs]. exact Hs.
    + apply ht_ret. auto.
  - intros f. cbv beta. eapply ht_quietT; [exact HO|exact Hx|sf|]. intros _. apply ht_ret. auto.
Qed.

Lemma bq_start_ht :
  ht (st 0) (bq_start n npt ctx x xl xu rhobeg maxfun xbase xpt fval xopt gopt hq pq bmat zmat ndim sl su) bpost.
Proof.
  unfold bq_start. eapply ht_bind; [apply prelim_ht|]. intros [nf kopt]. unfold pres. cb. apply ht_ctx. intros [H1 H2].
  eapply ht_quietT; [exact HO|exact Hx|sf|]. intros xs. eapply ht_quietT; [exact HO|exact Hx|sf|]. intros fs. cbv zeta.
  destruct (_ <? _); gt.
Qed.

Theorem bobyqb_ht fuel :
  ht (st 0)
    (bobyqb n npt ctx x xl xu rhobeg rhoend maxfun xbase xpt fval xopt gopt hq pq bmat zmat ndim sl su xnew xalt d vlag w fuel)
    (fun _ s => exists nf, sx nf s).
Proof.
  unfold bobyqb. eapply ht_bind; [apply bq_start_ht|]. intros [l|v].
  - eapply ht_bind.
    + apply (ht_machine n maxfun ctx sc box O m0 binv (fun v s => 0 <= b_kopt v <= npt /\ exists nf, sx nf s)).
      * intros l1 s (_ & _ & nf & Hs). exact (sx_E _ _ _ _ _ _ _ _ _ _ nf s Hs).
      * intros l1. apply bq_step_ht.
    + intros v. cbv beta. apply ht_ctx. intros Hk. apply bq_done_ht, Hk.
  - unfold bpost. apply ht_ctx. intros Hk. apply bq_done_ht, Hk.
Qed.
End Run.
