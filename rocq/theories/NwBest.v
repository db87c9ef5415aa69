(** * The best point found by newuoa, in exact arithmetic *)
From Coq Require Import ZArith Reals List Bool Lia Lra.
From Flocq Require Import Core.
From Verif Require Import Num BqLang BqModel BqWp BqSafe BqEval BqRun BqStart BqPc BqSpec BqBest NwModel NwSafe NwMain.
Import ListNotations.
Local Open Scope Z_scope.

Ltac nvr := cbn [v_fopt v_f v_kopt v_nf v_knew v_idz v_ksave s_alpha s_beta s_crvmin s_delta
  s_diff s_diffa s_diffb s_diffc s_dnorm s_dsq s_dstep s_fbeg s_fopt s_ratio s_recip s_reciq s_rho s_rhosq s_vquad s_xipt
  s_xjpt s_xoptsq s_f s_idz s_ipt s_itest s_jpt s_knew s_kopt s_ksave s_nf s_nfm s_nfmm s_nfsav s_status fst snd] in *.

Lemma wp_bindT {N : Num} {A B} (p : prog N A) (q : A -> prog N B) s Q : (forall a s', wp (q a) s' Q) -> wp (bind p q) s Q.
Proof. intros H. apply wp_bind. intros a s' _. apply H. Qed.
Lemma wp_and {N : Num} {A} (p : prog N A) s (P Q : A -> mst N -> Prop) : wp p s P -> wp p s Q -> wp p s (fun a s' => P a s' /\ Q a s').
Proof. intros H K a s' E. split; [apply H, E|apply K, E]. Qed.

Section Best.
Variables HH II : R.
Notation N := (NumR HH II).
Notation mst := (mst N).
Notation prog := (prog N).
Notation nvars := (nvars (N := N)).
Variables (ncos nsin : N -> N).
Variables (Rd : Z -> Prop).
Notation C := (fun _ : Z => @None N).
Variables (n npt x : Z) (rhobeg rhoend : N) (maxfun : Z).
Variables (xbase xopt xnew xpt fval gq hq pq bmat zmat d vlag w wend : Z).
Notation ndim := (npt + n).
Notation nh := (n * (n + 1) / 2).
Notation nptm := (npt - (n + 1)).
Hypothesis (Hn : 1 <= n) (Hnpt : n + 2 <= npt) (Hnpt2 : 2 * npt <= (n + 1) * (n + 2)) (Hmax : npt <= maxfun).
(** The layout of the workspace; [G]: the arrays after XPT *)
Hypothesis (L1 : xbase + n <= xopt) (L2 : xopt + n <= xnew) (L3 : xnew + n <= xpt) (L4 : xpt + npt * n <= fval) (L5 : fval <= wend)
  (L6 : x + n <= xbase \/ wend <= x).
Notation G := (fun a => fval <= a < wend).
Hypothesis (Gfval : arr G fval 1 npt) (Ggq : arr G gq 1 n) (Ghq : arr G hq 1 nh)
  (Gpq : arr G pq 1 npt) (Gbmat : mat G bmat ndim 1 ndim 1 n) (Gzmat : mat G zmat npt 1 npt 1 nptm) (Gd : arr G d 1 n)
  (Gvlag : arr G vlag 1 ndim) (Gw : arr G w 1 (11 * ndim)).
Hypothesis HRd : forall a, xbase <= a < wend -> Rd a.
Hypothesis HRx : forall a, x <= a < x + n -> Rd a.

Lemma pn : 0 <= npt * n.
Proof. nia. Qed.
Ltac geo := pose proof pn; lia.
(** XPT and the following arrays; the same and XNEW *)
Definition W2 (a : Z) : Prop := xpt <= a < wend.
Definition W3 (a : Z) : Prop := xnew <= a < wend.
Definition W0 (a : Z) : Prop := False.
Lemma W0Rd a : W0 a -> Rd a. Proof. intros []. Qed.
Lemma W2Rd a : W2 a -> Rd a. Proof. intros H. apply HRd. unfold W2 in H. geo. Qed.
Lemma W3Rd a : W3 a -> Rd a. Proof. intros H. apply HRd. unfold W3 in H. geo. Qed.
Lemma CWn (W : Z -> Prop) (a : Z) (v : N) : C a = Some v -> ~ W a. Proof. discriminate. Qed.
Lemma at2r k i : 1 <= k <= npt -> 1 <= i <= n -> xpt <= at2 xpt npt k i < xpt + npt * n.
Proof. apply at2_range. Qed.
Lemma arr_in (P Q : Z -> Prop) p lo hi : (forall a, P a -> Q a) -> arr P p lo hi -> arr Q p lo hi.
Proof. intros H K i Hi. apply H, K, Hi. Qed.
Lemma mat_in (P Q : Z -> Prop) p l a b c e : (forall a, P a -> Q a) -> mat P p l a b c e -> mat Q p l a b c e.
Proof. intros H K i j Hi Hj. apply H, K; auto. Qed.
Lemma GRd a : G a -> Rd a. Proof. cbv beta. intros H. apply HRd. geo. Qed.
Lemma GW2 a : G a -> W2 a. Proof. cbv beta. unfold W2. geo. Qed.
Lemma GW3 a : G a -> W3 a. Proof. cbv beta. unfold W3. geo. Qed.
Lemma Rx : arr Rd x 1 n. Proof. intros i Hi. apply HRx. unfold at1. lia. Qed.
Lemma Rxbase : arr Rd xbase 1 n. Proof. intros i Hi. apply HRd. unfold at1. geo. Qed.
Lemma Rxopt : arr Rd xopt 1 n. Proof. intros i Hi. apply HRd. unfold at1. geo. Qed.
Lemma Rxnew : arr Rd xnew 1 n. Proof. intros i Hi. apply HRd. unfold at1. geo. Qed.
Lemma Rxpt : mat Rd xpt npt 1 npt 1 n.
Proof. intros i j Hi Hj. apply HRd. pose proof (at2r i j Hi Hj). geo. Qed.
Lemma W2xpt : mat W2 xpt npt 1 npt 1 n.
Proof. intros i j Hi Hj. pose proof (at2r i j Hi Hj). unfold W2. geo. Qed.
Lemma W3xpt : mat W3 xpt npt 1 npt 1 n.
Proof. intros i j Hi Hj. pose proof (at2r i j Hi Hj). unfold W3. geo. Qed.
Lemma W3xnew : arr W3 xnew 1 n.
Proof. intros i Hi. unfold W3, at1. geo. Qed.
Hint Resolve W0Rd W2Rd W3Rd CWn GRd GW2 GW3 Rx Rxbase Rxopt Rxnew Rxpt W2xpt W3xpt W3xnew : nb.
Hint Extern 2 (arr _ _ _ _) => (eapply arr_in; [|first [exact Gfval|exact Ggq|exact Ghq|exact Gpq|exact Gd|exact Gvlag|exact Gw]]) : nb.
Hint Extern 2 (mat _ _ _ _ _ _ _) => (eapply mat_in; [|first [exact Gbmat|exact Gzmat]]) : nb.

(** ** Values *)
Definition get (s : mst) (a : Z) : R := match mm s a with Some v => v | None => 0%R end.
Lemma wp_ldg a s (Q : N -> mst -> Prop) : Q (get s a) s -> wp (ld a) s Q.
Proof. intros H. apply wp_ld. intros v E. unfold get in H. rewrite E in H. exact H. Qed.
Lemma get_same (s : mst) a (v : N) : get (upd s a v) a = v.
Proof. unfold get. rewrite upd_same. reflexivity. Qed.
Lemma get_other (s : mst) a b (v : N) : b <> a -> get (upd s a v) b = get s b.
Proof. intros H. unfold get. rewrite upd_other by exact H. reflexivity. Qed.
Lemma get_frame (W : Z -> Prop) s s' a : frame W s s' -> ~ W a -> get s' a = get s a.
Proof. intros [F _] H. unfold get. rewrite F by exact H. reflexivity. Qed.

(** The value of an evaluation as seen by newuoa, and the given variable of a computed one *)
Variables (maximize : bool) (scaled : bool) (sc : Z -> R).
Definition val (e : list N * N) : R := if maximize then (- snd e)%R else snd e.
Definition img (i : Z) (v : R) : N := if scaled then (sc i * v)%R else v.
Definition least (e : list N * N) (l : list (list N * N)) : Prop := In e l /\ forall e', In e' l -> (val e <= val e')%R.
Definition point (e : list N * N) (X : Z -> R) : Prop :=
  length (fst e) = Z.to_nat n /\ forall i, 1 <= i <= n -> nth_error (fst e) (Z.to_nat (i - 1)) = Some (img i (X i)).
Lemma point_ext e X Y : (forall i, 1 <= i <= n -> X i = Y i) -> point e X -> point e Y.
Proof. intros H [K1 K2]. split; [exact K1|]. intros i Hi. rewrite <- H by exact Hi. auto. Qed.

(** The best point, during the first evaluations and after them *)
Definition binit (l : list (list N * N)) (v : nvars) (s : mst) : Prop :=
  exists e, least e l /\ v_fopt v = val e /\ point e (fun i => get s (at2 xpt npt (v_kopt v) i) + get s (at1 xbase i))%R.
Definition bmain (l : list (list N * N)) (v : nvars) (s : mst) : Prop :=
  exists e, least e l /\ v_fopt v = val e /\ point e (fun i => get s (at1 xbase i) + get s (at1 xopt i))%R.
(** The current point *)
Definition cinit (v : nvars) (s : mst) : Prop :=
  forall i, 1 <= i <= n -> get s (at1 x i) = (get s (at2 xpt npt (v_nf v) i) + get s (at1 xbase i))%R.
Definition cmain (s : mst) : Prop := forall i, 1 <= i <= n -> get s (at1 x i) = (get s (at1 xbase i) + get s (at1 xnew i))%R.
(** The variables and the memory before an evaluation, or after it; [l] is the list of the previous ones *)
Definition atx (l : list (list N * N)) (v : nvars) (s : mst) : Prop :=
  (v_nf v <= npt -> (2 <= v_nf v -> binit l v s /\ 1 <= v_kopt v < v_nf v) /\ cinit v s) /\
  (npt < v_nf v -> bmain l v s /\ cmain s).
Definition newest (v : nvars) (s : mst) : Prop :=
  exists e l, evs s = e :: l /\ v_f v = val e /\ point e (fun i => get s (at1 x i)) /\ atx l v s.
Definition binv (l : nlabel * nvars) (s : mst) : Prop :=
  let v := snd l in
  match fst l with
  | N50 => 1 <= v_nf v -> binit (evs s) v s /\ 1 <= v_kopt v <= v_nf v
  | N310 => atx (evs s) v s /\ (npt < v_nf v -> (v_fopt v <= v_f v)%R)
  | Neval => atx (evs s) v s
  | N70 | Nnew => newest v s
  | Ndone => (bmain (evs s) v s /\ (v_fopt v <= v_f v)%R) \/
             ((v_f v < v_fopt v)%R /\ exists e, least e (evs s) /\ v_f v = val e /\ point e (fun i => get s (at1 x i)))
  | _ => bmain (evs s) v s /\ (v_fopt v <= v_f v)%R
  end.
Definition bpost {B} (r : nlabel * nvars + B) (s : mst) : Prop := match r with inl l => binv l s | inr _ => False end.
(** The code between two labels that keeps the best point and the last value *)
Definition calm {B} (v : nvars) (r : nlabel * nvars + B) : Prop :=
  match r with
  | inl (l, v') => match l with N50 | N70 | N310 | Neval | Nnew => False | _ => v_fopt v' = v_fopt v /\ v_f v' = v_f v end
  | inr _ => False
  end.
Lemma calm_binv {B} v (r : nlabel * nvars + B) s : calm v r -> bmain (evs s) v s -> (v_fopt v <= v_f v)%R -> bpost r s.
Proof.
  intros K Hb Hf. destruct r as [[l v']|]; [|contradiction].
  assert (M : match l with N50 | N70 | N310 | Neval | Nnew => False | _ => True end -> v_fopt v' = v_fopt v ->
     v_f v' = v_f v -> bmain (evs s) v' s /\ (v_fopt v' <= v_f v')%R).
  { intros _ E1 E2. rewrite E1, E2. split; [|exact Hf]. unfold bmain in *. rewrite E1. exact Hb. }
  unfold calm in K. destruct l; try contradiction; destruct K as [E1 E2]; specialize (M Logic.I E1 E2); try exact M.
  left. exact M.
Qed.
Lemma bmain_frame (W : Z -> Prop) l v s s' : frame W s s' -> (forall a, xbase <= a < xnew -> ~ W a) -> bmain l v s -> bmain l v s'.
Proof.
  intros F HW (e & E1 & E2 & E3). exists e. split; [exact E1|]. split; [exact E2|]. eapply point_ext; [|exact E3].
  intros i Hi. cbv beta. rewrite !(get_frame W s s') by (auto; apply HW; unfold at1; geo). reflexivity.
Qed.
Ltac wq := repeat first
  [ apply wp_ret | apply wp_bindT; intros ? ?
  | match goal with |- wp (if ?b then _ else _) _ _ => destruct b
    | |- wp (let '(_, _) := ?p in _) _ _ => destruct p
    | |- wp (ngoto _ _) _ _ => apply wp_ret
    | |- wp (nfail _ _) _ _ => apply wp_ret end ].
Ltac cq := unfold calm, ngoto, nfail; nvr; auto.

(** Steps that write only in [W] *)
Lemma step_calm {B} (W : Z -> Prop) (p : prog (nlabel * nvars + B)) P v s :
  safe W Rd C p P -> good Rd C s -> (forall a, xbase <= a < xnew -> ~ W a) -> wp p s (fun r _ => calm v r) ->
  bmain (evs s) v s -> (v_fopt v <= v_f v)%R -> wp p s bpost.
Proof.
  intros HS Gs HW HP Hb Hf. eapply wp_weak; [apply (wp_and _ _ _ (fun r s' => evs s' = evs s /\ bmain (evs s) v s') HP)|].
  - eapply wp_safe; [exact HS|exact Gs|]. intros a s' _ _ F. split; [apply F|]. eapply bmain_frame; eauto.
  - intros r s' (K & Ev & Hb'). apply (calm_binv v); auto. rewrite Ev. exact Hb'.
Qed.

Lemma b100 {B} fuel v s c st : ninv n npt maxfun c st (N100, v) -> good Rd C s -> binv (N100, v) s ->
  wp (nw_100 (B := B) ncos nsin n npt xopt xpt gq hq pq d w fuel v) s bpost.
Proof.
  intros H Gs [Hb Hf]. eapply (step_calm W2).
  - apply nw_100_safe with (maxfun := maxfun) (c := c) (st := st) (Q := fun _ => False); first [exact rhobeg|exact ncos|eauto with nb].
  - exact Gs.
  - intros a Ha. unfold W2. lia.
  - unfold nw_100. wq; cq.
  - exact Hb.
  - exact Hf.
Qed.
Lemma b460 {B} v s c st : ninv n npt maxfun c st (N460, v) -> good Rd C s -> binv (N460, v) s ->
  wp (nw_460 (B := B) n npt xopt xpt v) s bpost.
Proof.
  intros H Gs [Hb Hf]. eapply (step_calm W0).
  - apply nw_460_safe with (maxfun := maxfun) (c := c) (st := st) (Q := fun _ => False); first [exact rhobeg|exact ncos|eauto with nb].
  - exact Gs.
  - intros a Ha. unfold W0. auto.
  - unfold nw_460. wq; cq.
  - exact Hb.
  - exact Hf.
Qed.
Lemma b490 {B} v s : binv (N490, v) s -> wp (nw_490 (B := B) rhoend v) s bpost.
Proof.
  intros [Hb Hf]. unfold nw_490. cbv zeta.
  match goal with |- context [if nlt rhoend ?a then _ else _] => destruct (nlt rhoend a) end; [|destruct (v_knew v =? -1)];
    apply wp_ret; apply (calm_binv v); auto; cq.
Qed.
Lemma b90 {B} v s : binv (N90, v) s -> wp (ngoto (B := B) N100 (s_nfsav (v_nf v) v)) s bpost.
Proof. intros [Hb Hf]. apply wp_ret. apply (calm_binv v); auto. cq. Qed.

Ltac arrs W HWRd := pose proof HWRd; pose proof (CWn W); pose proof Rx; pose proof Rxbase; pose proof Rxopt; pose proof Rxnew; pose proof Rxpt;
  assert (arr Rd fval 1 npt) by auto with nb; assert (arr Rd gq 1 n) by auto with nb; assert (arr Rd hq 1 nh) by auto with nb;
  assert (arr Rd pq 1 npt) by auto with nb; assert (mat Rd bmat ndim 1 ndim 1 n) by auto with nb;
  assert (mat Rd zmat npt 1 npt 1 nptm) by auto with nb; assert (arr Rd d 1 n) by auto with nb;
  assert (arr Rd vlag 1 ndim) by auto with nb; assert (arr Rd w 1 (11 * ndim)) by auto with nb;
  assert (mat W xpt npt 1 npt 1 n) by auto with nb;
  assert (arr W fval 1 npt) by auto with nb; assert (arr W gq 1 n) by auto with nb; assert (arr W hq 1 nh) by auto with nb;
  assert (arr W pq 1 npt) by auto with nb; assert (mat W bmat ndim 1 ndim 1 n) by auto with nb;
  assert (mat W zmat npt 1 npt 1 nptm) by auto with nb; assert (arr W d 1 n) by auto with nb;
  assert (arr W vlag 1 ndim) by auto with nb; assert (arr W w 1 (11 * ndim)) by auto with nb.

(** The shift of XBASE keeps XBASE + XOPT *)
Definition sumk (s s' : mst) : Prop := evs s' = evs s /\
  forall i, 1 <= i <= n -> (get s' (at1 xbase i) + get s' (at1 xopt i) = get s (at1 xbase i) + get s (at1 xopt i))%R.
Lemma sumk_frame (W : Z -> Prop) s s' : frame W s s' -> (forall a, xbase <= a < xnew -> ~ W a) -> sumk s s'.
Proof.
  intros F HW. split; [apply F|]. intros i Hi. rewrite !(get_frame W s s') by (auto; apply HW; unfold at1; geo). reflexivity.
Qed.
Lemma sumk_trans s1 s2 s3 : sumk s1 s2 -> sumk s2 s3 -> sumk s1 s3.
Proof. intros [A B] [A' B']. split; [congruence|]. intros i Hi. rewrite B' by exact Hi. auto. Qed.
Lemma bmain_sumk l v s s' : sumk s s' -> bmain l v s -> bmain l v s'.
Proof.
  intros [_ K] (e & E1 & E2 & E3). exists e. split; [exact E1|]. split; [exact E2|]. eapply point_ext; [|exact E3].
  intros i Hi. symmetry. apply K, Hi.
Qed.
Lemma wp_q2 {A B} (p : prog A) (q : A -> prog B) s0 s Q : safe W2 Rd C p (fun _ => True) -> good Rd C s -> sumk s0 s ->
  (forall a s', good Rd C s' -> sumk s0 s' -> wp (q a) s' Q) -> wp (bind p q) s Q.
Proof.
  intros HS Gs K HQ. apply wp_bind. eapply wp_safe; [exact HS|exact Gs|]. intros a s' _ G' F. apply HQ; auto.
  eapply sumk_trans; [exact K|]. eapply sumk_frame; [exact F|]. intros b Hb. unfold W2. lia.
Qed.

Lemma b_shift idz dsq xoptsq s : good Rd C s ->
  wp (nw_shift n npt xbase xopt xpt gq hq pq bmat zmat vlag w idz dsq xoptsq) s (fun _ s' => good Rd C s' /\ sumk s s').
Proof.
  intros Gs. unfold nw_shift. cbv zeta.
  match goal with |- context [if ?b then _ else _] => destruct b end; [|apply wp_ret; split; [exact Gs|split; auto]].
  arrs W2 W2Rd.
  eapply (wp_q2 _ _ s); [sf|exact Gs|split; auto|]. intros _ s1 G1 S1.
  eapply (wp_q2 _ _ s); [sf|exact G1|exact S1|]. intros _ s2 G2 S2.
  eapply (wp_q2 _ _ s); [|exact G2|exact S2|].
  { apply (safe_weak W2 Rd C _ (fun ih => 2 * ih = (n + 1) * (n + 1 - 1))); [|auto].
    unfold LOOP at 1. apply (safe_loopJ W2 Rd C (fun j ih => 2 * ih = j * (j - 1))); [lia| |lia].
    intros j ih Hj E1. do 2 (apply safe_bindT; [sf|intros _]).
    apply (safe_weak W2 Rd C _ (fun ih => 2 * ih = j * (j - 1) + 2 * (j + 1 - 1))); [|intros; lia].
    unfold LOOP. apply (safe_loopJ W2 Rd C (fun i ih => 2 * ih = j * (j - 1) + 2 * (i - 1))); [lia| |lia].
    intros i ih' Hi E'. assert (K := tri_range n j i ih' Hi (proj2 Hj) E').
    apply safe_bindT; [sf|intros _]. sf. lia. }
  intros _ s3 G3 S3. apply wp_bind. unfold LOOP_.
  apply (wp_loopJ (fun _ (_ : unit) t => good Rd C t /\ sumk s t)); [lia|auto| |].
  - intros i u t Hi [Gt St]. apply wp_bind, wp_assign_add, wp_ldg, wp_ldg. apply wp_assign, wp_ret.
    split; [apply good_upd; [apply good_upd; [exact Gt|reflexivity]|reflexivity]|].
    eapply sumk_trans; [exact St|]. split; [reflexivity|]. intros j Hj.
    destruct (Z.eq_dec j i) as [->|Ne].
    + rewrite get_same. rewrite get_other by (unfold at1; geo). rewrite get_same.
      unfold zero. cbn [nadd nZ NumR]. ring.
    + rewrite !get_other; [reflexivity|..]; unfold at1; geo.
  - intros u t [Gt St]. apply wp_ret. auto.
Qed.

Lemma b120 {B} fuel v s c st : ninv n npt maxfun c st (N120, v) -> good Rd C s -> binv (N120, v) s ->
  wp (nw_120 (B := B) ncos nsin n npt xbase xopt xnew xpt gq hq pq bmat zmat d vlag w fuel v) s bpost.
Proof.
  intros H Gs [Hb Hf]. cbn [snd] in Hb, Hf. unfold nw_120. cbv zeta. apply wp_bind.
  eapply wp_weak; [apply b_shift, Gs|]. intros xoptsq s1 [G1 S1].
  assert (Hb1 : bmain (evs s1) v s1).
  { rewrite (proj1 S1). apply (bmain_sumk _ _ s s1 S1). exact Hb. }
  unfold ninv, nlab, main_ok, base_ok, kok in H. cbn [fst snd] in H.
  eapply (step_calm W3 _ (fun _ => True)); [|exact G1| | |exact Hb1|exact Hf].
  - arrs W3 W3Rd. pose proof W3xnew as Wn.
    assert (Wv : arr W3 vlag 1 ndim) by auto with nb. assert (Ww : arr W3 w 1 (11 * ndim)) by auto with nb.
    assert (Rzmat : mat Rd zmat npt 1 npt 1 nptm) by auto with nb.
    assert (A0 : arr W3 w 1 n) by (intros i Hi; apply Ww; lia).
    assert (A1 := sub_w W3 n npt w n n ltac:(lia) ltac:(lia) Ww). assert (A2 := sub_w W3 n npt w (n + n) n ltac:(lia) ltac:(lia) Ww).
    rewrite Z.add_assoc in A2. assert (A3 := sub_w_mat W3 n npt w ndim ltac:(lia) ltac:(lia) Ww).
    assert (A4 := sub_w_mat W3 n npt w (ndim * 6) ltac:(lia) ltac:(lia) Ww).
    assert (A5 : arr W3 w 1 ndim) by (intros i Hi; apply Ww; lia).
    assert (V1 : arr W3 vlag 1 npt) by (intros i Hi; apply Wv; lia).
    assert (V2 : arr W3 (vlag + npt) 1 n).
    { intros i Hi. replace (at1 (vlag + npt) i) with (at1 vlag (npt + i)) by (unfold at1; lia). apply Wv; lia. }
    assert (Z1 : mat Rd zmat npt 1 npt 1 (npt - n - 1)) by (intros i j Hi Hj; apply Rzmat; lia).
    apply safe_bindT.
    { destruct (Z.ltb_spec 0 (v_knew v)); [|sf]. apply biglag_safe; auto; lia. }
    intros alpha. apply safe_bindT; [apply nw_vlag_safe; auto; unfold kok; lia|]. intros beta.
    apply safe_bindT.
    { destruct (Z.ltb_spec 0 (v_knew v)); [|sf]. apply safe_bindT; [sf|]. intros temp. sf1; [|sf].
      apply bigden_safe; auto; lia. }
    intros beta'. apply safe_ret. exact Logic.I.
  - intros a Ha. unfold W3. lia.
  - wq; cq.
Qed.

Lemma gf (W : Z -> Prop) s s' (F : frame W s s') a : ~ W a -> get s' a = get s a.
Proof. intros H. eapply get_frame; eauto. Qed.
Lemma bmain_v l v v' s : v_fopt v' = v_fopt v -> bmain l v s -> bmain l v' s.
Proof. intros E (e & E1 & E2 & E3). exists e. rewrite E. auto. Qed.
Lemma bmain_ext l v v' s s' : v_fopt v' = v_fopt v -> (forall i, 1 <= i <= n -> get s' (at1 xbase i) = get s (at1 xbase i)) ->
  (forall i, 1 <= i <= n -> get s' (at1 xopt i) = get s (at1 xopt i)) -> bmain l v s -> bmain l v' s'.
Proof.
  intros E F1 F2 (e & E1 & E2 & E3). exists e. split; [exact E1|]. split; [congruence|]. eapply point_ext; [|exact E3].
  intros i Hi. cbv beta. rewrite F1, F2 by exact Hi. reflexivity.
Qed.

(** Assignments to the elements of a vector *)
Lemma wp_set {A} a b s (q : unit -> prog A) (Q : A -> mst -> Prop) : wp b s (fun v s' => wp (q tt) (upd s' a v) Q) ->
  wp (bind (assign a b) q) s Q.
Proof. intros H. apply wp_bind, wp_assign. exact H. Qed.

Definition W290 (a : Z) : Prop := xnew <= a < xnew + n \/ x <= a < x + n.
Lemma b290 {B} v s c st : ninv n npt maxfun c st (N290, v) -> good Rd C s -> binv (N290, v) s ->
  wp (nw_290 (B := B) n x xbase xopt xnew d v) s bpost.
Proof.
  intros H Gs [Hb Hf]. cbn [snd] in Hb, Hf.
  eapply wp_weak; [apply (wp_and _ _ (fun _ s' => frame W290 s s')
     (fun r s' => r = inl (N310, s_nf (v_nf v + 1) v) /\ cmain s'))|].
  - eapply wp_safe; [apply nw_290_safe with (W := W290) (Rd := Rd) (C := C) (maxfun := maxfun) (c := c) (st := st) (Q := fun _ => False);
      first [exact rhobeg|exact ncos|eauto with nb]|exact Gs|auto].
    + intros a [Ha|Ha]; [apply HRd; geo|apply HRx; exact Ha].
    + intros i Hi. left. unfold at1. lia.
    + intros i Hi. right. unfold at1. lia.
  - unfold nw_290, LOOP_. apply wp_bind.
    apply (wp_loopJ (fun i (_ : unit) t => forall j, 1 <= j < i -> get t (at1 x j) = (get t (at1 xbase j) + get t (at1 xnew j))%R)).
    + lia.
    + intros j Hj. lia.
    + intros i u t Hi Ht. apply wp_set, wp_lift2, wp_ldg, wp_ldg. apply wp_assign, wp_lift2, wp_ldg, wp_ldg.
      intros j Hj. destruct (Z.eq_dec j i) as [->|Ne].
      * rewrite get_same. rewrite (get_other _ (at1 x i)) by (unfold at1; geo).
        rewrite (get_other _ (at1 x i) (at1 xnew i)) by (unfold at1; geo). reflexivity.
      * rewrite !get_other by (unfold at1; geo). apply Ht. lia.
    + intros u t Ht. apply wp_ret. split; [reflexivity|]. intros j Hj. apply Ht. lia.
  - cbv beta. intros r s' (F & -> & Hc). unfold bpost, binv. nvr.
    unfold ninv, nlab, main_ok, base_ok in H. cbn [fst snd] in H. split.
    + split; [nvr; lia|]. intros _. split; [|exact Hc]. rewrite (proj2 F).
      eapply bmain_ext; [reflexivity| | |exact Hb]; intros i Hi; apply (gf _ _ _ F); unfold W290, at1; geo.
    + intros _. exact Hf.
Qed.

Lemma b310 {B} v s c st : ninv n npt maxfun c st (N310, v) -> binv (N310, v) s -> wp (nw_310 (B := B) maxfun v) s bpost.
Proof.
  intros H [Ha Hf]. unfold nw_310, nfail, ngoto. destruct (Z.ltb_spec (Z.max maxfun 1) (v_nf v)); apply wp_ret.
  - left. nvr. destruct (proj2 Ha ltac:(lia)) as [Hb _]. split; [|apply Hf; lia]. eapply bmain_v; [|exact Hb]. reflexivity.
  - exact Ha.
Qed.

(** The row of XPT that is written by L50 *)
Definition W50 (k a : Z) : Prop := (exists j, 1 <= j <= n /\ a = at2 xpt npt k j) \/ x <= a < x + n.
Lemma W50_out k a : 1 <= k <= npt -> W50 k a -> xpt <= a < fval \/ x <= a < x + n.
Proof. intros Hk [(j & Hj & ->)|Ha]; [left; pose proof (at2r k j Hk Hj); lia|right; exact Ha]. Qed.
Lemma b50 {B} v s c st : ninv n npt maxfun c st (N50, v) -> good Rd C s -> binv (N50, v) s ->
  wp (nw_50 (B := B) n npt x rhobeg xbase xpt fval v) s bpost.
Proof.
  intros H Gs Hb. unfold binv in Hb. nvr. assert (H' := H). unfold ninv, nlab in H'. cbn [fst snd] in H'. destruct H' as [[Hv Hk] _].
  eapply wp_weak; [apply (wp_and _ _ (fun _ s' => frame (W50 (v_nf v + 1)) s s')
     (fun r s' => exists v', r = inl (N310, v') /\ v_nf v' = v_nf v + 1 /\ v_kopt v' = v_kopt v /\ v_fopt v' = v_fopt v /\ cinit v' s'))|].
  - eapply wp_safe; [apply nw_50_safe with (W := W50 (v_nf v + 1)) (Rd := Rd) (C := C) (maxfun := maxfun) (c := c) (st := st) (Q := fun _ => False);
      first [exact rhobeg|exact ncos|eauto with nb]|exact Gs|auto].
    + intros a Ha. apply W50_out in Ha; [|lia]. destruct Ha as [Ha|Ha]; [apply HRd; geo|apply HRx; exact Ha].
    + intros i j Hi Hj. left. exists j. split; [exact Hj|]. f_equal. lia.
    + intros i Hi. right. unfold at1. lia.
  - unfold nw_50. cbv zeta. apply wp_bind.
    eapply wp_weak with (P := fun v' _ => v_nf v' = v_nf v + 1 /\ v_kopt v' = v_kopt v /\ v_fopt v' = v_fopt v).
    { wq; nvr; auto. }
    intros v' t (E1 & E2 & E3). apply wp_bind. unfold LOOP_.
    apply (wp_loopJ (fun i (_ : unit) t => forall j, 1 <= j < i ->
      get t (at1 x j) = (get t (at2 xpt npt (v_nf v + 1) j) + get t (at1 xbase j))%R)).
    + lia.
    + intros j Hj. lia.
    + intros i u t' Hi Ht. apply wp_assign, wp_lift2, wp_ldg, wp_ldg.
      intros j Hj. pose proof (at2r (v_nf v + 1) j ltac:(lia) ltac:(lia)) as A2. destruct (Z.eq_dec j i) as [->|Ne].
      * rewrite get_same. rewrite !get_other by (unfold at1 in *; geo). reflexivity.
      * rewrite !get_other by (unfold at1 in *; geo). apply Ht. lia.
    + intros u t' Ht. apply wp_ret. exists v'. split; [reflexivity|]. split; [exact E1|]. split; [exact E2|]. split; [exact E3|].
      intros j Hj. rewrite E1. apply Ht. lia.
  - cbv beta. intros r s' (F & v' & -> & E1 & E2 & E3 & Hc). unfold bpost, binv. nvr. split; [|lia].
    split; [|lia]. intros _. split; [|exact Hc]. intros H2. destruct (Hb ltac:(lia)) as [(e & D1 & D2 & D3) Hkk].
    split; [|lia]. exists e. rewrite (proj2 F), E3. split; [exact D1|]. split; [exact D2|]. eapply point_ext; [|exact D3].
    intros i Hi. cbv beta. rewrite E2. pose proof (at2r (v_kopt v) i ltac:(lia) ltac:(lia)) as A2.
    rewrite !(gf _ _ _ F); [reflexivity| |].
    + intros K. apply W50_out in K; [|lia]. unfold at1 in K. geo.
    + intros [(j & Hj & K)|K]; [|geo]. apply at2_inj in K; lia.
Qed.

Definition W70 (a : Z) : Prop := G a \/ xopt <= a < xnew.
Lemma least_cons e l e' : least e l -> (val e <= val e')%R -> least e (e' :: l).
Proof. intros [H1 H2] K. split; [right; exact H1|]. intros u [<-|Hu]; auto. Qed.
Lemma least_new e l e' : least e l -> (val e' <= val e)%R -> least e' (e' :: l).
Proof. intros [H1 H2] K. split; [left; reflexivity|]. intros u [<-|Hu]; [lra|]. specialize (H2 u Hu). lra. Qed.
Lemma least_one e : least e [e].
Proof. split; [left; reflexivity|]. intros u [<-|[]]. lra. Qed.

Lemma b70 {B} v s c st : ninv n npt maxfun c st (N70, v) -> c = Z.of_nat (length (evs s)) -> good Rd C s -> binv (N70, v) s ->
  wp (nw_70 (B := B) n npt rhobeg xopt xpt fval gq hq bmat zmat v) s bpost.
Proof.
  intros H Hcc Gs (e & l & He & Hfv & Hp & [Hat _]). cbn [snd] in *. assert (H' := H). unfold ninv, nlab, ncnt, init_ok in H'.
  cbn [fst snd] in H'. destruct H' as ((Hv & _) & Hcn & _). destruct (Hat ltac:(lia)) as [Hold Hci]. clear Hat.
  set (v1 := if v_nf v =? 1 then s_fbeg (v_f v) (s_fopt (v_f v) (s_kopt 1 v))
    else if nlt (v_f v) (v_fopt v) then s_fopt (v_f v) (s_kopt (v_nf v) v) else v).
  assert (Hb1 : binit (evs s) v1 s /\ 1 <= v_kopt v1 <= v_nf v /\ (v_fopt v1 <= v_f v)%R).
  { rewrite He. unfold v1. destruct (Z.eqb_spec (v_nf v) 1) as [E1|E1].
    - nvr. split; [|split; [lia|lra]]. exists e. split.
      + assert (length l = O) by (rewrite He in Hcc; cbn [length] in Hcc; lia). destruct l; [|discriminate]. apply least_one.
      + nvr. split; [exact Hfv|]. eapply point_ext; [|exact Hp]. intros i Hi. cbv beta. rewrite Hci, E1 by exact Hi. reflexivity.
    - destruct (Hold ltac:(lia)) as [(e' & D1 & D2 & D3) Hk]. cbn [nlt NumR].
      destruct (Rlt_bool_spec (v_f v) (v_fopt v)) as [El|El]; nvr.
      + split; [|split; [lia|lra]]. exists e. split; [|split; [exact Hfv|]].
        * eapply least_new; [exact D1|]. rewrite <- Hfv, <- D2. lra.
        * eapply point_ext; [|exact Hp]. intros i Hi. cbv beta. apply Hci, Hi.
      + split; [|split; [lia|exact El]]. exists e'. split; [|split; [exact D2|exact D3]]. apply least_cons; [exact D1|].
        rewrite <- Hfv, <- D2. exact El. }
  assert (Ev1 : v_nf v1 = v_nf v /\ v_f v1 = v_f v).
  { unfold v1. destruct (v_nf v =? 1); [|destruct (nlt _ _)]; nvr; auto. }
  eapply wp_weak; [apply (wp_and _ _ (fun _ s' => frame W70 s s')
     (fun r s' => exists v', v_nf v' = v_nf v /\ v_f v' = v_f v /\ v_kopt v' = v_kopt v1 /\ v_fopt v' = v_fopt v1 /\
        (r = inl (N50, v') \/ (r = inl (N90, v') /\
           forall i, 1 <= i <= n -> get s' (at1 xopt i) = get s' (at2 xpt npt (v_kopt v') i)))))|].
  - eapply wp_safe; [apply nw_70_safe with (W := W70) (Rd := Rd) (C := C) (maxfun := maxfun) (c := c) (st := st) (Q := fun _ => False);
      first [exact rhobeg|exact ncos|eauto with nb]|exact Gs|auto].
    + intros a [Ha|Ha]; [apply GRd, Ha|apply HRd; geo].
    + eapply mat_in; [|exact Gbmat]. left; auto.
    + eapply arr_in; [|exact Ghq]. left; auto.
    + eapply mat_in; [|exact Gzmat]. left; auto.
    + eapply arr_in; [|exact Ggq]. left; auto.
    + eapply arr_in; [|exact Gfval]. left; auto.
    + intros i Hi. right. unfold at1. lia.
  - unfold nw_70. cbv zeta. fold v1. clearbody v1. apply wp_bindT. intros _ t0. apply wp_bind.
    eapply wp_weak with (P := fun v' _ => v_nf v' = v_nf v /\ v_f v' = v_f v /\ v_kopt v' = v_kopt v1 /\ v_fopt v' = v_fopt v1).
    { destruct Ev1. wq; nvr; auto. }
    intros v' t (E1 & E2 & E3 & E4). destruct (Z.ltb_spec (v_nf v) npt) as [L|L].
    + apply wp_ret. exists v'. split; [exact E1|]. auto 6.
    + apply wp_bind. unfold LOOP.
      apply (wp_loopJ (fun i (_ : N) t => forall j, 1 <= j < i -> get t (at1 xopt j) = get t (at2 xpt npt (v_kopt v') j))).
      * lia.
      * intros j Hj. lia.
      * intros i u t' Hi Ht. apply wp_set, wp_ldg. apply wp_lift2, wp_ret, wp_lift2, wp_ldg, wp_ldg.
        intros j Hj. pose proof (at2r (v_kopt v') j ltac:(lia) ltac:(lia)) as A2. destruct (Z.eq_dec j i) as [->|Ne].
        -- rewrite get_same. rewrite !get_other by (unfold at1 in *; geo). reflexivity.
        -- rewrite !get_other by (unfold at1 in *; geo). apply Ht. lia.
      * intros u t' Ht. apply wp_ret. eexists. split; [|split; [|split; [|split; [|right; split; [reflexivity|]]]]]; nvr; auto.
        intros i Hi. apply Ht. lia.
  - cbv beta. intros r s' (F & v' & E1 & E2 & E3 & E4 & Hr). destruct Hb1 as ((e0 & D1 & D2 & D3) & Hk & Hle).
    assert (P' : point e0 (fun i => get s' (at2 xpt npt (v_kopt v') i) + get s' (at1 xbase i))%R).
    { eapply point_ext; [|exact D3]. intros i Hi. cbv beta. rewrite E3.
      pose proof (at2r (v_kopt v1) i ltac:(lia) ltac:(lia)) as A2.
      rewrite !(gf _ _ _ F); [reflexivity| |]; unfold W70, at1; geo. }
    destruct Hr as [->|[-> Hx]]; unfold bpost, binv; nvr.
    + intros _. rewrite (proj2 F). split; [|lia]. exists e0. rewrite E4. auto.
    + rewrite (proj2 F), E2, E4. split; [|exact Hle]. exists e0. rewrite E4. split; [exact D1|]. split; [exact D2|].
      eapply point_ext; [|exact P']. intros i Hi. cbv beta. rewrite Hx by exact Hi. apply Rplus_comm.
Qed.

Lemma b410 {B} fsave v s c st : base_ok n npt v -> kok npt (v_knew v) -> v_nf v = c -> v_status v = st -> good Rd C s ->
  bmain (evs s) v s -> (v_fopt v <= v_f v)%R ->
  wp (nw_410 (B := B) n npt xnew xpt fval gq hq pq bmat zmat vlag w fsave v) s bpost.
Proof.
  intros H1 H2 H3 H4 Gs Hb Hf. eapply (step_calm W2).
  - apply nw_410_safe with (maxfun := maxfun) (c := c) (st := st) (Q := fun _ => False); first [exact rhobeg|exact ncos|eauto with nb].
  - exact Gs.
  - intros a Ha. unfold W2. lia.
  - unfold nw_410. cbv zeta. wq; try destruct (nlt (v_f v) fsave); cq.
  - exact Hb.
  - exact Hf.
Qed.

Lemma b_new {B} v s c st : ninv n npt maxfun c st (Nnew, v) -> good Rd C s -> binv (Nnew, v) s ->
  wp (nw_new (B := B) n npt xopt xnew xpt fval gq hq pq bmat zmat d vlag w v) s bpost.
Proof.
  intros H Gs Hb. unfold nw_new. cbv zeta. destruct (Z.leb_spec (v_nf v) npt) as [L|L].
  { apply wp_ret. exact Hb. }
  destruct Hb as (e & l & He & Hfv & Hp & [_ Hat]). cbn [snd] in *. destruct (Hat L) as [(e0 & D1 & D2 & D3) Hc]. clear Hat.
  unfold ninv, nlab, ncnt, nst, init_ok, main_ok, base_ok, kok in H. cbn [fst snd] in H.
  (* the best point of all the evaluations *)
  assert (Hle : (v_fopt v <= v_f v)%R -> least e0 (evs s)) by (intros K; rewrite He; apply least_cons; [exact D1|rewrite <- Hfv, <- D2; exact K]).
  assert (Hlt : (v_f v < v_fopt v)%R -> least e (evs s)).
  { intros K. rewrite He. eapply least_new; [exact D1|]. rewrite <- Hfv, <- D2. apply Rlt_le, K. }
  destruct (Z.eqb_spec (v_knew v) (-1)) as [K|K].
  { apply wp_ret. unfold bpost, binv, nfail. nvr. destruct (Rle_lt_dec (v_fopt v) (v_f v)) as [Q|Q].
    - left. split; [|exact Q]. exists e0. split; [auto|]. split; [exact D2|exact D3].
    - right. split; [exact Q|]. exists e. auto. }
  apply wp_bind. eapply wp_safe; [apply nw_vquad_safe with (W := W0) (Rd := Rd) (C := C); first [exact rhobeg|exact ncos|eauto with nb]|exact Gs|].
  intros vquad s1 _ G1 F1. apply wp_bind. apply wp_lift2, wp_lift2, wp_ret, wp_ret, wp_ret.
  assert (Es : evs s1 = evs s) by apply F1.
  assert (Eg : forall a, get s1 a = get s a) by (intros a; apply (gf _ _ _ F1); intros []).
  match goal with |- context [if nlt (v_rho ?a) (v_dnorm ?b) then ?c else ?e] =>
    set (v1 := if nlt (v_rho a) (v_dnorm b) then c else e) end.
  assert (I1 : v_fopt v1 = v_fopt v /\ v_f v1 = v_f v /\ v_knew v1 = v_knew v /\ v_nf v1 = v_nf v /\ v_kopt v1 = v_kopt v /\ v_idz v1 = v_idz v /\
     v_status v1 = v_status v).
  { unfold v1. destruct (nlt _ _); nvr; auto 8. }
  clearbody v1. destruct I1 as (I1 & I2 & I3 & I4 & I5 & I6 & I7).
  apply wp_bind.
  eapply wp_weak with (P := fun v2 s2 => good Rd C s2 /\ evs s2 = evs s /\ bmain (evs s) v2 s2 /\ (v_fopt v2 <= v_f v2)%R /\ v_f v2 = v_f v /\
    v_knew v2 = v_knew v /\ v_nf v2 = v_nf v /\ v_kopt v2 = v_kopt v /\ v_idz v2 = v_idz v /\ v_status v2 = v_status v).
  { rewrite I1. cbn [nlt NumR]. destruct (Rlt_bool_spec (v_f v) (v_fopt v)) as [Q|Q].
    - apply wp_bind. unfold LOOP.
      apply (wp_loopJ (fun i (_ : N) t => good Rd C t /\ evs t = evs s /\ (forall a, ~ (xopt <= a < xnew) -> get t a = get s a) /\
        forall j, 1 <= j < i -> get t (at1 xopt j) = get s (at1 xnew j))).
      + lia.
      + split; [exact G1|]. split; [exact Es|]. split; [auto|]. intros j Hj. lia.
      + intros i u t Hi (T1 & T2 & T3 & T4). apply wp_set, wp_ldg. apply wp_lift2, wp_ret, wp_lift2, wp_ldg, wp_ldg.
        split; [apply good_upd; [exact T1|reflexivity]|]. split; [exact T2|]. split.
        * intros a Ha. rewrite get_other by (unfold at1; lia). auto.
        * intros j Hj. destruct (Z.eq_dec j i) as [->|Ne].
          -- rewrite get_same. apply T3. unfold at1. lia.
          -- rewrite get_other by (unfold at1; lia). apply T4. lia.
      + intros u t (T1 & T2 & T3 & T4). apply wp_ret. nvr. split; [exact T1|]. split; [exact T2|]. split.
        * exists e. split; [auto|]. split; [exact Hfv|]. eapply point_ext; [|exact Hp]. intros i Hi. cbv beta.
          rewrite T3 by (unfold at1; geo). rewrite T4 by lia. apply Hc, Hi.
        * rewrite I2. split; [lra|]. auto 8.
    - apply wp_ret. split; [exact G1|]. split; [exact Es|]. split; [|rewrite I1, I2; auto 8].
      exists e0. split; [auto|]. split; [congruence|]. eapply point_ext; [|exact D3]. intros i Hi. cbv beta. rewrite !Eg. reflexivity. }
  intros v2 s2 (G2 & E2 & B2 & Q2 & J1 & J2 & J3 & J4 & J5 & J6).
  rewrite <- E2 in B2. nvr.
  destruct (Z.ltb_spec 0 (v_knew v2)) as [P|P].
  { eapply b410; [| |reflexivity|reflexivity|exact G2| |]; unfold base_ok, kok; nvr; [lia|lia|exact B2|exact Q2]. }
  destruct (nle zero vquad).
  { apply wp_ret. left. nvr. split; [exact B2|exact Q2]. }
  apply wp_bind. eapply wp_safe; [apply nw_choose_safe with (W := W0) (Rd := Rd) (C := C); first [exact rhobeg|exact ncos|nvr; lia|eauto with nb]|exact G2|].
  intros knew s3 Hkn G3 F3. cbv beta in Hkn.
  assert (B3 : bmain (evs s3) v2 s3).
  { rewrite (proj2 F3). eapply bmain_frame; [exact F3| |exact B2]. intros a _ []. }
  destruct (Z.eqb_spec knew 0) as [E0|E0].
  - apply wp_ret. split; nvr; [exact B3|exact Q2].
  - eapply b410; [| |reflexivity|reflexivity|exact G3| |]; unfold base_ok, kok; nvr; [lia|lia|exact B3|exact Q2].
Qed.

Lemma atx_ext l v v' s s' : v_nf v' = v_nf v -> v_kopt v' = v_kopt v -> v_fopt v' = v_fopt v ->
  (v_nf v <= npt -> 1 <= v_nf v) ->
  (forall a, x <= a < x + n \/ xbase <= a < wend -> get s' a = get s a) -> atx l v s -> atx l v' s'.
Proof.
  intros E1 E2 E3 Hv K [A1 A2]. split; rewrite E1.
  - intros Hp. destruct (A1 Hp) as [B1 B2]. split.
    + intros H2. destruct (B1 H2) as [(e & D1 & D2 & D3) Hk]. rewrite E2. split; [|exact Hk]. exists e. split; [exact D1|].
      split; [congruence|]. eapply point_ext; [|exact D3]. intros i Hi. cbv beta. rewrite E2.
      pose proof (at2r (v_kopt v) i ltac:(lia) ltac:(lia)). rewrite !K by (unfold at1; geo). reflexivity.
    + intros i Hi. rewrite E1. pose proof (at2r (v_nf v) i ltac:(lia) ltac:(lia)). rewrite !K by (unfold at1; geo). apply B2, Hi.
  - intros Hp. destruct (A2 Hp) as [B1 B2]. split.
    + eapply bmain_ext; [exact E3| | |exact B1]; intros i Hi; apply K; unfold at1; geo.
    + intros i Hi. rewrite !K by (unfold at1; geo). apply B2, Hi.
Qed.

Section Ends.
Variable scl : option Z.
Hypothesis Hscaled : scaled = match scl with None => false | Some _ => true end.
Variable work : Z.
Hypothesis Hn2 : 2 <= n.
Notation xt := (work + nw_size n npt).
Hypothesis L7 : wend <= xt.
Hypothesis L8 : scl <> None -> xt + n <= x \/ x + n <= xt.
Hypothesis L9 : forall b, scl = Some b -> (b + n <= xt \/ xt + n <= b) /\ (b + n <= x \/ x + n <= b).
Definition sclv (s : mst) : Prop := forall b, scl = Some b -> forall i, 1 <= i <= n -> get s (at1 b i) = sc i.

Lemma good_get s a : good Rd C s -> Rd a -> mm s a = Some (get s a : N).
Proof. intros [Gs _] Ha. destruct (Gs a Ha) as [v Ev]. unfold get. rewrite Ev. reflexivity. Qed.

Lemma b_call fn v s c st : ninv n npt maxfun c st (Neval, v) -> good Rd C s -> sclv s -> binv (Neval, v) s ->
  wp (nw_call n npt maximize fn x work scl v) s bpost.
Proof.
  intros H Gs Hs Hb. unfold binv in Hb. nvr. unfold nw_call. cbv zeta.
  assert (Hv : v_nf v <= npt -> 1 <= v_nf v).
  { unfold ninv, nlab, init_ok in H. cbn [fst snd] in H. lia. }
  destruct (points HH II n (mkctx fn None 0 one n) Hn2 eq_refl (fun i => img i (get s (at1 x i)))) as (p & Hl & Hp).
  assert (K : forall a s1, evs s1 = evs s -> (forall b, x <= b < x + n \/ xbase <= b < wend -> get s1 b = get s b) ->
     (forall i, 1 <= i <= n -> mm s1 (at1 a i) = Some (img i (get s (at1 x i)))) ->
     wp (bind (objfun (mkctx fn None 0 one n) a) (fun f : N => ret (inl (B := nstatus) (Nnew, s_f (if maximize then nopp f else f) v)))) s1 bpost).
  { intros a s1 E1 F1 M1. apply wp_bind. apply (wp_objfun HH II n (mkctx fn None 0 one n) Hn2 eq_refl) with p; auto.
    - intros i Hi. rewrite M1, Hp by exact Hi. reflexivity.
    - intros f. apply wp_ret. exists (p, f), (evs s). cbn [evs]. rewrite E1. split; [reflexivity|]. nvr.
      split; [unfold val; cbn [snd]; destruct maximize; reflexivity|]. split.
      + split; [exact Hl|]. intros i Hi. cbn [fst]. rewrite Hp by exact Hi. f_equal. f_equal.
        unfold get at 1; cbn [mm]. symmetry. apply F1. unfold at1. lia.
      + eapply atx_ext; [| | |exact Hv| |exact Hb]; try reflexivity. exact F1. }
  assert (D : scl = None \/ exists b, scl = Some b) by (clear; destruct scl; eauto).
  destruct D as [Eb|[b Eb]]; assert (Hsd := Hscaled); rewrite Eb in Hsd; rewrite Eb.
  2:{ assert (L8' := L8 ltac:(congruence)). destruct (L9 b Eb) as [L9a L9b]. apply wp_bind, wp_bind. unfold scale.
    apply (wp_loopJ (fun i (_ : unit) t => evs t = evs s /\ (forall a, ~ (xt <= a < xt + n) -> get t a = get s a) /\
      forall j, 1 <= j < i + 1 -> mm t (at1 xt j) = Some (img j (get s (at1 x j))))).
    + lia.
    + split; [reflexivity|]. split; [auto|]. intros j Hj. lia.
    + intros i u t Hi (T1 & T2 & T3). apply wp_assign, wp_lift2, wp_ldg, wp_ldg.
      rewrite !T2 by lia.
      assert (Es : get s (b + i) = sc (i + 1)).
      { rewrite <- (Hs b Eb (i + 1)) by lia. f_equal. unfold at1. lia. }
      split; [exact T1|]. split.
      * intros a Ha. rewrite get_other by lia. auto.
      * intros j Hj. destruct (Z.eq_dec j (i + 1)) as [->|Ne].
        -- replace (at1 xt (i + 1)) with (xt + i) by (unfold at1; lia). rewrite upd_same. f_equal.
           unfold img. rewrite Hsd, Es. cbn [nmul NumR]. f_equal. f_equal. unfold at1. lia.
        -- rewrite upd_other by (unfold at1; lia). apply T3. lia.
    + intros u t (T1 & T2 & T3). apply wp_ret. apply K; [exact T1| |].
      * intros a Ha. apply T2. lia.
      * intros i Hi. apply T3. lia. }
  apply wp_bind, wp_ret. apply K; [reflexivity|auto|]. intros i Hi. rewrite (good_get s) by (auto; apply Rx; exact Hi).
    unfold img. rewrite Hsd. reflexivity.
Qed.

(** At the end *)
Definition bdone (u : nvars) (s : mst) : Prop :=
  exists e, least e (evs s) /\ v_f u = val e /\ point e (fun i => get s (at1 x i)).
Lemma b_done v s : binv (Ndone, v) s -> wp (nw_done n x xbase xopt v) s bdone.
Proof.
  intros Hb. unfold binv in Hb. nvr. unfold nw_done. cbn [nle NumR].
  destruct Hb as [[(e & D1 & D2 & D3) Hf]|[Hf (e & D1 & D2 & D3)]]; destruct (Rle_bool_spec (v_fopt v) (v_f v)) as [Q|Q];
    try (exfalso; cbn [num NumR] in *; lra).
  - apply wp_bind. unfold LOOP_.
    apply (wp_loopJ (fun i (_ : unit) t => evs t = evs s /\ (forall a, ~ (x <= a < x + n) -> get t a = get s a) /\
      forall j, 1 <= j < i -> get t (at1 x j) = (get s (at1 xbase j) + get s (at1 xopt j))%R)).
    + lia.
    + split; [reflexivity|]. split; [auto|]. intros j Hj. lia.
    + intros i u t Hi (T1 & T2 & T3). apply wp_assign, wp_lift2, wp_ldg, wp_ldg. rewrite !T2 by (unfold at1; geo).
      split; [exact T1|]. split.
      * intros a Ha. rewrite get_other by (unfold at1; lia). auto.
      * intros j Hj. destruct (Z.eq_dec j i) as [->|Ne]; [apply get_same|].
        rewrite get_other by (unfold at1; lia). apply T3. lia.
    + intros u t (T1 & T2 & T3). apply wp_ret. exists e. rewrite T1. nvr. split; [exact D1|]. split; [exact D2|].
      eapply point_ext; [|exact D3]. intros i Hi. cbv beta. rewrite T3 by lia. reflexivity.
  - apply wp_ret. exists e. auto.
Qed.

Lemma b_end v s : ~ (x <= work < x + n) -> sclv s -> wp (nw_end n maximize x work scl v) s
  (fun _ s' => evs s' = evs s /\ (forall i, 1 <= i <= n -> get s' (at1 x i) = img i (get s (at1 x i))) /\
     mm s' work = Some ((if maximize then - v_f v else v_f v)%R : N)).
Proof.
  intros Hw Hs. unfold nw_end. apply wp_bind.
  eapply wp_weak with (P := fun (_ : unit) t => evs t = evs s /\ forall i, 1 <= i <= n -> get t (at1 x i) = img i (get s (at1 x i))).
  - unfold img. assert (D : scl = None \/ exists b, scl = Some b) by (clear; destruct scl; eauto).
    destruct D as [Eb|[b Eb]]; assert (Hsd := Hscaled); rewrite Eb in Hsd; rewrite Eb, Hsd; [apply wp_ret; auto|].
    destruct (L9 b Eb) as [_ L9b].
    apply (wp_loopJ (fun i (_ : unit) t => evs t = evs s /\ (forall a, ~ (x <= a < x + i) -> get t a = get s a) /\
      forall j, 1 <= j < i + 1 -> get t (at1 x j) = (sc j * get s (at1 x j))%R)).
    + lia.
    + split; [reflexivity|]. split; [auto|]. intros j Hj. lia.
    + intros i u t Hi (T1 & T2 & T3). apply wp_assign, wp_lift2, wp_ldg, wp_ldg. rewrite !T2 by lia.
      assert (Es : get s (b + i) = sc (i + 1)).
      { rewrite <- (Hs b Eb (i + 1)) by lia. f_equal. unfold at1. lia. }
      split; [exact T1|]. split.
      * intros a Ha. rewrite get_other by lia. apply T2. lia.
      * intros j Hj. destruct (Z.eq_dec j (i + 1)) as [->|Ne].
        -- replace (at1 x (i + 1)) with (x + i) by (unfold at1; lia). rewrite get_same, Es. apply Rmult_comm.
        -- rewrite get_other by (unfold at1; lia). apply T3. lia.
    + intros u t (T1 & T2 & T3). split; [exact T1|]. intros i Hi. apply T3. lia.
  - intros u t [T1 T2]. apply wp_set, wp_ret. apply wp_ret. split; [exact T1|]. split.
    + intros i Hi. rewrite get_other by (unfold at1; lia). apply T2, Hi.
    + rewrite upd_same. destruct maximize; reflexivity.
Qed.

Hypothesis Hwork : work = xbase.
Definition bres (s : mst) : Prop :=
  exists e, least e (evs s) /\ (forall i, 1 <= i <= n -> nth_error (fst e) (Z.to_nat (i - 1)) = Some (get s (at1 x i) : N)) /\
    mm s work = Some (snd e).
Lemma b_step fn fi l s c st : ninv n npt maxfun c st l -> c = Z.of_nat (length (evs s)) -> good Rd C s -> sclv s -> binv l s ->
  wp (nw_step ncos nsin n npt x rhobeg rhoend maxfun xbase xopt xnew xpt fval gq hq pq bmat zmat d vlag w
    (nw_call n npt maximize fn x work scl) (nw_end n maximize x work scl) fi l) s
    (fun r t => match r with inl l' => binv l' t | inr _ => bres t end).
Proof.
  intros H Hc Gs Hs Hb.
  assert (K : forall p, wp p s bpost ->
     wp p s (fun (r : nlabel * nvars + nstatus) t => match r with inl l' => binv l' t | inr _ => bres t end)).
  { intros p Hp. eapply wp_weak; [exact Hp|]. intros [r|r] t Ht; [exact Ht|contradiction]. }
  destruct l as [l v]. unfold nw_step. cbn [fst snd]. destruct l; lazymatch goal with |- context [nw_done] => idtac | _ => apply K end.
  - eapply b50; eauto.
  - eapply b70; eauto.
  - apply b90; auto.
  - eapply b100; eauto.
  - eapply b120; eauto.
  - eapply b290; eauto.
  - eapply b310; eauto.
  - eapply b_call; eauto.
  - eapply b_new; eauto.
  - eapply b460; eauto.
  - apply b490; auto.
  - clear K. apply wp_bind.
    eapply wp_weak; [apply (wp_and _ _ _ (fun _ t => sclv t) (b_done v s Hb))|].
    + eapply wp_safe; [apply nw_done_safe with (W := fun a => x <= a < x + n) (Rd := Rd) (C := C); first [exact rhobeg|exact ncos|eauto with nb]|exact Gs|].
      * intros a u Hu. discriminate.
      * intros i Hi. cbv beta. unfold at1. lia.
      * intros u t _ _ F b Eb i Hi. rewrite <- (Hs b Eb i Hi). apply (gf _ _ _ F). destruct (L9 b Eb). unfold at1. lia.
    + intros u t ((e & D1 & D2 & D3 & D4) & Ht). apply wp_bind. eapply wp_weak; [apply b_end; [geo|exact Ht]|].
      intros r t' (T1 & T2 & T3). apply wp_ret. change (bres t'). exists e. rewrite T1. split; [exact D1|]. split.
      * intros i Hi. rewrite T2 by exact Hi. apply D4, Hi.
      * rewrite T3. f_equal. rewrite D2. unfold val. destruct maximize; cbn [num NumR] in *; ring.
Qed.
End Ends.
End Best.
