(** * The best point found by bobyqb, in exact arithmetic *)
From Coq Require Import ZArith Reals List Bool Lia Lra.
From Flocq Require Import Core.
From Verif Require Import Num BqLang BqModel BqWp BqSafe BqEval BqRun BqStart BqPc BqSpec BqCast.
Import ListNotations.
Local Open Scope Z_scope.

(** Different elements of a matrix are different cells *)
Lemma at2_inj p l k i k' i' : 1 <= k <= l -> 1 <= k' <= l -> at2 p l k i = at2 p l k' i' -> k = k' /\ i = i'.
Proof. unfold at2. intros H1 H2 E. assert (i = i') by nia. subst i'. split; lia. Qed.
Lemma at2_range p l n k i : 1 <= k <= l -> 1 <= i <= n -> p <= at2 p l k i < p + l * n.
Proof. unfold at2. intros H1 H2. nia. Qed.
Lemma at1_inj p i j : at1 p i = at1 p j -> i = j.
Proof. unfold at1. lia. Qed.

Section Best.
Variables HH II : R.
Notation N := (NumR HH II).
Notation mst := (mst N).
Notation prog := (prog N).

Variables (Rd : Z -> Prop) (C : Z -> option N).
Variables (n npt : Z) (ctx : context (N := N)) (x xl xu : Z) (rhobeg rhoend : R) (maxfun : Z).
Variables (xbase xpt fval xopt gopt hq pq bmat zmat ndim sl su xnew xalt d vlag w wend : Z).
Hypothesis (Hn : 2 <= n) (Hnpt : n + 2 <= npt <= (n + 1) * (n + 2) / 2) (Hndim : ndim = npt + n).
Variables (lo hi sc : Z -> R).
Hypothesis (Hlohi : forall i, 1 <= i <= n -> (lo i <= hi i)%R).
Hypothesis (Hcn : c_n ctx = n).

(** The layout of the workspace *)
Hypothesis (L1 : xbase + n <= xpt) (L2 : xpt + npt * n <= fval) (L3 : fval + npt <= xopt) (L4 : xopt + n <= gopt)
  (L5 : gopt <= sl) (L6 : sl + n <= su) (L7 : su + n <= xnew) (L8 : xnew + n <= xalt) (L9 : xalt + n <= d) (L10 : d + n <= vlag)
  (L11 : vlag + ndim <= w) (L12 : w + 3 * ndim <= wend).
(** The arrays of the model, between xopt and sl *)
Notation G := (fun a => gopt <= a < sl).
Hypothesis (Ggopt : arr G gopt 1 n) (Ghq : arr G hq 0 (n * (n + 1) / 2)) (Gpq : arr G pq 0 npt)
  (Gbmat : mat G bmat ndim 0 ndim 1 n) (Gzmat : mat G zmat npt 0 npt 1 (npt - n - 1)).
(** The cells of the workspace which do not keep the best point *)
Definition W (a : Z) : Prop := gopt <= a < sl \/ xalt <= a < wend.
(** The same with those of xnew *)
Definition W1 (a : Z) : Prop := gopt <= a < sl \/ xnew <= a < wend.

Hypothesis HRd : forall a, xbase <= a < wend -> Rd a.
Hypothesis HC : forall a, xbase <= a < wend -> C a = None.
(** The variables, the bounds and the scaling factors *)
Hypothesis Hx : forall i, 1 <= i <= n -> Rd (at1 x i) /\ ~ (xbase <= at1 x i < wend) /\ C (at1 x i) = None.
Hypothesis Hxl : forall i, 1 <= i <= n -> C (at1 xl i) = Some (lo i : N).
Hypothesis Hxu : forall i, 1 <= i <= n -> C (at1 xu i) = Some (hi i : N).
Hypothesis Hscl : match c_scl ctx with
  | None => True
  | Some scl => forall i, 0 <= i < n ->
      C (scl + i) = Some (sc (i + 1) : N) /\ C (c_ws ctx + i) = None /\ ~ (xbase <= c_ws ctx + i < wend) /\
      (forall j, 1 <= j <= n -> at1 x j <> c_ws ctx + i)
  end.
Notation good := (good Rd C).

Lemma npt0 : 0 <= npt * n.
Proof. nia. Qed.
Ltac geo := pose proof npt0; lia.
Lemma WRd : forall a, W a -> Rd a.
Proof. unfold W. intros a Ha. apply HRd. geo. Qed.
Lemma W1Rd : forall a, W1 a -> Rd a.
Proof. unfold W1. intros a Ha. apply HRd. geo. Qed.
Lemma CW : forall a v, C a = Some v -> ~ W a.
Proof. unfold W. intros a v E Wa. rewrite HC in E by geo. discriminate. Qed.
Lemma CW1 : forall a v, C a = Some v -> ~ W1 a.
Proof. unfold W1. intros a v E Wa. rewrite HC in E by geo. discriminate. Qed.

(** The arrays *)
Lemma Hgopt : arr W gopt 1 n. Proof. intros i Hi. left. exact (Ggopt i Hi). Qed.
Lemma Hhq : arr W hq 0 (n * (n + 1) / 2). Proof. intros i Hi. left. exact (Ghq i Hi). Qed.
Lemma Hpq : arr W pq 0 npt. Proof. intros i Hi. left. exact (Gpq i Hi). Qed.
Lemma Hbmat : mat W bmat ndim 0 ndim 1 n. Proof. intros i j Hi Hj. left. exact (Gbmat i j Hi Hj). Qed.
Lemma Hzmat : mat W zmat npt 0 npt 1 (npt - n - 1). Proof. intros i j Hi Hj. left. exact (Gzmat i j Hi Hj). Qed.
Lemma Hxalt : arr W xalt 1 n. Proof. intros i Hi. right. unfold at1. lia. Qed.
Lemma Hd : arr W d 1 n. Proof. intros i Hi. right. unfold at1. lia. Qed.
Lemma Hvlag : arr W vlag 0 ndim. Proof. intros i Hi. right. unfold at1. lia. Qed.
Lemma Hw : arr W w 0 (3 * ndim). Proof. intros i Hi. right. unfold at1. lia. Qed.
Lemma Rxbase : arr Rd xbase 1 n. Proof. intros i Hi. apply HRd. unfold at1. geo. Qed.
Lemma Rfval : arr Rd fval 0 npt. Proof. intros i Hi. apply HRd. unfold at1. geo. Qed.
Lemma Rxopt : arr Rd xopt 1 n. Proof. intros i Hi. apply HRd. unfold at1. geo. Qed.
Lemma Rsl : arr Rd sl 1 n. Proof. intros i Hi. apply HRd. unfold at1. geo. Qed.
Lemma Rsu : arr Rd su 1 n. Proof. intros i Hi. apply HRd. unfold at1. geo. Qed.
Lemma Rxnew : arr Rd xnew 1 n. Proof. intros i Hi. apply HRd. unfold at1. geo. Qed.
Lemma Rgopt : arr Rd gopt 1 n. Proof. intros i Hi. apply WRd, Hgopt, Hi. Qed.
Lemma Rhq : arr Rd hq 0 (n * (n + 1) / 2). Proof. intros i Hi. apply WRd, Hhq, Hi. Qed.
Lemma Rpq : arr Rd pq 0 npt. Proof. intros i Hi. apply WRd, Hpq, Hi. Qed.
Lemma Rbmat : mat Rd bmat ndim 0 ndim 1 n. Proof. intros i j Hi Hj. apply WRd, Hbmat; auto. Qed.
Lemma Rzmat : mat Rd zmat npt 0 npt 1 (npt - n - 1). Proof. intros i j Hi Hj. apply WRd, Hzmat; auto. Qed.
Lemma Rxalt : arr Rd xalt 1 n. Proof. intros i Hi. apply WRd, Hxalt, Hi. Qed.
Lemma Rd_ : arr Rd d 1 n. Proof. intros i Hi. apply WRd, Hd, Hi. Qed.
Lemma Rvlag : arr Rd vlag 0 ndim. Proof. intros i Hi. apply WRd, Hvlag, Hi. Qed.
Lemma Rw : arr Rd w 0 (3 * ndim). Proof. intros i Hi. apply WRd, Hw, Hi. Qed.
Lemma Rxpt : mat Rd xpt npt 0 npt 1 n.
Proof. intros i j Hi Hj. apply HRd. unfold at2. assert ((j - 1) * npt + (i - 1) < npt * n) by nia. assert (0 <= (j - 1) * npt) by nia. lia. Qed.
Lemma ww1 : forall a, W a -> W1 a.
Proof. unfold W, W1. intros a. lia. Qed.
Ltac arrs := pose proof WRd; pose proof CW;
  pose proof Hgopt; pose proof Hhq; pose proof Hpq; pose proof Hbmat; pose proof Hzmat; pose proof Hxalt; pose proof Hd;
  pose proof Hvlag; pose proof Hw; pose proof Rxbase; pose proof Rfval; pose proof Rxopt; pose proof Rsl; pose proof Rsu;
  pose proof Rxnew; pose proof Rgopt; pose proof Rhq; pose proof Rpq; pose proof Rbmat; pose proof Rzmat; pose proof Rxalt;
  pose proof Rd_; pose proof Rvlag; pose proof Rw; pose proof Rxpt.

(** ** The best point *)
(** The value of an evaluation as seen by bobyqb, and the given variable of a computed one *)
Definition val (e : list N * N) : R := (snd e * c_sgn ctx)%R.
Definition img (i : Z) (v : R) : N := match c_scl ctx with None => v | Some _ => (sc i * v)%R end.
Definition least (e : list N * N) (l : list (list N * N)) : Prop := In e l /\ forall e', In e' l -> (val e <= val e')%R.
Notation clampR v i := (clamp (N := N) v (lo i) (hi i)).

(** The variable number [i] of the evaluation [e] is the one of the point XBASE + XOPT, and XPT(kopt) is XOPT, up to [r] *)
Definition ptat (e : list N * N) (kopt : Z) (r : R -> R) (s : mst) (i : Z) : Prop := exists b o : R,
  mm s (at1 xbase i) = Some (b : N) /\ mm s (at1 xopt i) = Some (o : N) /\ mm s (at2 xpt npt kopt i) = Some (r o : N) /\
  mm s (at1 sl i) = Some ((lo i - b)%R : N) /\ mm s (at1 su i) = Some ((hi i - b)%R : N) /\
  nth_error (fst e) (Z.to_nat (i - 1)) = Some (img i (clampR (b + o)%R i)).
Notation id := (fun o : R => o).
Definition best (l : list (list N * N)) (kopt : Z) (s : mst) : Prop :=
  exists e, least e l /\ mm s (at1 fval kopt) = Some (val e : N) /\ forall i, 1 <= i <= n -> ptat e kopt id s i.
Definition inv (kopt : Z) (s : mst) : Prop := good s /\ 1 <= kopt <= npt /\ best (evs s) kopt s.

(** All the cells but those of [W1] *)
Definition kept (a : Z) : Prop := ~ (gopt <= a < sl) /\ ~ (xnew <= a < wend).
Definition same (s s' : mst) : Prop := (forall a, kept a -> mm s' a = mm s a) /\ evs s' = evs s.
(** All the cells but those of [W] *)
Definition keptn (a : Z) : Prop := ~ (gopt <= a < sl) /\ ~ (xalt <= a < wend).
Definition samen (s s' : mst) : Prop := (forall a, keptn a -> mm s' a = mm s a) /\ evs s' = evs s.
Lemma kept_xbase i : 1 <= i <= n -> kept (at1 xbase i).
Proof. unfold kept, at1. geo. Qed.
Lemma kept_xopt i : 1 <= i <= n -> kept (at1 xopt i).
Proof. unfold kept, at1. geo. Qed.
Lemma kept_sl i : 1 <= i <= n -> kept (at1 sl i).
Proof. unfold kept, at1. geo. Qed.
Lemma kept_su i : 1 <= i <= n -> kept (at1 su i).
Proof. unfold kept, at1. geo. Qed.
Lemma kept_fval k : 1 <= k <= npt -> kept (at1 fval k).
Proof. unfold kept, at1. geo. Qed.
Lemma kept_x i : 1 <= i <= n -> kept (at1 x i).
Proof. intros Hi. destruct (Hx i Hi) as (_ & K & _). unfold kept. geo. Qed.
Lemma kept_xpt k i : 1 <= k <= npt -> 1 <= i <= n -> kept (at2 xpt npt k i).
Proof. intros Hk Hi. assert (K := at2_range xpt npt n k i Hk Hi). unfold kept. geo. Qed.
Lemma kept_n a : kept a -> keptn a.
Proof. unfold kept, keptn. lia. Qed.
Lemma keptn_xnew i : 1 <= i <= n -> keptn (at1 xnew i).
Proof. unfold keptn, at1. geo. Qed.
Hint Resolve kept_xbase kept_xopt kept_sl kept_su kept_fval kept_x kept_xpt kept_n keptn_xnew : kept.
Lemma same_refl s : same s s.
Proof. split; auto. Qed.
Lemma same_trans s1 s2 s3 : same s1 s2 -> same s2 s3 -> same s1 s3.
Proof. intros [A B] [A' B']. split; [intros a Ha; rewrite A', A; auto|congruence]. Qed.
Lemma samen_trans s1 s2 s3 : samen s1 s2 -> samen s2 s3 -> samen s1 s3.
Proof. intros [A B] [A' B']. split; [intros a Ha; rewrite A', A; auto|congruence]. Qed.
Lemma samen_same s s' : samen s s' -> same s s'.
Proof. intros [A B]. split; auto with kept. Qed.
Lemma frame_samen s s' : frame W s s' -> samen s s'.
Proof. intros [A B]. split; [|exact B]. intros a Ha. apply A. unfold W, keptn in *. lia. Qed.
Lemma frame_same s s' : frame W1 s s' -> same s s'.
Proof. intros [A B]. split; [|exact B]. intros a Ha. apply A. unfold W1, kept in *. lia. Qed.
Lemma upd_samen s a v : ~ keptn a -> samen s (upd s a v).
Proof. intros Ha. split; [|reflexivity]. intros b Hb. apply upd_other. intros ->. contradiction. Qed.

Lemma ptat_same e kopt r s s' i : 1 <= kopt <= npt -> 1 <= i <= n -> same s s' -> ptat e kopt r s i -> ptat e kopt r s' i.
Proof.
  intros Hk Hi [S _] (b & o & H1 & H2 & H3 & H4 & H5 & H6). exists b, o. rewrite !S by auto with kept. auto 10.
Qed.
Lemma best_same l kopt s s' : 1 <= kopt <= npt -> same s s' -> best l kopt s -> best l kopt s'.
Proof.
  intros Hk S (e & Le & Ef & Hp). exists e. split; [exact Le|split].
  - rewrite (proj1 S) by auto with kept. exact Ef.
  - intros i Hi. apply (ptat_same e kopt _ s s'); auto.
Qed.
Lemma inv_same kopt s s' : good s' -> same s s' -> inv kopt s -> inv kopt s'.
Proof.
  intros Gs S (_ & Hk & B). split; [exact Gs|]. split; [exact Hk|]. rewrite (proj2 S). exact (best_same _ kopt s s' Hk S B).
Qed.

(** Quiet code keeps the best point *)
Lemma wp_qn {A B} (p : prog A) (q : A -> prog B) P s Q :
  safe W Rd C p P -> good s -> (forall a s', P a -> good s' -> samen s s' -> wp (q a) s' Q) -> wp (bind p q) s Q.
Proof. intros Hp Gs Hq. apply wp_bind. eapply wp_safe; [exact Hp|exact Gs|]. intros a s' Pa G' F. apply Hq; auto. apply frame_samen, F. Qed.
Lemma wp_q1 {A B} (p : prog A) (q : A -> prog B) P s Q :
  safe W1 Rd C p P -> good s -> (forall a s', P a -> good s' -> same s s' -> wp (q a) s' Q) -> wp (bind p q) s Q.
Proof. intros Hp Gs Hq. apply wp_bind. eapply wp_safe; [exact Hp|exact Gs|]. intros a s' Pa G' F. apply Hq; auto. apply frame_same, F. Qed.
Lemma wp_qinv {A B} (p : prog A) (q : A -> prog B) P kopt s Q :
  safe W Rd C p P -> inv kopt s -> (forall a s', P a -> inv kopt s' -> samen s s' -> wp (q a) s' Q) -> wp (bind p q) s Q.
Proof.
  intros Hp Hi Hq. eapply wp_qn; [exact Hp|apply Hi|]. intros a s' Pa G' S. apply Hq; auto.
  exact (inv_same kopt s s' G' (samen_same s s' S) Hi).
Qed.

Notation T := (fun _ => True).
Lemma wp_qnT {A B} (p : prog A) (q : A -> prog B) s Q :
  safe W Rd C p T -> good s -> (forall a s', good s' -> samen s s' -> wp (q a) s' Q) -> wp (bind p q) s Q.
Proof. intros Hp Gs Hq. eapply wp_qn; [exact Hp|exact Gs|]. auto. Qed.
Lemma wp_qinvT {A B} (p : prog A) (q : A -> prog B) kopt s Q :
  safe W Rd C p T -> inv kopt s -> (forall a s', inv kopt s' -> samen s s' -> wp (q a) s' Q) -> wp (bind p q) s Q.
Proof. intros Hp Gs Hq. eapply wp_qinv; [exact Hp|exact Gs|]. auto. Qed.

(** ** The calls of the objective function *)
Definition wsc (a : Z) : Prop := match c_scl ctx with None => False | Some _ => c_ws ctx <= a < c_ws ctx + n end.
Lemma wsc_out a : wsc a -> ~ (xbase <= a < wend) /\ forall j, 1 <= j <= n -> at1 x j <> a.
Proof.
  unfold wsc. destruct (c_scl ctx); [|tauto]. intros Ha. destruct (Hscl (a - c_ws ctx)) as (_ & _ & K & K'); [lia|].
  replace (c_ws ctx + (a - c_ws ctx)) with a in K, K' by lia. auto.
Qed.

Lemma wp_objfun a (p : list N) s (Q : N -> mst -> Prop) :
  length p = Z.to_nat n -> (forall i, 1 <= i <= n -> mm s (at1 a i) = nth_error p (Z.to_nat (i - 1))) ->
  (forall f, Q f (mkmst (mm s) ((p, f) :: evs s))) -> wp (objfun ctx a) s Q.
Proof.
  intros Hl Hp HQ. unfold objfun. apply wp_bind.
  assert (K : forall k l b (Q : list N -> mst -> Prop), length l = k ->
     (forall i, 0 <= i < Z.of_nat k -> mm s (b + i) = nth_error l (Z.to_nat i)) -> Q l s -> wp (readn k b) s Q).
  { induction k as [|k IH]; intros l b Q' Hk Hb HQ'; cbn [readn].
    - destruct l; [|discriminate]. apply wp_ret, HQ'.
    - destruct l as [|u l]; [discriminate|]. apply wp_bind, wp_ld. intros v Ev.
      assert (E0 := Hb 0 ltac:(lia)). rewrite Z.add_0_r in E0. cbn in E0. rewrite E0 in Ev. injection Ev as <-.
      apply wp_bind. apply (IH l); [injection Hk; auto| |].
      + intros i Hi. specialize (Hb (i + 1) ltac:(lia)). replace (b + (i + 1)) with (b + 1 + i) in Hb by lia. rewrite Hb.
        replace (Z.to_nat (i + 1)) with (S (Z.to_nat i)) by lia. reflexivity.
      + apply wp_ret, HQ'. }
  apply (K _ p); [rewrite Hcn; exact Hl| |].
  - intros i Hi. specialize (Hp (i + 1) ltac:(lia)). replace (at1 a (i + 1)) with (a + i) in Hp by (unfold at1; lia).
    rewrite Hp. f_equal. lia.
  - intros f s' E. injection E as <- <-. apply HQ.
Qed.

(** The list of the variables of a point *)
Lemma points (X : Z -> N) : exists p : list N, length p = Z.to_nat n /\
  forall i, 1 <= i <= n -> nth_error p (Z.to_nat (i - 1)) = Some (X i).
Proof.
  exists (map (fun k => X (Z.of_nat k + 1)) (seq 0 (Z.to_nat n))). split; [rewrite map_length, seq_length; reflexivity|].
  intros i Hi. rewrite nth_error_map.
  rewrite (nth_error_nth' _ 0%nat) by (rewrite seq_length; lia). rewrite seq_nth by lia. cbn [option_map]. f_equal. f_equal. lia.
Qed.

Lemma wp_call a (X : Z -> R) s (Q : N -> mst -> Prop) :
  good s -> (forall i, 1 <= i <= n -> mm s (at1 a i) = Some (X i : N)) ->
  (forall i, 1 <= i <= n -> ~ wsc (at1 a i)) ->
  (forall s' e, good s' -> (forall i, 1 <= i <= n -> nth_error (fst e) (Z.to_nat (i - 1)) = Some (img i (X i))) ->
     evs s' = e :: evs s -> (forall b, ~ wsc b -> mm s' b = mm s b) -> Q (val e : N) s') ->
  wp (call_objfun ctx a) s Q.
Proof.
  intros Gs Ea Nw K. unfold call_objfun. destruct (points (fun i => img i (X i))) as (p & Hl & Hp).
  assert (K' : forall b s1, good s1 -> evs s1 = evs s -> (forall c, ~ wsc c -> mm s1 c = mm s c) ->
    (forall i, 1 <= i <= n -> mm s1 (at1 b i) = Some (img i (X i))) ->
    wp (bind (objfun ctx b) (fun f => ret (nmul f (c_sgn ctx)))) s1 Q).
  { intros b s1 G1 E1 F1 Eb. apply wp_bind. apply wp_objfun with p; [exact Hl|intros i Hi; rewrite Hp, Eb by exact Hi; reflexivity|].
    intros f. apply wp_ret. apply (K _ (p, f)); cbn [mm evs fst]; auto. rewrite E1. reflexivity. }
  unfold wsc, img in *. destruct (c_scl ctx) as [scl|] eqn:Es.
  2:{ apply wp_bind, wp_ret. apply K'; auto. }
  apply wp_bind, wp_bind. unfold scale. rewrite Hcn.
  apply (wp_loopJ (fun i (_ : unit) s1 => good s1 /\ evs s1 = evs s /\
    (forall c, ~ (c_ws ctx <= c < c_ws ctx + n) -> mm s1 c = mm s c) /\
    forall j, 1 <= j < i + 1 -> mm s1 (at1 (c_ws ctx) j) = Some ((sc j * X j)%R : N))); [lia| | |].
  - split; [exact Gs|]. split; [reflexivity|]. split; [auto|]. intros j Hj. lia.
  - intros i u s1 Hi (G1 & E1 & F1 & D1). destruct (Hscl i) as (Ci & Cw & Nx & Nj); [lia|].
    apply wp_assign, wp_lift2. apply wp_ld. intros v Ev. apply wp_ld. intros y Ey.
    rewrite (proj2 G1 _ _ Ci) in Ev. injection Ev as <-.
    assert (Ey' : y = X (i + 1)).
    { assert (Q1 : mm s1 (at1 a (i + 1)) = Some (X (i + 1) : N)) by (rewrite F1 by (apply Nw; lia); apply Ea; lia).
      replace (at1 a (i + 1)) with (a + i) in Q1 by (unfold at1; lia). congruence. }
    subst y. cbn [nmul NumR]. split; [apply good_upd; auto|]. split; [exact E1|]. split.
    + intros c Hc. rewrite upd_other; [auto|lia].
    + intros j Hj. destruct (Z.eq_dec j (i + 1)) as [->|Ne].
      * replace (at1 (c_ws ctx) (i + 1)) with (c_ws ctx + i) by (unfold at1; lia). apply upd_same.
      * rewrite upd_other; [apply D1; lia|unfold at1; lia].
  - intros u s1 (G1 & E1 & F1 & D1). apply wp_ret. apply K'; auto. intros i Hi. apply D1. lia.
Qed.

(** ** The variables of a point *)
Lemma clamp_cases b v i (c : R) : 1 <= i <= n ->
  (v = hi i - b -> c = hi i)%R -> (v <> hi i - b -> v = lo i - b -> c = lo i)%R ->
  (v <> hi i - b -> v <> lo i - b -> c = clampR (b + v)%R i)%R -> c = clampR (b + v)%R i.
Proof.
  intros Hi H1 H2 H3. assert (K := Hlohi i Hi). unfold clamp in *. cbn [nle NumR] in *.
  destruct (Req_dec v (hi i - b)%R) as [E1|E1].
  - rewrite H1 by exact E1. destruct (Rle_bool_spec (hi i) (b + v)%R) as [Q|Q]; [reflexivity|lra].
  - destruct (Req_dec v (lo i - b)%R) as [E2|E2]; [|auto].
    rewrite H2 by auto. destruct (Rle_bool_spec (hi i) (b + v)%R) as [Q|Q]; [lra|].
    destruct (Rle_bool_spec (b + v)%R (lo i)) as [Q'|Q']; [reflexivity|lra].
Qed.

(** The i-th variable of the point of displacement [xv] *)
Definition vat (xv : Z) (s : mst) (i : Z) : Prop := exists b v : R,
  mm s (at1 xbase i) = Some (b : N) /\ mm s (at1 xv i) = Some (v : N) /\
  mm s (at1 sl i) = Some ((lo i - b)%R : N) /\ mm s (at1 su i) = Some ((hi i - b)%R : N).
Definition xat (xv : Z) (s s' : mst) (i : Z) : Prop := exists b v : R,
  mm s (at1 xbase i) = Some (b : N) /\ mm s (at1 xv i) = Some (v : N) /\ mm s' (at1 x i) = Some (clampR (b + v)%R i : N).
(** Only the variables are modified *)
Definition onlyx (s s' : mst) : Prop :=
  (forall a, (forall j, 1 <= j <= n -> a <> at1 x j) -> mm s' a = mm s a) /\ evs s' = evs s.

Lemma notx a : xbase <= a < wend -> forall j, 1 <= j <= n -> a <> at1 x j.
Proof. intros Ha j Hj E. destruct (Hx j Hj) as (_ & K & _). rewrite <- E in K. contradiction. Qed.

Lemma wp_bq_x xv s (Q : unit -> mst -> Prop) : xbase <= xv -> xv + n <= wend ->
  good s -> (forall i, 1 <= i <= n -> vat xv s i) ->
  (forall s', good s' -> onlyx s s' -> (forall i, 1 <= i <= n -> xat xv s s' i) -> Q tt s') ->
  wp (bq_x n x xl xu xbase sl su xv) s Q.
Proof.
  intros B1 B2 Gs Hv K. unfold bq_x, LOOP_.
  apply (wp_loopJ (fun i (_ : unit) s1 => good s1 /\ onlyx s s1 /\ forall j, 1 <= j < i -> xat xv s s1 j)); [lia| | |].
  - split; [exact Gs|]. split; [split; auto|]. intros j Hj. lia.
  - intros i u s1 Hi (G1 & [F1 E1] & D1). destruct (Hv i Hi) as (b & v & Eb & Ev & Es & Eu).
    assert (Eb1 : mm s1 (at1 xbase i) = Some (b : N)) by (rewrite F1; [exact Eb|apply notx; unfold at1; geo]).
    assert (Ev1 : mm s1 (at1 xv i) = Some (v : N)) by (rewrite F1; [exact Ev|apply notx; unfold at1; geo]).
    assert (Es1 : mm s1 (at1 sl i) = Some ((lo i - b)%R : N)) by (rewrite F1; [exact Es|apply notx; unfold at1; geo]).
    assert (Eu1 : mm s1 (at1 su i) = Some ((hi i - b)%R : N)) by (rewrite F1; [exact Eu|apply notx; unfold at1; geo]).
    assert (Elo := proj2 G1 _ _ (Hxl i Hi)). assert (Ehi := proj2 G1 _ _ (Hxu i Hi)).
    apply wp_assign.
    assert (KK : wp (ifp (lift2 neq (ld (at1 xv i)) (ld (at1 su i))) (ld (at1 xu i))
       (ifp (lift2 neq (ld (at1 xv i)) (ld (at1 sl i))) (ld (at1 xl i))
          (eclamp (lift2 nadd (ld (at1 xbase i)) (ld (at1 xv i))) (ld (at1 xl i)) (ld (at1 xu i))))) s1
       (fun c s2 => s2 = s1 /\ c = clampR (b + v)%R i)).
    { apply wp_ifp, wp_lift2, wp_ld. rewrite Ev1. intros v1 [= <-]. apply wp_ld. rewrite Eu1. intros u1 [= <-]. cbn [neq NumR].
      destruct (Req_bool_spec v (hi i - b)%R) as [E|E].
      - apply wp_ld. rewrite Ehi. intros h [= <-]. split; [reflexivity|]. apply clamp_cases; auto; tauto.
      - apply wp_ifp, wp_lift2, wp_ld. rewrite Ev1. intros v2 [= <-]. apply wp_ld. rewrite Es1. intros u1 [= <-]. cbn [neq NumR].
        destruct (Req_bool_spec v (lo i - b)%R) as [E'|E'].
        + apply wp_ld. rewrite Elo. intros h [= <-]. split; [reflexivity|]. apply clamp_cases; auto; tauto.
        + unfold eclamp. apply wp_bind, wp_lift2, wp_ld. rewrite Eb1. intros b1 [= <-]. apply wp_ld. rewrite Ev1. intros v2 [= <-].
          apply wp_bind, wp_ld. rewrite Elo. intros l1 [= <-]. apply wp_bind, wp_ld. rewrite Ehi. intros h1 [= <-].
          apply wp_ret. split; reflexivity. }
    eapply wp_weak; [exact KK|]. intros c s2 [-> ->]. destruct (Hx i Hi) as (_ & _ & Cx).
    split; [apply good_upd; auto|]. split; [split; [|exact E1]|].
    + intros a Ha. rewrite upd_other; [auto|apply Ha, Hi].
    + intros j Hj. destruct (Z.eq_dec j i) as [->|Ne].
      * exists b, v. split; [exact Eb|]. split; [exact Ev|]. apply upd_same.
      * destruct (D1 j ltac:(lia)) as (b' & v' & X1 & X2 & X3). exists b', v'. split; [exact X1|]. split; [exact X2|].
        rewrite upd_other; [exact X3|]. intros E. apply at1_inj in E. contradiction.
  - intros u s1 (G1 & F1 & D1). destruct u. apply K; auto. intros i Hi. apply D1. lia.
Qed.

(** ** Writes at the cells of the best point *)
Lemma ptat_upd e kopt r s a v i :
  a <> at1 xbase i -> a <> at1 xopt i -> a <> at2 xpt npt kopt i -> a <> at1 sl i -> a <> at1 su i ->
  ptat e kopt r s i -> ptat e kopt r (upd s a v) i.
Proof.
  intros N1 N2 N3 N4 N5 (b & o & H1 & H2 & H3 & H4 & H5 & H6). exists b, o. rewrite !upd_other by congruence. auto 10.
Qed.
Lemma ptat_r e kopt r r' s i : (forall o, r o = r' o) -> ptat e kopt r s i -> ptat e kopt r' s i.
Proof. intros E (b & o & H). exists b, o. rewrite <- E. exact H. Qed.
Lemma good_w s a v : xbase <= a < wend -> good s -> good (upd s a v).
Proof. intros Ha Gs. apply good_upd; auto. Qed.

(** A change of XPT by XOPT *)
Definition pts (e : list N * N) (kopt : Z) (r : Z -> R -> R) (u : R) (l : list (list N * N)) (s : mst) : Prop :=
  good s /\ evs s = l /\ mm s (at1 fval kopt) = Some (u : N) /\ forall i, 1 <= i <= n -> ptat e kopt (r i) s i.
Notation z_ := (fun _ : R => 0%R).

Lemma pts_same e kopt r u l s s' : 1 <= kopt <= npt -> good s' -> same s s' -> pts e kopt r u l s -> pts e kopt r u l s'.
Proof.
  intros Hk Gs S (_ & El & Ef & Hp). split; [exact Gs|]. split; [rewrite (proj2 S); exact El|]. split.
  - rewrite (proj1 S) by auto with kept. exact Ef.
  - intros i Hi. apply (ptat_same e kopt _ s s'); auto.
Qed.
Lemma pts_r e kopt r r' u l s : (forall i o, 1 <= i <= n -> r i o = r' i o) -> pts e kopt r u l s -> pts e kopt r' u l s.
Proof.
  intros E (Gs & El & Ef & Hp). split; [exact Gs|]. split; [exact El|]. split; [exact Ef|]. intros i Hi.
  apply (ptat_r e kopt (r i)); auto.
Qed.

Lemma xpt_ne kopt k i j : 1 <= kopt <= npt -> 1 <= k <= npt -> k <> kopt \/ i <> j -> at2 xpt npt k j <> at2 xpt npt kopt i.
Proof. intros H1 H2 H3 E. apply at2_inj in E; auto. lia. Qed.

(** The new value of XPT(k,j) *)
Lemma pts_shift e kopt u l s k j (v o : R) : 1 <= kopt <= npt -> 1 <= k <= npt -> 1 <= j <= n ->
  mm s (at2 xpt npt k j) = Some (v : N) -> mm s (at1 xopt j) = Some (o : N) ->
  pts e kopt (fun i => if (i <? j) || (i =? j) && (kopt <? k) then z_ else id) u l s ->
  pts e kopt (fun i => if (i <? j) || (i =? j) && (kopt <? k + 1) then z_ else id) u l (upd s (at2 xpt npt k j) ((v - o)%R : N)).
Proof.
  intros Hko Hk Hj Ev Eo (Gs & El & Ef & Hp). assert (K := at2_range xpt npt n k j Hk Hj). split; [apply good_w; [geo|exact Gs]|].
  split; [exact El|]. split; [rewrite upd_other; [exact Ef|unfold at1; geo]|].
  intros i Hi. destruct (Z.eq_dec i j) as [->|Ne].
  - rewrite Z.ltb_irrefl, Z.eqb_refl. cbn [orb andb]. specialize (Hp j Hi). rewrite Z.ltb_irrefl, Z.eqb_refl in Hp. cbn [orb andb] in Hp.
    destruct (Z.eq_dec k kopt) as [->|Nk].
    + rewrite Z.ltb_irrefl in Hp. destruct (Z.ltb_spec kopt (kopt + 1)); [|lia].
      destruct Hp as (b & o' & H1 & H2 & H3 & H4 & H5 & H6). exists b, o'. rewrite upd_same.
      rewrite !upd_other by (unfold at1; geo). rewrite H2 in Eo. injection Eo as ->. rewrite H3 in Ev. injection Ev as ->.
      repeat split; auto. f_equal. change (v - v = 0)%R. lra.
    + replace (kopt <? k + 1) with (kopt <? k) by (destruct (Z.ltb_spec kopt k); destruct (Z.ltb_spec kopt (k + 1)); lia).
      apply ptat_upd; try (unfold at1; geo); [|exact Hp]. apply xpt_ne; auto.
  - specialize (Hp i Hi). replace (i =? j) with false in * by (symmetry; apply Z.eqb_neq; exact Ne). cbn [andb] in *.
    apply ptat_upd; try (unfold at1; geo); [|exact Hp]. apply xpt_ne; auto.
Qed.

(** The other changes of the shift of XBASE: [upd] of xbase, sl, su and xopt *)
Lemma ptat_base e kopt s s' i (b o : R) :
  mm s (at1 xbase i) = Some (b : N) -> mm s (at1 xopt i) = Some (o : N) ->
  mm s' (at1 xbase i) = Some ((b + o)%R : N) -> mm s' (at1 xopt i) = Some (0%R : N) ->
  mm s' (at2 xpt npt kopt i) = mm s (at2 xpt npt kopt i) ->
  mm s' (at1 sl i) = Some ((lo i - b - o)%R : N) -> mm s' (at1 su i) = Some ((hi i - b - o)%R : N) ->
  ptat e kopt z_ s i -> ptat e kopt id s' i.
Proof.
  intros A1 A2 B1 B2 B3 B4 B5 (b' & o' & H1 & H2 & H3 & H4 & H5 & H6).
  rewrite A1 in H1. injection H1 as <-. rewrite A2 in H2. injection H2 as <-.
  exists (b + o)%R, 0%R. rewrite B3. repeat split; auto.
  - rewrite B4. f_equal. change (lo i - b - o = lo i - (b + o))%R. ring.
  - rewrite B5. f_equal. change (hi i - b - o = hi i - (b + o))%R. ring.
  - rewrite H6. replace (b + o + 0)%R with (b + o)%R by ring. reflexivity.
Qed.

Ltac arrs1 := arrs; pose proof W1Rd; pose proof CW1.

(** bq_shift *)
Lemma wp_shift kopt xoptsq s (Q : unit -> mst -> Prop) : inv kopt s -> (forall s', inv kopt s' -> evs s' = evs s -> Q tt s') ->
  wp (bq_shift n npt xbase xpt xopt hq pq bmat zmat ndim sl su xnew vlag w xoptsq) s Q.
Proof.
  intros Hi K. unfold bq_shift. cbv zeta. arrs.
  eapply wp_qinvT; [sf|exact Hi|]. intros fracsq s1 I1 S1.
  eapply wp_qinvT; [sf|exact I1|]. intros sumpq s2 I2 S2.
  eapply wp_qinvT; [sf|exact I2|]. intros _ s3 I3 S3.
  assert (E3 : evs s3 = evs s) by (destruct S1, S2, S3; congruence). clear S1 S2 S3 I1 I2 Hi.
  destruct I3 as (G3 & Hk & e & Le & Ef & Hp).
  apply wp_bind.
  apply (wp_loopJ (fun j ih t => 2 * ih = j * (j - 1) /\ pts e kopt (fun i => if i <? j then z_ else id) (val e) (evs s3) t)); [lia| | |].
  { split; [lia|]. split; [exact G3|]. split; [reflexivity|]. split; [exact Ef|]. intros i Hi. destruct (Z.ltb_spec i 1); [lia|auto]. }
  { intros j ih t Hj [Eih Ht]. 
    eapply wp_qnT; [sf|apply Ht|]. intros _ t1 G1 S1. assert (P1 := pts_same _ _ _ _ _ _ _ Hk G1 (samen_same _ _ S1) Ht).
    clear Ht S1 G1. apply wp_bind. unfold LOOP_.
    apply (wp_loopJ (fun k (_ : unit) t => pts e kopt (fun i => if (i <? j) || (i =? j) && (kopt <? k) then z_ else id) (val e) (evs s3) t)); [lia| | |].
    - apply pts_r with (2 := P1). intros i o Hi. destruct (Z.ltb_spec kopt 1); [lia|]. rewrite andb_false_r, orb_false_r. reflexivity.
    - intros k u t2 Hkk P2.
      eapply wp_qnT; [sf|apply P2|]. intros _ t3 G3' S3. assert (P3 := pts_same _ _ _ _ _ _ _ Hk G3' (samen_same _ _ S3) P2).
      apply wp_assign_sub. apply wp_ld. intros v Ev. apply wp_ld. intros o Eo. cbn [nsub NumR]. apply pts_shift; auto.
    - intros u t2 P2. 
      eapply wp_safe with (P := fun ih => 2 * ih = j * (j - 1) + 2 * (j + 1 - 1)); [|apply P2|].
      + unfold LOOP. apply (safe_loopJ W Rd C (fun i ih => 2 * ih = j * (j - 1) + 2 * (i - 1))); [lia| |lia].
        intros i ih' Hi E'. assert (KK := tri_range n j i ih' Hi (proj2 Hj) E'). sf. lia.
      + intros ih' t3 Eih' G3' F3. split; [lia|].
        assert (P3 := pts_same _ _ _ _ _ _ _ Hk G3' (samen_same _ _ (frame_samen _ _ F3)) P2). apply pts_r with (2 := P3).
        intros i o Hi. destruct (Z.ltb_spec kopt (npt + 1)); [|lia]. rewrite andb_true_r.
        destruct (Z.ltb_spec i j); destruct (Z.eqb_spec i j); destruct (Z.ltb_spec i (j + 1)); cbn [orb]; try lia; reflexivity. }
  intros ih t [_ P]. apply pts_r with (r' := fun _ => z_) in P; [|intros i o Hi; destruct (Z.ltb_spec i (n + 1)); [reflexivity|lia]].
  unfold LOOP_. apply (wp_loopJ (fun j (_ : unit) t => pts e kopt (fun i => if i <? j then id else z_) (val e) (evs s3) t)); [lia| | |].
  { apply pts_r with (2 := P). intros i o Hi. destruct (Z.ltb_spec i 1); [lia|reflexivity]. }
  { clear t P ih. intros j u t Hj P. assert (P0 := proj2 (proj2 (proj2 P)) j Hj). cbv beta in P0. rewrite Z.ltb_irrefl in P0.
    destruct P0 as (b & o & H1' & H2' & H3' & H4' & H5' & H6').
    assert (KP : forall a v (s : mst), xbase <= a < xpt \/ xopt <= a < wend -> (forall i, 1 <= i <= n -> i <> j ->
      a <> at1 xbase i /\ a <> at1 xopt i /\ a <> at1 sl i /\ a <> at1 su i) ->
      (good s /\ evs s = evs s3 /\ mm s (at1 fval kopt) = Some (val e : N) /\ forall i, 1 <= i <= n -> i <> j -> ptat e kopt (if i <? j then id else z_) s i) ->
      (good (upd s a v) /\ evs (upd s a v) = evs s3 /\ mm (upd s a v) (at1 fval kopt) = Some (val e : N) /\ forall i, 1 <= i <= n -> i <> j -> ptat e kopt (if i <? j then id else z_) (upd s a v) i)).
    { intros a v s0 Ha Na (X1 & X2 & X3 & X4). split; [apply good_w; auto; geo|]. split; [exact X2|].
      split; [rewrite upd_other; [exact X3|unfold at1; geo]|]. intros i Hi Ne. destruct (Na i Hi Ne) as (Y1 & Y2 & Y3 & Y4).
      assert (KR := at2_range xpt npt n kopt i Hk Hi). apply ptat_upd; auto. geo. }
    assert (QQ : good t /\ evs t = evs s3 /\ mm t (at1 fval kopt) = Some (val e : N) /\ forall i, 1 <= i <= n -> i <> j -> ptat e kopt (if i <? j then id else z_) t i).
    { destruct P as (X1 & X2 & X3 & X4). auto 10. }
    assert (KR := at2_range xpt npt n kopt j Hk Hj).
    apply wp_bind, wp_assign_add, wp_ld. rewrite H1'. intros b0 [= <-]. apply wp_ld. rewrite H2'. intros o0 [= <-].
    apply KP with (a := at1 xbase j) (v := (b + o)%R : N) in QQ; [|unfold at1; geo|unfold at1; intros; geo].
    apply wp_bind, wp_assign_sub, wp_ld. intros v1 Ev1. apply wp_ld. rewrite upd_other by (unfold at1; geo). rewrite H2'. intros o0 [= <-].
    apply KP with (a := at1 xnew j) (v := ((v1 : R) - o)%R : N) in QQ; [|unfold at1; geo|unfold at1; intros; geo].
    apply wp_bind, wp_assign_sub, wp_ld. rewrite !upd_other by (unfold at1; geo). rewrite H4'. intros v2 [= <-].
    apply wp_ld. rewrite !upd_other by (unfold at1; geo). rewrite H2'. intros o0 [= <-].
    apply KP with (a := at1 sl j) (v := (lo j - b - o)%R : N) in QQ; [|unfold at1; geo|unfold at1; intros; geo].
    apply wp_bind, wp_assign_sub, wp_ld. rewrite !upd_other by (unfold at1; geo). rewrite H5'. intros v2 [= <-].
    apply wp_ld. rewrite !upd_other by (unfold at1; geo). rewrite H2'. intros o0 [= <-].
    apply KP with (a := at1 su j) (v := (hi j - b - o)%R : N) in QQ; [|unfold at1; geo|unfold at1; intros; geo].
    apply wp_assign, wp_ret.
    apply KP with (a := at1 xopt j) (v := 0%R : N) in QQ; [|unfold at1; geo|unfold at1; intros; geo].
    destruct QQ as (X1 & X2 & X3 & X4). split; [exact X1|]. split; [exact X2|]. split; [exact X3|].
    intros i Hi. destruct (Z.eq_dec i j) as [->|Ne].
    - destruct (Z.ltb_spec j (j + 1)); [|lia]. apply (ptat_base e kopt t _ j b o); auto.
      + rewrite !upd_other by (unfold at1; geo). rewrite upd_same. reflexivity.
      + rewrite upd_same. reflexivity.
      + rewrite !upd_other by (unfold at1; geo). reflexivity.
      + rewrite !upd_other by (unfold at1; geo). rewrite upd_same. reflexivity.
      + rewrite upd_other by (unfold at1; geo). rewrite upd_same. reflexivity.
      + exists b, o. auto 10.
    - replace (i <? j + 1) with (i <? j) by (destruct (Z.ltb_spec i j); destruct (Z.ltb_spec i (j + 1)); lia). auto. }
  intros u t1 (X1 & X2 & X3 & X4). destruct u. apply K; [|congruence]. split; [exact X1|]. split; [exact Hk|].
  exists e. split; [rewrite X2; exact Le|]. split; [exact X3|]. intros i Hi. specialize (X4 i Hi).
  destruct (Z.ltb_spec i (n + 1)); [exact X4|lia].
Qed.

(** ** The new point *)
Lemma wp_q1T {A B} (p : prog A) (q : A -> prog B) s Q :
  safe W1 Rd C p T -> good s -> (forall a s', good s' -> same s s' -> wp (q a) s' Q) -> wp (bind p q) s Q.
Proof. intros Hp Gs Hq. eapply wp_q1; [exact Hp|exact Gs|]. auto. Qed.

(** The evaluation [e] is the one of the variables x *)
Definition xof (e : list N * N) (s : mst) : Prop := forall i, 1 <= i <= n -> exists X : R,
  mm s (at1 x i) = Some (X : N) /\ nth_error (fst e) (Z.to_nat (i - 1)) = Some (img i X).
(** The evaluation [e] is the one of XBASE + XNEW *)
Definition natw (e : list N * N) (s : mst) (i : Z) : Prop := exists b v : R,
  mm s (at1 xbase i) = Some (b : N) /\ mm s (at1 xnew i) = Some (v : N) /\
  mm s (at1 sl i) = Some ((lo i - b)%R : N) /\ mm s (at1 su i) = Some ((hi i - b)%R : N) /\
  nth_error (fst e) (Z.to_nat (i - 1)) = Some (img i (clampR (b + v)%R i)).
Lemma natw_same e s s' i : 1 <= i <= n -> samen s s' -> natw e s i -> natw e s' i.
Proof.
  intros Hi [S _] (b & v & H1 & H2 & H3 & H4 & H5). exists b, v. rewrite !S by auto with kept. auto 10.
Qed.
Lemma xof_same e s s' : same s s' -> xof e s -> xof e s'.
Proof. intros [S _] H i Hi. destruct (H i Hi) as (X & H1 & H2). exists X. rewrite S by auto with kept. auto. Qed.

(** The effect of bq_move on the cells of the best point *)
Record moved (knew : Z) (f : N) (s s' : mst) : Prop := mkmoved {
  mv_evs : evs s' = evs s;
  mv_cells : forall i, 1 <= i <= n -> mm s' (at1 xbase i) = mm s (at1 xbase i) /\ mm s' (at1 xopt i) = mm s (at1 xopt i) /\
    mm s' (at1 sl i) = mm s (at1 sl i) /\ mm s' (at1 su i) = mm s (at1 su i) /\ mm s' (at1 xnew i) = mm s (at1 xnew i);
  mv_fval : forall k, 1 <= k <= npt -> k <> knew -> mm s' (at1 fval k) = mm s (at1 fval k);
  mv_xpt : forall k i, 1 <= k <= npt -> 1 <= i <= n -> k <> knew -> mm s' (at2 xpt npt k i) = mm s (at2 xpt npt k i);
  mv_new : mm s' (at1 fval knew) = Some f;
  mv_xnew : forall i, 1 <= i <= n -> mm s' (at2 xpt npt knew i) = mm s (at1 xnew i)
}.

Lemma wp_move beta denom diff f knew s (Q : unit -> mst -> Prop) : 1 <= knew <= npt -> good s ->
  (forall s', good s' -> moved knew f s s' -> Q tt s') ->
  wp (bq_move n npt xpt fval xopt gopt hq pq bmat zmat ndim xnew vlag w beta denom diff f knew) s Q.
Proof.
  intros Hk Gs K. unfold bq_move. arrs.
  eapply wp_qnT; [apply update_safe; auto; try lia; intros i Hi; [apply Hw|apply Rw]; lia|exact Gs|]. intros _ s1 G1 S1.
  eapply wp_qnT; [sf|exact G1|]. intros pqold s2 G2 S2.
  eapply wp_qnT; [sf|exact G2|]. intros _ s3 G3 S3.
  eapply wp_qnT; [|exact G3|].
  { apply (safe_weak W Rd C _ (fun ih => 2 * ih = (n + 1) * (n + 1 - 1))); [|auto].
    unfold LOOP at 1. apply (safe_loopJ W Rd C (fun j ih => 2 * ih = j * (j - 1))); [lia| |lia].
    intros j ih Hj E. apply safe_bindT; [sf|intro].
    apply (safe_weak W Rd C _ (fun ih => 2 * ih = j * (j - 1) + 2 * (j + 1 - 1))); [|intros; lia].
    unfold LOOP. apply (safe_loopJ W Rd C (fun i ih => 2 * ih = j * (j - 1) + 2 * (i - 1))); [lia| |lia].
    intros i ih' Hi E'. assert (KK := tri_range n j i ih' Hi (proj2 Hj) E'). sf. lia. }
  intros _ s4 G4 S4. eapply wp_qnT; [sf|exact G4|]. intros _ s5 G5 S5.
  assert (SS := samen_trans _ _ _ (samen_trans _ _ _ (samen_trans _ _ _ (samen_trans _ _ _ S1 S2) S3) S4) S5).
  clear S1 G1 S2 G2 S3 G3 G4 S4 S5 s1 s2 s3 s4. apply wp_bind, wp_assign, wp_ret.
  assert (Gf : good (upd s5 (at1 fval knew) f)) by (apply good_w; [unfold at1; geo|exact G5]).
  apply wp_bind. unfold LOOP_ at 1.
  apply (wp_loopJ (fun i (_ : unit) t => good t /\ evs t = evs s5 /\
    (forall a, keptn a -> (forall j, 1 <= j <= n -> a <> at2 xpt npt knew j) -> a <> at1 fval knew -> mm t a = mm s5 a) /\
    mm t (at1 fval knew) = Some f /\
    forall j, 1 <= j < i -> mm t (at2 xpt npt knew j) = mm s5 (at1 xnew j))); [lia| | |].
  { split; [exact Gf|]. split; [reflexivity|]. split; [intros a _ _ Ha; apply upd_other; congruence|]. split; [apply upd_same|]. intros j Hj. lia. }
  { intros i u t Hi (T1 & T2 & T3 & T4 & T5). assert (KR := at2_range xpt npt n knew i Hk Hi).
    apply wp_bind, wp_assign, wp_ld. intros v Ev.
    assert (Gt : good (upd t (at2 xpt npt knew i) v)) by (apply good_w; [geo|exact T1]).
    eapply wp_safe with (P := T); [sf|exact Gt|]. intros _ t1 _ G1 F1. apply frame_samen in F1. destruct F1 as [F1 F2].
    assert (Kf : keptn (at1 fval knew)) by auto with kept.
    assert (Kx : forall j, 1 <= j <= n -> keptn (at2 xpt npt knew j)) by auto with kept.
    split; [exact G1|]. split; [rewrite F2; exact T2|]. split; [|split].
    - intros a Ha Na Nf. rewrite F1, upd_other; auto.
    - rewrite F1 by exact Kf. rewrite upd_other; [exact T4|unfold at1; geo].
    - intros j Hj. rewrite F1 by (apply Kx; lia). destruct (Z.eq_dec j i) as [->|Ne].
      + rewrite upd_same. rewrite <- T3; [symmetry; exact Ev|auto with kept| |].
        * intros j Hj'. assert (KR' := at2_range xpt npt n knew j Hk Hj'). unfold at1. geo.
        * unfold at1. geo.
      + rewrite upd_other; [apply T5; lia|]. apply xpt_ne; auto; lia. }
  intros u t (T1 & T2 & T3 & T4 & T5).
  eapply wp_qnT; [sf|exact T1|]. intros _ t1 G1 S1.
  eapply wp_safe with (P := T); [sf|exact G1|]. intros [] t2 _ G2 F2. apply frame_samen in F2.
  assert (S2 := samen_trans _ _ _ S1 F2). clear S1 F2 G1 t1. apply K; [exact G2|].
  assert (KX : forall k i, 1 <= k <= npt -> 1 <= i <= n -> xpt <= at2 xpt npt k i < fval).
  { intros k i Hkk Hi. assert (KR := at2_range xpt npt n k i Hkk Hi). geo. }
  assert (KK : forall a, keptn a -> ~ (xpt <= a < fval) -> a <> at1 fval knew -> mm t2 a = mm s a).
  { intros a Ha Na Nf. rewrite (proj1 S2) by exact Ha. rewrite T3, (proj1 SS); auto. intros j Hj ->. apply Na. auto. }
  split.
  - rewrite (proj2 S2), T2. apply SS.
  - intros i Hi. repeat split; apply KK; auto with kept; unfold at1; geo.
  - intros k Hkk Nk. apply KK; auto with kept; unfold at1; geo.
  - intros k i Hkk Hi Nk. rewrite (proj1 S2) by auto with kept. rewrite T3, (proj1 SS); auto with kept.
    + intros j Hj. apply xpt_ne; auto.
    + specialize (KX k i Hkk Hi). unfold at1. lia.
  - rewrite (proj1 S2) by auto with kept. exact T4.
  - intros i Hi. rewrite (proj1 S2) by auto with kept. rewrite T5, (proj1 SS) by (auto with kept; lia). reflexivity.
Qed.

(** XOPT becomes XNEW *)
Lemma wp_newopt s (Q : N -> mst -> Prop) : good s ->
  (forall u s', good s' -> evs s' = evs s -> (forall a, keptn a -> (forall j, 1 <= j <= n -> a <> at1 xopt j) -> mm s' a = mm s a) ->
     (forall i, 1 <= i <= n -> mm s' (at1 xopt i) = mm s (at1 xnew i)) -> Q u s') ->
  wp (bq_newopt n npt xpt xopt gopt hq pq xnew d) s Q.
Proof.
  intros Gs K. unfold bq_newopt. arrs. apply wp_bind. unfold LOOP at 1.
  apply (wp_loopJ (fun j (r : N * Z) t => 2 * snd r = j * (j - 1) /\ good t /\ evs t = evs s /\
    (forall a, keptn a -> (forall j, 1 <= j <= n -> a <> at1 xopt j) -> mm t a = mm s a) /\
    (forall i, 1 <= i < j -> mm t (at1 xopt i) = mm s (at1 xnew i)))); [lia| | |].
  { split; [cbn [snd]; lia|]. split; [exact Gs|]. split; [reflexivity|]. split; [auto|]. intros i Hi. lia. }
  { intros j [xs ih] t Hj (E & T1 & T2 & T3 & T4). cbn [fst snd] in *. 
    apply wp_bind, wp_ld. intros v Ev. apply wp_bind, wp_assign, wp_ret.
    assert (Gt : good (upd t (at1 xopt j) v)) by (apply good_w; [unfold at1; geo|exact T1]).
    eapply wp_qnT; [sf|exact Gt|]. intros xs1 t1 G1 S1.
    eapply wp_qn with (P := fun ih => 2 * ih = j * (j - 1) + 2 * (j + 1 - 1)); [|exact G1|].
    { unfold LOOP. apply (safe_loopJ W Rd C (fun i ih => 2 * ih = j * (j - 1) + 2 * (i - 1))); [lia| |lia].
      intros i ih' Hi E'. assert (KK := tri_range n j i ih' Hi (proj2 Hj) E'). sf. lia. }
    intros ih1 t2 E1 G2 S2. assert (S := samen_trans _ _ _ S1 S2). clear S1 S2 t1 G1. apply wp_ret. cbn [fst snd].
    split; [lia|]. split; [exact G2|]. split; [rewrite (proj2 S); exact T2|]. split.
    - intros a Ha Na. rewrite (proj1 S) by exact Ha. rewrite upd_other; [auto|apply Na, Hj].
    - intros i Hi. rewrite (proj1 S) by auto with kept zarith. destruct (Z.eq_dec i j) as [->|Ne].
      + rewrite upd_same. rewrite <- T3; [symmetry; exact Ev|auto with kept|]. intros j' Hj'. unfold at1. geo.
      + rewrite upd_other; [apply T4; lia|unfold at1; lia]. }
  intros [xs ih] t (E & T1 & T2 & T3 & T4).
  eapply wp_qnT; [apply gopt_pq_safe; auto|exact T1|]. intros _ t1 G1 S1. apply wp_ret. apply K; [exact G1|..].
  - rewrite (proj2 S1). exact T2.
  - intros a Ha Na. rewrite (proj1 S1) by exact Ha. auto.
  - intros i Hi. rewrite (proj1 S1) by auto with kept. apply T4. lia.
Qed.

(** ** The choice of KNEW *)
Lemma wp_scan skip xv delta beta denom s (Q : N * N * Z * N -> mst -> Prop) : arr Rd xv 1 n -> good s ->
  (forall (scaden biglsq : R) knew denom s', good s' -> samen s s' -> (0 <= biglsq)%R ->
     ((0 < scaden)%R -> 1 <= knew <= npt /\ knew <> skip) -> 0 <= knew <= npt -> Q (scaden : N, biglsq : N, knew, denom) s') ->
  wp (bq_scan n npt xpt zmat vlag skip xv delta beta denom) s Q.
Proof.
  intros Hv Gs K. unfold bq_scan. cbv zeta. arrs.
  eapply wp_safe with (P := fun r : N * N * Z * N => match r with (scaden, biglsq, knew, _) =>
    (0 <= (scaden : R))%R /\ (0 <= (biglsq : R))%R /\ ((0 < (scaden : R))%R -> 1 <= knew <= npt /\ knew <> skip) /\ 0 <= knew <= npt end);
    [|exact Gs|].
  - unfold LOOP at 1. apply safe_loopP.
    2:{ assert (Z0 : (zero : N) = 0%R) by reflexivity. rewrite Z0. split; [lra|]. split; [lra|]. split; [intros; lra|lia]. }
    intros k [[[scaden biglsq] knew] den] Hk (P1 & P2 & P3 & P4). destruct (Z.eqb_spec k skip) as [->|Ne]; [sf; auto|].
    do 5 (apply safe_bindT; [sf|intro]).
    match goal with |- context [nlt scaden ?t] => assert (Q1 : (nlt scaden t = true -> 0 < (t : R))%R); [|set (tt_ := t) in *] end.
    { cbn [nlt NumR]. intros E. destruct (Rlt_bool_spec (scaden : R) (nmul (a3 : N) (a0 : N))) as [L|L]; [|discriminate]. exact (Rle_lt_trans _ _ _ P1 L). }
    assert (Q2 : forall u : R, (0 <= (bmax (biglsq : N) (u : N) : R))%R).
    { intros u. unfold bmax. cbn [nle NumR]. destruct (Rle_bool_spec u (biglsq : R)) as [L|L]; [exact P2|exact (Rle_trans _ _ _ P2 (Rlt_le _ _ L))]. }
    destruct (nlt scaden _) eqn:Et; (apply safe_bindT; [sf|]); intro m;
      change (emax (ret biglsq) (ret m)) with (ret (N := N) (bmax (biglsq : N) m)); 
      (apply safe_bind with (P := fun b : N => (0 <= (b : R))%R); [apply safe_ret, Q2|intros b Hb; apply safe_ret]).
    + specialize (Q1 eq_refl). split; [exact (Rlt_le _ _ Q1)|]. split; [exact Hb|]. split; [split; [lia|exact Ne]|lia].
    + split; [exact P1|]. split; [exact Hb|]. split; [exact P3|exact P4].
  - intros [[[scaden biglsq] knew] den] s' (P1 & P2 & P3 & P4) G' F. apply K; auto. apply frame_samen, F.
Qed.

(** ** The invariant of bobyqb *)
Notation bvars := (bvars (N := N)).
(** FSAVE is the value of an evaluation *)
Definition cinv (v : bvars) (s : mst) : Prop := inv (b_kopt v) s /\ exists e, In e (evs s) /\ b_fsave v = (val e : N).
(** At the end: the best point is either XBASE + XOPT or x; the last evaluation is not considered after a failed step *)
Definition dinv (v : bvars) (s : mst) : Prop := good s /\ 1 <= b_kopt v <= npt /\ exists (L : list (list N * N)) (u : R),
  (evs s = L \/ b_status v = BQ_STEP_FAILED /\ exists e, evs s = e :: L) /\ mm s (at1 fval (b_kopt v)) = Some (u : N) /\
  ((u <= b_fsave v)%R -> best L (b_kopt v) s) /\
  ((b_fsave v < u)%R -> exists e, least e L /\ b_f v = (val e : N) /\ xof e s).
Definition kok (v : bvars) : Prop := 1 <= b_knew v <= npt /\ b_knew v <> b_kopt v.
Definition blab (l : blabel) (v : bvars) : Prop :=
  match l with
  | B20 | B60 => 0 <= b_ntrits v
  | B90 | B190 | B230 => 0 <= b_ntrits v /\ (b_ntrits v = 0 -> kok v)
  | B210 => 0 <= b_ntrits v /\ kok v
  | B360 => b_ntrits v = -1 \/ 0 <= b_ntrits v /\ kok v
  | B650 => -1 <= b_ntrits v /\ (0 <= b_distsq v)%R
  | B680 => -1 <= b_ntrits v
  | Bdone => True
  end.
Definition binv (l : blabel * bvars) (s : mst) : Prop :=
  match l with (Bdone, v) => dinv v s | (l, v) => blab l v /\ cinv v s end.
Definition bpost (r : blabel * bvars + bvars) (s : mst) : Prop := match r with inl l => binv l s | inr v => dinv v s end.

Lemma cinv_v v v' s : b_kopt v' = b_kopt v -> b_fsave v' = b_fsave v -> cinv v s -> cinv v' s.
Proof. unfold cinv. intros -> -> H. exact H. Qed.
Lemma cinv_done v s : cinv v s -> dinv v s.
Proof.
  intros ((G & Hk & B) & e & He & Ef). split; [exact G|]. split; [exact Hk|]. destruct B as (e0 & L0 & F0 & P0) eqn:EB.
  exists (evs s), (val e0). split; [auto|]. split; [exact F0|]. split.
  - intros _. exists e0. auto.
  - intros Q. rewrite Ef in Q. assert (K := proj2 L0 e He). change (val e < val e0)%R in Q. lra.
Qed.
Lemma wp_goto l v s : l <> Bdone -> blab l v -> cinv v s -> wp (goto l v) s bpost.
Proof. intros Nl Hl Hc. apply wp_ret. destruct l; cbn [bpost binv]; auto. congruence. Qed.
Lemma wp_done v s : dinv v s -> wp (goto Bdone v) s bpost.
Proof. intros Hd. apply wp_ret. exact Hd. Qed.
Lemma wp_fail st v s : cinv v s -> wp (fail st v) s bpost.
Proof. intros Hc. apply wp_done, cinv_done. destruct v. exact Hc. Qed.

Ltac bb := cbn [fst snd blab b_ntrits b_knew b_kopt b_nf b_nfsav b_nresc b_fsave b_f b_distsq b_status set_adelt set_alpha set_beta set_cauchy set_crvmin set_delta set_denom set_diffa set_diffb set_diffc set_distsq set_dnorm set_dsq set_f set_fsave set_ratio set_rho set_xoptsq set_itest set_kbase set_knew set_kopt set_nf set_nfsav set_nresc set_ntrits set_status] in *.
Ltac gt := first
  [ apply wp_goto; [discriminate|bb; unfold kok in *; bb; lia|match goal with H : cinv ?u ?t |- cinv _ ?t => apply (cinv_v u); [bb; congruence|bb; congruence|exact H] end]
  | apply wp_fail; match goal with H : cinv ?u ?t |- cinv _ ?t => apply (cinv_v u); [bb; congruence|bb; congruence|exact H] end ].

Lemma cinv_same v s s' : good s' -> same s s' -> cinv v s -> cinv v s'.
Proof.
  intros G S [Hi (e & He & Ef)]. split; [exact (inv_same _ s s' G S Hi)|]. exists e. rewrite (proj2 S). auto.
Qed.
Lemma wp_qc {A B} (p : prog A) (q : A -> prog B) v s Q :
  safe W Rd C p T -> cinv v s -> (forall a s', cinv v s' -> samen s s' -> wp (q a) s' Q) -> wp (bind p q) s Q.
Proof.
  intros Hp Hc Hq. eapply wp_qnT; [exact Hp|apply Hc|]. intros a s' G' S. apply Hq; [|exact S].
  apply (cinv_same v s s'); auto. apply samen_same, S.
Qed.
Lemma wp_qc1 {A B} (p : prog A) (q : A -> prog B) v s Q :
  safe W1 Rd C p T -> cinv v s -> (forall a s', cinv v s' -> wp (q a) s' Q) -> wp (bind p q) s Q.
Proof.
  intros Hp Hc Hq. eapply wp_q1T; [exact Hp|apply Hc|]. intros a s' G' S. apply Hq. apply (cinv_same v s s'); auto.
Qed.
Lemma sub_w1 p lo1 hi1 : arr W p lo1 hi1 -> arr W1 p lo1 hi1.
Proof. intros H i Hi. apply ww1, H, Hi. Qed.
Lemma Hxnew1 : arr W1 xnew 1 n.
Proof. intros i Hi. right. unfold at1. geo. Qed.
Lemma sub_w k lo1 hi1 : 1 <= k + lo1 -> k + hi1 - 1 <= 3 * ndim -> arr W (at1 w k) lo1 hi1.
Proof. intros H1 H2 i Hi. unfold at1. replace (w + (k - 1) + (i - 1)) with (at1 w (k + i - 1)) by (unfold at1; lia). apply Hw. lia. Qed.

Lemma wp_20 v s : blab B20 v -> cinv v s -> wp (bq_20 n npt xpt xopt gopt hq pq v) s bpost.
Proof.
  intros Hl Hc. unfold bq_20. arrs. eapply wp_qc; [|exact Hc|intros _ s' Hc' _; gt].
  sf; try (apply gopt_hq_safe with (ctx := ctx); auto); apply gopt_pq_safe; auto.
Qed.

Lemma wp_60 fuel v s : blab B60 v -> cinv v s -> wp (bq_60 n npt xpt xopt gopt hq pq sl su xnew d w fuel v) s bpost.
Proof.
  intros Hl Hc. unfold bq_60. arrs. eapply wp_qc1; [|exact Hc|].
  - pose proof W1Rd; pose proof CW1. apply trsbox_safe; auto; try (apply sub_w1; apply sub_w; lia); try (apply sub_w1; assumption).
    + intros i Hi. apply Rhq. lia.
    + apply Hxnew1.
    + apply sub_w1. intros i Hi. apply Hw. lia.
  - intros [dsq crv] s1 C1. cbv zeta. destruct (nlt _ _); [|gt]. bb.
    assert (D0 : (0 <= nmul (nmul (nZ 100) (b_rho v)) (b_rho v))%R).
    { change (0 <= 100 * b_rho v * b_rho v)%R. assert (K := Rle_0_sqr (b_rho v)). unfold Rsqr in K. lra. }
    assert (G650 : forall t, cinv v t -> wp (goto B650 (set_ntrits (-1) (set_distsq (nmul (nmul (nZ 100) (b_rho v)) (b_rho v))
       (set_dsq dsq (set_crvmin crv (set_dnorm (bmin (nsqrt dsq) (b_delta v)) v)))))) t bpost).
    { intros t Ct. apply wp_goto; [discriminate|bb; split; [lia|exact D0]|]. apply (cinv_v v); auto. }
    destruct (b_nf v <=? _); [apply G650, C1|]. destruct (_ && _)%bool; [apply G650, C1|].
    eapply wp_qc; [|exact C1|intros [u|u] s2 C2 _; [gt|apply G650, C2]].
    apply (safe_weak W Rd C _ (fun r : unit + unit => match r with inl _ => True | inr _ => True end)); [|auto].
    apply (safe_loopxP W Rd C (fun _ : unit => True) (fun _ : unit => True)); auto.
    intros j [] Hj _. assert (K := diag_range n j Hj).
    apply safe_bindT; [sf|]. intros bd. destruct (nlt _ _); [|sf].
    do 3 (apply safe_bindT; [sf|intro]). sf.
Qed.

Lemma wp_90 v s : blab B90 v -> cinv v s ->
  wp (bq_90 n npt xbase xpt xopt hq pq bmat zmat ndim sl su xnew vlag w v) s bpost.
Proof.
  intros Hl Hc. unfold bq_90. apply wp_bind.
  assert (K : forall v' s', b_ntrits v' = b_ntrits v -> b_knew v' = b_knew v -> b_kopt v' = b_kopt v -> cinv v' s' ->
    wp (if b_ntrits v' =? 0 then goto B210 v' else goto B230 v') s' bpost).
  { intros v' s' E1 E2 E3 Hc'. destruct (Z.eqb_spec (b_ntrits v') 0) as [E0|E0].
    - apply wp_goto; [discriminate| |exact Hc']. unfold kok in *. bb. unfold kok in *. lia.
    - apply wp_goto; [discriminate| |exact Hc']. unfold kok in *. bb. unfold kok in *. lia. }
  destruct (nle _ _); [|apply wp_ret, K; auto].
  apply wp_bind. apply (wp_shift (b_kopt v)); [apply Hc|]. intros s' I' E'. apply wp_ret. apply K; auto.
  split; [exact I'|]. rewrite E'. exact (proj2 Hc).
Qed.

Lemma wp_210 fuel v s : blab B210 v -> cinv v s ->
  wp (bq_210 n npt xpt xopt bmat zmat ndim sl su xnew xalt d w fuel v) s bpost.
Proof.
  intros Hl Hc. unfold bq_210. arrs. eapply wp_qc1; [|exact Hc|].
  - pose proof W1Rd; pose proof CW1. destruct Hl as [_ [Hk _]].
    apply altmov_safe; auto; try (apply sub_w1; apply sub_w; lia); try (apply sub_w1; assumption); try lia.
    + apply Hxnew1.
    + apply sub_w1. intros i Hi. apply Hw. lia.
  - intros [alpha cauchy] s1 C1. eapply wp_qc; [sf|exact C1|]. intros _ s2 C2 _.
    apply wp_goto; [discriminate| |apply (cinv_v v); auto]. unfold blab, kok in *. bb. lia.
Qed.

Lemma wp_230 v s : blab B230 v -> cinv v s ->
  wp (bq_230 n npt xpt xopt bmat zmat ndim xnew xalt d vlag w v) s bpost.
Proof.
  intros Hl Hc. unfold bq_230. arrs. assert (Hk := proj1 (proj2 (proj1 Hc))).
  eapply wp_qc; [apply bq_vlag_safe; auto; lia|exact Hc|]. intros [beta dsq] s1 C1 _. cbv zeta. bb. unfold kok in Hl.
  destruct (Z.eqb_spec (b_ntrits v) 0) as [E0|E0].
  - eapply wp_qc; [sf|exact C1|]. intros denom s2 C2 _. bb. destruct (_ && _)%bool.
    + eapply wp_qc1; [|exact C2|intros _ s3 C3; gt].
      pose proof W1Rd; pose proof CW1. pose proof Hxnew1. assert (arr W1 d 1 n) by (apply sub_w1; assumption).
      clear H H0. sf.
    + eapply wp_qc; [sf|exact C2|]. intros [|] s3 C3 _; [|gt]. destruct (_ <? _); gt.
  - apply wp_bind. apply wp_scan; [auto|apply C1|]. intros scaden biglsq knew denom s2 G2 S2 B0 Hs _.
    assert (C2 := cinv_same v s1 s2 G2 (samen_same _ _ S2) C1). bb.
    cbn [nle NumR]. destruct (Rle_bool_spec scaden (nmul (half : N) (biglsq : N))) as [L|L].
    + destruct (_ <? _); gt.
    + assert (L0 : (0 < scaden)%R).
      { eapply Rle_lt_trans; [|exact L]. change (0 <= half (N := N) * biglsq)%R. assert (Hh : (half (N := N) : R) = (1 / 2)%R) by reflexivity.
        rewrite Hh. lra. }
      specialize (Hs L0). apply wp_goto; [discriminate|unfold kok; bb; unfold kok; bb; lia|apply (cinv_v v); auto].
Qed.

Lemma wp_680 v s : blab B680 v -> cinv v s -> wp (bq_680 (rhoend : N) v) s bpost.
Proof.
  intros Hl Hc. unfold bq_680. cbv zeta. destruct (nlt _ _); [gt|]. destruct (Z.eqb_spec (b_ntrits v) (-1)); [gt|].
  apply wp_done, cinv_done, Hc.
Qed.

(** Label L650: the farthest point from XOPT is not XOPT *)
Lemma wp_650 v s : blab B650 v -> cinv v s -> wp (bq_650 n npt xpt xopt v) s bpost.
Proof.
  intros [Hl Hd0] Hc. unfold bq_650. arrs. destruct Hc as [(G & Hk & e & Le & Ef & Hp) Hf].
  apply wp_bind.
  apply (wp_loopJ (fun k (r : Z * N) t => t = s /\ 0 <= fst r <= npt /\ fst r <> b_kopt v /\ (0 <= (snd r : R))%R)); [lia| | |].
  { split; [reflexivity|]. split; [cbn [fst]; lia|]. split; [cbn [fst]; lia|exact Hd0]. }
  { intros k [kn ds] t Hkk (-> & K1 & K2 & K3). cbn [fst snd] in *. apply wp_bind.
    apply (wp_loopJ (fun j (sum : N) t => t = s /\ (0 <= (sum : R))%R /\ (k = b_kopt v -> (sum : R) = 0%R))); [lia| | |].
    - split; [reflexivity|]. split; [change (0 <= 0)%R; lra|intros _; reflexivity].
    - intros j sum t Hj (-> & S1 & S2). apply wp_bind, wp_lift2. apply wp_ld. intros a Ea. apply wp_ld. intros o Eo.
      apply wp_lift2, wp_ret, wp_lift2, wp_ret, wp_ret. split; [reflexivity|]. cbn [nadd nmul nsub NumR]. split.
      + assert (Q := Rle_0_sqr (a - o)%R). unfold Rsqr in Q. apply Rplus_le_le_0_compat; assumption.
      + intros ->. rewrite (S2 eq_refl). destruct (Hp j Hj) as (b' & o' & _ & Y1 & Y2 & _). rewrite Eo in Y1. injection Y1 as ->.
        rewrite Ea in Y2. injection Y2 as ->. change (0 + (o' - o') * (o' - o') = 0)%R. ring.
    - intros sum t (-> & S1 & S2). cbn [nlt NumR]. destruct (Rlt_bool_spec (ds : R) (sum : R)) as [L|L].
      + apply wp_ret. cbn [fst snd]. split; [reflexivity|]. split; [lia|]. split; [|exact S1]. intros ->. specialize (S2 eq_refl). lra.
      + apply wp_ret. cbn [fst snd]. auto. }
  intros [knew distsq] t (-> & K1 & K2 & K3). cbn [fst snd] in *.
  assert (Hc : cinv v s) by (split; [split; [exact G|split; [exact Hk|exists e; auto]]|exact Hf]).
  cbv zeta. bb. destruct (Z.ltb_spec 0 knew); [|destruct (Z.eqb_spec (b_ntrits v) (-1)); [gt|destruct (_ || _)%bool; gt]].
  gt.
Qed.

(** ** After the evaluation of the new point *)
Lemma least_old e0 e L : least e L -> (val e <= val e0)%R -> least e (e0 :: L).
Proof. intros [H1 H2] H. split; [right; exact H1|]. intros e' [<-|He]; auto. Qed.
Lemma least_new e0 e L : least e L -> (val e0 < val e)%R -> least e0 (e0 :: L).
Proof. intros [H1 H2] H. split; [left; reflexivity|]. intros e' [<-|He]; [lra|]. assert (Q := H2 e' He). lra. Qed.

Lemma bmax_nonneg (a b : R) : (0 <= b)%R -> (0 <= (bmax (a : N) (b : N) : R))%R.
Proof.
  intros Hb. unfold bmax. cbn [nle NumR]. destruct (Rle_bool_spec b a) as [L|L]; [exact (Rle_trans _ _ _ Hb L)|exact Hb].
Qed.

Lemma wp_after (e0 : list N * N) L v s :
  (b_ntrits v = -1 \/ 0 <= b_ntrits v /\ kok v) -> good s -> 1 <= b_kopt v <= npt -> evs s = e0 :: L -> best L (b_kopt v) s ->
  (exists e, In e L /\ b_fsave v = (val e : N)) -> b_f v = (val e0 : N) -> xof e0 s -> (forall i, 1 <= i <= n -> natw e0 s i) ->
  wp (bq_after n npt xpt fval xopt gopt hq pq bmat zmat ndim sl su xnew d vlag w (val e0 : N) v) s bpost.
Proof.
  intros Hl G Hk Ee B Hf Eb Hxo Hna. unfold bq_after. arrs. destruct B as (e & Le & Ef & Hp).
  destruct (Z.eqb_spec (b_ntrits v) (-1)) as [E1|E1].
  { apply wp_done. split; [exact G|]. split; [exact Hk|]. exists (e0 :: L), (val e). bb. split; [left; exact Ee|]. split; [exact Ef|].
    split.
    - intros Q. exists e. split; [apply least_old; [exact Le|exact Q]|auto].
    - intros Q. exists e0. split; [apply (least_new e0 e); [exact Le|exact Q]|auto]. }
  destruct Hl as [Hl|[Hl Hkn]]; [congruence|].
  apply wp_bind, wp_ld. intros fopt Eo. rewrite Ef in Eo. injection Eo as <-.
  eapply wp_qnT; [apply vquad_safe with (ndim := ndim); auto|exact G|]. intros vquad s1 G1 S1. cbv zeta.
  assert (B1 : best L (b_kopt v) s1) by (apply (best_same _ _ s); [exact Hk|apply samen_same, S1|exists e; auto]).
  assert (E1' : evs s1 = e0 :: L) by (rewrite (proj2 S1); exact Ee).
  assert (Hna1 : forall i, 1 <= i <= n -> natw e0 s1 i) by (intros i Hi; apply (natw_same e0 s); auto).
  clear S1 G Ee Hxo Hna Ef Hp.
  set (v1 := if nlt _ _ then _ else _).
  assert (E2 : b_ntrits v1 = b_ntrits v /\ b_knew v1 = b_knew v /\ b_kopt v1 = b_kopt v /\ b_fsave v1 = b_fsave v).
  { unfold v1. destruct (nlt _ _); auto. }
  clearbody v1. destruct E2 as (F1 & F2 & F3 & F4). rewrite F1.
  destruct (_ && _)%bool.
  { apply wp_done. split; [exact G1|]. bb. rewrite F3. split; [exact Hk|]. exists L, (val e).
    assert (B1' := B1). destruct B1' as (e' & Le' & Ef' & Hp').
    assert (Q : val e' = val e) by (assert (K1 := proj2 Le e' (proj1 Le')); assert (K2 := proj2 Le' e (proj1 Le)); lra).
    split; [right; split; [reflexivity|exists e0; exact E1']|]. split; [rewrite <- Q; exact Ef'|]. split; [auto|].
    intros K. rewrite F4 in K. destruct Hf as (e1 & H1' & H2'). rewrite H2' in K. assert (K1 := proj2 Le e1 H1').
    change (val e1 < val e)%R in K. lra. }
  apply wp_bind.
  assert (AA : forall v2 s2, b_ntrits v2 = b_ntrits v -> 1 <= b_knew v2 <= npt -> ((val e <= val e0)%R -> b_knew v2 <> b_kopt v) ->
    b_kopt v2 = b_kopt v -> b_fsave v2 = b_fsave v -> good s2 -> samen s1 s2 ->
    wp (bq_move n npt xpt fval xopt gopt hq pq bmat zmat ndim xnew vlag w (b_beta v2) (b_denom v2) (nsub (nsub (val e0 : N) (val e : N)) vquad) (val e0 : N) (b_knew v2) ;;
  let* v := if nlt (val e0 : N) (val e : N) then (let* xoptsq := bq_newopt n npt xpt xopt gopt hq pq xnew d in $(set_kopt (b_knew v2) (set_xoptsq xoptsq v2))) else $v2 in
  let* v := if (0 <? b_ntrits v)%Z then (let* itest := bq_frob n npt xpt fval xopt gopt hq pq bmat zmat ndim sl su vlag w (b_kopt v) (b_itest v) in $(set_itest itest v)) else $v in
  if ((b_ntrits v =? 0)%Z || nle (val e0 : N) (nadd (val e : N) (nmul tenth vquad)))%bool then goto B60 v
  else
    goto B650 (set_distsq (bmax (nmul (nmul two (b_delta v)) (nmul two (b_delta v))) (nmul (nmul ten (b_rho v)) (nmul ten (b_rho v)))) v))%bq s2 bpost).
  { clear v1 F1 F2 F3 F4. intros v2 s2 V1 V2 V3 V4 V5 G2 S2.
    assert (B2 : best L (b_kopt v) s2) by (apply (best_same _ _ s1); [exact Hk|apply samen_same, S2|exact B1]).
    assert (E2 : evs s2 = e0 :: L) by (rewrite (proj2 S2); exact E1').
    assert (Hna2 : forall i, 1 <= i <= n -> natw e0 s2 i) by (intros i Hi; apply (natw_same e0 s1); auto).
    clear s1 S2 G1 B1 E1' Hna1 S2. destruct B2 as (e' & Le' & Ef' & Hp').
    assert (Q : val e' = val e) by (assert (K1 := proj2 Le e' (proj1 Le')); assert (K2 := proj2 Le' e (proj1 Le)); lra).
    apply wp_bind. apply wp_move; [exact V2|exact G2|]. intros s3 G3 M.
    assert (BB : forall v3 s4, b_ntrits v3 = b_ntrits v -> b_fsave v3 = b_fsave v -> good s4 -> 1 <= b_kopt v3 <= npt -> evs s4 = e0 :: L -> best (e0 :: L) (b_kopt v3) s4 ->
      wp (let* v := if (0 <? b_ntrits v3)%Z then (let* itest := bq_frob n npt xpt fval xopt gopt hq pq bmat zmat ndim sl su vlag w (b_kopt v3) (b_itest v3) in $(set_itest itest v3)) else $v3 in
  if ((b_ntrits v =? 0)%Z || nle (val e0 : N) (nadd (val e : N) (nmul tenth vquad)))%bool then goto B60 v
  else
    goto B650 (set_distsq (bmax (nmul (nmul two (b_delta v)) (nmul two (b_delta v))) (nmul (nmul ten (b_rho v)) (nmul ten (b_rho v)))) v))%bq s4 bpost).
    { intros v3 s4 U1 U2 G4 U3 E4 B4. assert (C4 : cinv v3 s4).
      { split; [split; [exact G4|split; [exact U3|rewrite E4; exact B4]]|]. destruct Hf as (e1 & H1' & H2'). exists e1.
        rewrite E4, U2. split; [right; exact H1'|exact H2']. }
      assert (CC : forall v4 t, b_ntrits v4 = b_ntrits v -> cinv v4 t -> wp (if ((b_ntrits v4 =? 0)%Z || nle (val e0 : N) (nadd (val e : N) (nmul tenth vquad)))%bool then goto B60 v4
  else
    goto B650 (set_distsq (bmax (nmul (nmul two (b_delta v4)) (nmul two (b_delta v4))) (nmul (nmul ten (b_rho v4)) (nmul ten (b_rho v4)))) v4)) t bpost).
      { intros v4 t X1 Ct. destruct (_ || _)%bool; [gt|].
        apply wp_goto; [discriminate| |apply (cinv_v v4); auto]. bb. split; [lia|]. apply bmax_nonneg. apply Rle_0_sqr. }
      apply wp_bind. destruct (Z.ltb_spec 0 (b_ntrits v3)).
      - eapply wp_qc; [apply frob_safe; auto; lia|exact C4|]. intros it s5 C5 _. apply wp_ret. apply CC; [exact U1|].
        apply (cinv_v v3); auto.
      - apply wp_ret. apply CC; auto. }
    apply wp_bind. cbn [nlt NumR]. destruct (Rlt_bool_spec (val e0) (val e)) as [Lt|Ge].
    - apply wp_bind. apply wp_newopt; [exact G3|]. intros u s4 G4 E4 F4 X4. apply wp_ret. apply (BB (set_kopt (b_knew v2) (set_xoptsq u v2))); auto.
      + rewrite E4, (mv_evs _ _ _ _ M). exact E2.
      + bb. exists e0. split; [apply (least_new e0 e); auto|].
        assert (KF : forall a, keptn a -> ~ (xopt <= a < xopt + n) -> mm s4 a = mm s3 a).
        { intros a Ha Na. apply F4; [exact Ha|]. intros j Hj ->. apply Na. unfold at1. lia. }
        split; [rewrite KF; [apply (mv_new _ _ _ _ M)|auto with kept|unfold at1; geo]|].
        intros i Hi. destruct (Hna2 i Hi) as (b & vv & N1 & N2 & N3 & N4 & N5). destruct (mv_cells _ _ _ _ M i Hi) as (M1 & M2 & M3 & M4 & M5).
        assert (KR := at2_range xpt npt n (b_knew v2) i V2 Hi).
        exists b, vv. rewrite X4, M5 by exact Hi. rewrite !KF by (auto with kept; unfold at1; geo).
        rewrite M1, M3, M4, (mv_xnew _ _ _ _ M i Hi). auto 10.
    - apply wp_ret. apply BB; auto.
      + rewrite V4. exact Hk.
      + rewrite (mv_evs _ _ _ _ M). exact E2.
      + rewrite V4. specialize (V3 Ge). exists e'. split; [apply least_old; [exact Le'|lra]|].
        split; [rewrite (mv_fval _ _ _ _ M) by auto; exact Ef'|].
        intros i Hi. destruct (Hp' i Hi) as (b & o & P1 & P2 & P3 & P4 & P5 & P6).
        destruct (mv_cells _ _ _ _ M i Hi) as (M1 & M2 & M3 & M4 & M5). exists b, o.
        rewrite M1, M2, M3, M4, (mv_xpt _ _ _ _ M) by auto. auto 10. }
  eapply wp_weak with (P := fun v2 s2 => (b_ntrits v2 = b_ntrits v /\ 1 <= b_knew v2 <= npt /\ ((val e <= val e0)%R -> b_knew v2 <> b_kopt v) /\
    b_kopt v2 = b_kopt v /\ b_fsave v2 = b_fsave v) /\ good s2 /\ samen s1 s2);
    [clear AA|intros v2 s2 ((V1 & V2 & V3 & V4 & V5) & G2 & S2); apply AA; assumption].
  assert (R1 : good s1 /\ samen s1 s1) by (split; [exact G1|split; auto]). destruct Hkn as [Hk1 Hk2].
  destruct (Z.ltb_spec 0 (b_ntrits v)) as [Hlt|Hge]; [|apply wp_ret; split; [rewrite F1, F2, F3, F4; auto 10|exact R1]].
  cbn [nlt NumR]. destruct (Rlt_bool_spec (val e0) (val e)) as [Lt|Ge]; [|apply wp_ret; bb; split; [rewrite F1, F2, F3, F4; auto 10|exact R1]].
  apply wp_bind. apply wp_scan; [auto|exact G1|]. intros scaden biglsq knew denom s2 G2 S2 B0 Hs _.
  cbn [nle NumR]. destruct (Rle_bool_spec scaden (nmul (half : N) (biglsq : N))) as [L'|L'].
  { apply wp_ret. bb. split; [rewrite F1, F2, F3, F4; auto 10|auto]. }
  assert (L0 : (0 < scaden)%R).
  { eapply Rle_lt_trans; [|exact L']. change (0 <= half (N := N) * biglsq)%R. assert (Hh : (half (N := N) : R) = (1 / 2)%R) by reflexivity.
    rewrite Hh. lra. }
  specialize (Hs L0). apply wp_ret. bb. split; [rewrite F1, F3, F4; repeat split; auto; try apply Hs; intros Q; lra|auto].
Qed.

Lemma good_rd s a : good s -> Rd a -> exists v : R, mm s a = Some (v : N).
Proof. intros [G _] Ha. exact (G a Ha). Qed.

Lemma inv_vat xv kopt s : inv kopt s -> arr Rd xv 1 n -> forall i, 1 <= i <= n -> vat xv s i.
Proof.
  intros (G & Hk & e & Le & Ef & Hp) Hv i Hi. destruct (Hp i Hi) as (b & o & H1 & H2 & H3 & H4 & H5 & H6).
  destruct (good_rd s (at1 xv i) G (Hv i Hi)) as (v & Ev). exists b, v. auto.
Qed.
Lemma onlyx_same s s' : onlyx s s' -> (forall a, xbase <= a < wend -> mm s' a = mm s a) /\ evs s' = evs s.
Proof. intros [H1 H2]. split; [|exact H2]. intros a Ha. apply H1, notx, Ha. Qed.
Lemma best_ws l kopt s s' : 1 <= kopt <= npt -> (forall a, xbase <= a < wend -> mm s' a = mm s a) -> best l kopt s -> best l kopt s'.
Proof.
  intros Hk F (e & Le & Ef & Hp). exists e. split; [exact Le|]. split; [rewrite F; [exact Ef|unfold at1; geo]|].
  intros i Hi. destruct (Hp i Hi) as (b & o & H1 & H2 & H3 & H4 & H5 & H6). exists b, o.
  assert (KR := at2_range xpt npt n kopt i Hk Hi). rewrite !F by (unfold at1; geo). auto 10.
Qed.

Lemma wp_360 v s : blab B360 v -> cinv v s ->
  wp (bq_360 n npt ctx x xl xu maxfun xbase xpt fval xopt gopt hq pq bmat zmat ndim sl su xnew d vlag w v) s bpost.
Proof.
  intros Hl Hc. unfold bq_360. arrs. apply wp_bind. assert (Hv := inv_vat xnew _ s (proj1 Hc) Rxnew).
  apply wp_bq_x; [geo|geo|apply Hc|exact Hv|]. intros s1 G1 O1 X1. destruct (onlyx_same _ _ O1) as [F1 E1].
  destruct Hc as [(G & Hk & B) Hf]. assert (B1 := best_ws _ _ s s1 Hk F1 B). rewrite <- E1 in B1, Hf.
  destruct (Z.leb_spec maxfun (b_nf v)) as [L|L]; [apply wp_fail; split; [split; auto|exact Hf]|]. cbv zeta.
  apply wp_bind. set (X := fun i => match mm s1 (at1 x i) with Some u => u : R | None => 0%R end).
  assert (EX : forall i, 1 <= i <= n -> mm s1 (at1 x i) = Some (X i : N)).
  { intros i Hi. destruct (X1 i Hi) as (b & u & _ & _ & Q). unfold X. rewrite Q. reflexivity. }
  apply (wp_call x X); [exact G1|exact EX| |].
  { intros i Hi Q. destruct (wsc_out _ Q) as [_ Q']. exact (Q' i Hi eq_refl). }
  intros s2 e G2 He E2 F2.
  assert (F2' : forall a, xbase <= a < wend -> mm s2 a = mm s1 a).
  { intros a Ha. apply F2. intros Q. apply wsc_out in Q. apply Q, Ha. }
  apply (wp_after e (evs s1)); auto.
  - apply (best_ws _ _ s1); auto.
  - intros i Hi. exists (X i). split; [|apply He, Hi]. rewrite F2; [apply EX, Hi|]. intros Q. destruct (wsc_out _ Q) as [_ Q'].
    exact (Q' i Hi eq_refl).
  - intros i Hi. destruct (Hv i Hi) as (b & u & Q1 & Q2 & Q3 & Q4). exists b, u.
    rewrite !F2' by (unfold at1; geo). rewrite !F1 by (unfold at1; geo). repeat (split; [assumption|]).
    rewrite He by exact Hi. destruct (X1 i Hi) as (b' & u' & Y1 & Y2 & Y3). rewrite Q1 in Y1. injection Y1 as <-.
    rewrite Q2 in Y2. injection Y2 as <-. rewrite (EX i Hi) in Y3. injection Y3 as ->. reflexivity.
Qed.

(** ** The end *)
Definition final (st : bstatus) (s : mst) : Prop := good s /\ exists L e,
  (evs s = L \/ st = BQ_STEP_FAILED /\ exists e0, evs s = e0 :: L) /\ least e L /\ xof e s /\
  (st = BQ_SUCCESS -> mm s (at1 xbase 1) = Some (val e : N)).

Lemma wp_end v s : dinv v s -> wp (bq_done n x xl xu xbase fval xopt sl su v) s final.
Proof.
  intros (G & Hk & L & u & HL & Ef & H1 & H2). unfold bq_done. arrs. apply wp_bind.
  assert (FF : forall f e s1, f = (val e : N) -> good s1 -> evs s1 = evs s -> least e L -> xof e s1 ->
    wp (bind (match b_status v with BQ_SUCCESS => assign (at1 xbase 1) (ret f) | _ => ret tt end) (fun _ => ret (b_status v))) s1 final).
  { intros f e s1 -> G1 E1 Le Xe. apply wp_bind.
    assert (KK : b_status v <> BQ_SUCCESS -> final (b_status v) s1).
    { intros Ne. split; [exact G1|]. exists L, e. rewrite E1. split; [exact HL|]. split; [exact Le|]. split; [exact Xe|]. congruence. }
    destruct (b_status v) eqn:Es; try (apply wp_ret, wp_ret, KK; discriminate).
    apply wp_assign, wp_ret, wp_ret. split; [apply good_w; [unfold at1; geo|exact G1]|]. exists L, e. cbn [evs upd]. rewrite E1. split; [exact HL|]. split; [exact Le|].
    split; [|intros _; apply upd_same]. intros i Hi. destruct (Xe i Hi) as (X & Q1 & Q2). exists X. rewrite upd_other; [auto|].
    destruct (Hx i Hi) as (_ & Q3 & _). intros E. apply Q3. rewrite E. unfold at1. geo. }
  apply wp_ifp, wp_lift2, wp_ld. rewrite Ef. intros u1 [= <-]. apply wp_ret. cbn [nle NumR].
  destruct (Rle_bool_spec u (b_fsave v)) as [Le|Le].
  - destruct (H1 Le) as (e & Lst & Ef' & Hp). apply wp_bind.
    apply wp_bq_x; [geo|geo|exact G| |].
    { intros i Hi. destruct (Hp i Hi) as (b & o & P1 & P2 & P3 & P4 & P5 & P6). exists b, o. auto. }
    intros s1 G1 O1 X1. destruct (onlyx_same _ _ O1) as [F1 E1].
    apply wp_ld. rewrite F1 by (unfold at1; geo). intros f Ef1. rewrite Ef' in Ef1. injection Ef1 as <-.
    apply (FF _ e); auto. intros i Hi. destruct (X1 i Hi) as (b & o & Q1 & Q2 & Q3).
    destruct (Hp i Hi) as (b' & o' & P1 & P2 & P3 & P4 & P5 & P6). rewrite Q1 in P1. injection P1 as <-. rewrite Q2 in P2. injection P2 as <-.
    eexists. split; [exact Q3|exact P6].
  - destruct (H2 Le) as (e & Lst & Ef' & Xe). apply wp_ret. apply (FF _ e); auto.
Qed.

(** ** rescue *)
Notation ids := (at1 w (n + (n + 1))).
Notation vv := (at1 w (ndim + (n + 1))).
(** [W] without PTSID *)
Definition W3 (a : Z) : Prop := W a /\ ~ (w + 2 * n <= a < w + 2 * n + npt).
Definition sam3 (s s' : mst) : Prop := samen s s' /\ forall k, 1 <= k <= npt -> mm s' (at1 ids k) = mm s (at1 ids k).
Lemma W3Rd : forall a, W3 a -> Rd a.
Proof. intros a [Ha _]. apply WRd, Ha. Qed.
Lemma CW3 : forall a v, C a = Some v -> ~ W3 a.
Proof. intros a v E [Ha _]. exact (CW a v E Ha). Qed.
Lemma frame_sam3 s s' : frame W3 s s' -> sam3 s s'.
Proof.
  intros [A B]. split.
  - split; [|exact B]. intros a Ha. apply A. unfold W3, W, keptn in *. lia.
  - intros k Hk. apply A. unfold W3, at1. lia.
Qed.
Lemma sam3_trans s1 s2 s3 : sam3 s1 s2 -> sam3 s2 s3 -> sam3 s1 s3.
Proof. intros [A B] [A' B']. split; [apply (samen_trans _ s2); auto|]. intros k Hk. rewrite B', B; auto. Qed.
Lemma wp_q3 {A B} (p : prog A) (q : A -> prog B) P s Q :
  safe W3 Rd C p P -> good s -> (forall a s', P a -> good s' -> sam3 s s' -> wp (q a) s' Q) -> wp (bind p q) s Q.
Proof. intros Hp Gs Hq. apply wp_bind. eapply wp_safe; [exact Hp|exact Gs|]. intros a s' Pa G' F. apply Hq; auto. apply frame_sam3, F. Qed.
Lemma wp_q3T {A B} (p : prog A) (q : A -> prog B) s Q :
  safe W3 Rd C p T -> good s -> (forall a s', good s' -> sam3 s s' -> wp (q a) s' Q) -> wp (bind p q) s Q.
Proof. intros Hp Gs Hq. eapply wp_q3; [exact Hp|exact Gs|]. auto. Qed.

Lemma low3 a : W a -> a < w + 2 * n -> W3 a.
Proof. unfold W3. intros H1 H2. split; [exact H1|lia]. Qed.
Lemma Hgopt3 : arr W3 gopt 1 n.
Proof. intros i Hi. apply low3; [apply Hgopt, Hi|]. assert (K := Ggopt i Hi). cbv beta in K. geo. Qed.
Lemma Hhq3 : arr W3 hq 0 (n * (n + 1) / 2).
Proof. intros i Hi. apply low3; [apply Hhq, Hi|]. assert (K := Ghq i Hi). cbv beta in K. geo. Qed.
Lemma Hpq3 : arr W3 pq 0 npt.
Proof. intros i Hi. apply low3; [apply Hpq, Hi|]. assert (K := Gpq i Hi). cbv beta in K. geo. Qed.
Lemma Hbmat3 : mat W3 bmat ndim 0 ndim 1 n.
Proof. intros i j Hi Hj. apply low3; [apply Hbmat; auto|]. assert (K := Gbmat i j Hi Hj). cbv beta in K. geo. Qed.
Lemma Hzmat3 : mat W3 zmat npt 0 npt 1 (npt - n - 1).
Proof. intros i j Hi Hj. apply low3; [apply Hzmat; auto|]. assert (K := Gzmat i j Hi Hj). cbv beta in K. geo. Qed.
Lemma Hvlag3 : arr W3 vlag 0 ndim.
Proof. intros i Hi. apply low3; [apply Hvlag, Hi|]. unfold at1. geo. Qed.
Lemma Haux1 : mat W3 w 2 1 1 1 n.
Proof. intros i j Hi Hj. apply low3; [right|]; unfold at2; geo. Qed.
Lemma Haux2 : mat W3 w 2 2 2 0 n.
Proof. intros i j Hi Hj. apply low3; [right|]; unfold at2; geo. Qed.
Lemma Hvv : arr W3 vv 1 (ndim + npt).
Proof. intros i Hi. split; [right|]; unfold at1; geo. Qed.
Lemma Rvv : arr Rd vv 0 (ndim + npt).
Proof. intros i Hi. apply HRd. unfold at1. geo. Qed.
Lemma Rids : arr Rd ids 0 npt.
Proof. intros i Hi. apply HRd. unfold at1. geo. Qed.
Lemma Hids : arr W ids 0 npt.
Proof. intros i Hi. right. unfold at1. geo. Qed.
Lemma w3w : forall a, W3 a -> W a.
Proof. intros a [Ha _]. exact Ha. Qed.
Lemma w3_arr p l h : arr W3 p l h -> arr W p l h.
Proof. intros H i Hi. apply w3w, H, Hi. Qed.
Lemma w3_mat p l a b c e : mat W3 p l a b c e -> mat W p l a b c e.
Proof. intros H i j Hi Hj. apply w3w, H; auto. Qed.
Ltac arr3 := pose proof W3Rd; pose proof CW3; pose proof Hgopt3; pose proof Hhq3; pose proof Hpq3; pose proof Hbmat3; pose proof Hzmat3;
  pose proof Hvlag3; pose proof Haux1; pose proof Haux2; pose proof Hvv; pose proof Rvv; pose proof Rids;
  pose proof Rxbase; pose proof Rfval; pose proof Rxopt; pose proof Rsl; pose proof Rsu; pose proof Rgopt; pose proof Rhq; pose proof Rpq;
  pose proof Rbmat; pose proof Rzmat; pose proof Rvlag; pose proof Rxpt.

(** The shift of XPT *)
Lemma pts_sub e kopt r u l s k j (v o : R) : 1 <= kopt <= npt -> 1 <= k <= npt -> 1 <= j <= n ->
  mm s (at2 xpt npt k j) = Some (v : N) -> mm s (at1 xopt j) = Some (o : N) -> (k = kopt -> forall o, r j o = o) ->
  pts e kopt r u l s ->
  pts e kopt (fun i => if (kopt =? k) && (i =? j) then z_ else r i) u l (upd s (at2 xpt npt k j) ((v - o)%R : N)).
Proof.
  intros Hko Hk Hj Ev Eo Hr (Gs & El & Ef & Hp). assert (K := at2_range xpt npt n k j Hk Hj). split; [apply good_w; [geo|exact Gs]|].
  split; [exact El|]. split; [rewrite upd_other; [exact Ef|unfold at1; geo]|].
  intros i Hi. specialize (Hp i Hi). destruct (Z.eqb_spec kopt k) as [->|Nk]; cbn [andb].
  - destruct (Z.eqb_spec i j) as [->|Ne].
    + destruct Hp as (b & o' & H1 & H2 & H3 & H4 & H5 & H6). exists b, o'. rewrite upd_same.
      rewrite !upd_other by (unfold at1; geo). rewrite H2 in Eo. injection Eo as ->. rewrite H3, Hr in Ev by reflexivity. injection Ev as ->.
      repeat split; auto. f_equal. change (v - v = 0)%R. lra.
    + apply ptat_upd; try (unfold at1; geo); [|exact Hp]. apply xpt_ne; auto.
  - apply ptat_upd; try (unfold at1; geo); [|exact Hp]. apply xpt_ne; auto.
Qed.

Lemma wp_res_shift e kopt u l s (Q : N -> mst -> Prop) : 1 <= kopt <= npt -> pts e kopt (fun _ => id) u l s ->
  (forall r s', pts e kopt (fun _ => z_) u l s' -> Q r s') -> wp (res_shift n npt xpt xopt hq pq zmat ndim vv) s Q.
Proof.
  intros Hk P K. unfold res_shift. cbv zeta. arrs. assert (Hv := w3_arr _ _ _ Hvv). pose proof Rvv. apply wp_bind. unfold LOOP at 1.
  apply (wp_loopJ (fun k (_ : N * N) t => pts e kopt (fun _ => if kopt <? k then z_ else id) u l t)); [lia| | |].
  { destruct (Z.ltb_spec kopt 1); [lia|exact P]. }
  { intros k [sumpq winc] t Hkk Pt. apply wp_bind. unfold LOOP at 1.
    apply (wp_loopJ (fun j (_ : N) t => pts e kopt (fun i => if (kopt <? k) || (kopt =? k) && (i <? j) then z_ else id) u l t)); [lia| | |].
    - apply pts_r with (2 := Pt). intros i o Hi. destruct (Z.ltb_spec i 1); [lia|]. rewrite andb_false_r, orb_false_r. reflexivity.
    - intros j ds t1 Hj P1. apply wp_bind, wp_lift2, wp_ld. intros v Ev. apply wp_ld. intros o Eo. apply wp_bind, wp_assign, wp_ret.
      apply wp_lift2, wp_ret, wp_lift2, wp_ret, wp_ret. cbn [nsub NumR].
      eapply pts_r; [|eapply (pts_sub e kopt _ u l t1 k j v o); [exact Hk|exact Hkk|exact Hj|exact Ev|exact Eo| |exact P1]].
      + intros i o' Hi. destruct (Z.eqb_spec kopt k) as [->|Nk]; cbn [andb]; [|rewrite !orb_false_r; reflexivity].
        rewrite Z.ltb_irrefl. cbn [orb].
        destruct (Z.eqb_spec i j); destruct (Z.ltb_spec i j); destruct (Z.ltb_spec i (j + 1)); try lia; reflexivity.
      + intros -> o'. rewrite !Z.ltb_irrefl, Z.eqb_refl. reflexivity.
    - intros ds t1 P1. apply pts_r with (r' := fun _ => if kopt <? k + 1 then z_ else id) in P1.
      2:{ intros i o Hi. destruct (Z.ltb_spec i (n + 1)); [|lia]. rewrite andb_true_r.
          destruct (Z.ltb_spec kopt k); destruct (Z.eqb_spec kopt k); destruct (Z.ltb_spec kopt (k + 1)); try lia; reflexivity. }
      assert (PP : forall t2, good t2 -> samen t1 t2 -> pts e kopt (fun _ => if kopt <? k + 1 then z_ else id) u l t2).
      { intros t2 G2 S2. exact (pts_same _ _ _ _ _ _ _ Hk G2 (samen_same _ _ S2) P1). }
      eapply wp_qnT; [sf|apply P1|]. intros sp t2 G2 S2.
      eapply wp_qnT; [sf|exact G2|]. intros _ t3 G3 S3.
      eapply wp_qnT; [sf|exact G3|]. intros wi t4 G4 S4.
      eapply wp_qnT; [sf|exact G4|]. intros _ t5 G5 S5. apply wp_ret. apply PP; [exact G5|].
      exact (samen_trans _ _ _ (samen_trans _ _ _ (samen_trans _ _ _ S2 S3) S4) S5). }
  intros [sumpq winc] t Pt. destruct (Z.ltb_spec kopt (npt + 1)); [|lia].
  eapply wp_qnT; [|apply Pt|].
  { apply (safe_weak W Rd C _ (fun ih => 2 * ih = (n + 1) * (n + 1 - 1))); [|auto].
    unfold LOOP at 1. apply (safe_loopJ W Rd C (fun j ih => 2 * ih = j * (j - 1))); [lia| |lia].
    intros j ih Hj E. do 2 (apply safe_bindT; [sf|intro]).
    apply (safe_weak W Rd C _ (fun ih => 2 * ih = j * (j - 1) + 2 * (j + 1 - 1))); [|intros; lia].
    unfold LOOP. apply (safe_loopJ W Rd C (fun i ih => 2 * ih = j * (j - 1) + 2 * (i - 1))); [lia| |lia].
    intros i ih' Hi E'. assert (KK := tri_range n j i ih' Hi (proj2 Hj) E'). sf. lia. }
  intros _ t1 G1 S1. apply wp_ret. apply K. exact (pts_same _ _ _ _ _ _ _ Hk G1 (samen_same _ _ S1) Pt).
Qed.

Lemma wp_res_base e kopt u l delta s (Q : unit -> mst -> Prop) : 1 <= kopt <= npt -> pts e kopt (fun _ => z_) u l s ->
  (forall s', pts e kopt (fun _ => id) u l s' -> Q tt s') -> wp (res_base n xbase xopt bmat ndim sl su delta w) s Q.
Proof.
  intros Hk P K. unfold res_base. cbv zeta. arrs. assert (HA1 := w3_mat _ _ _ _ _ _ Haux1). assert (HA2 := w3_mat _ _ _ _ _ _ Haux2).
  unfold LOOP_ at 1. apply (wp_loopJ (fun j (_ : unit) t => pts e kopt (fun i => if i <? j then id else z_) u l t)); [lia| | |].
  { apply pts_r with (2 := P). intros i o Hi. destruct (Z.ltb_spec i 1); [lia|reflexivity]. }
  { clear s P. intros j uu t Hj P. assert (P0 := proj2 (proj2 (proj2 P)) j Hj). cbv beta in P0. rewrite Z.ltb_irrefl in P0.
    destruct P0 as (b & o & H1' & H2' & H3' & H4' & H5' & H6').
    assert (KP : forall a v (s : mst), xbase <= a < xpt \/ xopt <= a < wend -> (forall i, 1 <= i <= n -> i <> j ->
      a <> at1 xbase i /\ a <> at1 xopt i /\ a <> at1 sl i /\ a <> at1 su i) ->
      (good s /\ evs s = l /\ mm s (at1 fval kopt) = Some (u : N) /\ forall i, 1 <= i <= n -> i <> j -> ptat e kopt (if i <? j then id else z_) s i) ->
      (good (upd s a v) /\ evs (upd s a v) = l /\ mm (upd s a v) (at1 fval kopt) = Some (u : N) /\ forall i, 1 <= i <= n -> i <> j -> ptat e kopt (if i <? j then id else z_) (upd s a v) i)).
    { intros a v s0 Ha Na (X1 & X2 & X3 & X4). split; [apply good_w; auto; geo|]. split; [exact X2|].
      split; [rewrite upd_other; [exact X3|unfold at1; geo]|]. intros i Hi Ne. destruct (Na i Hi Ne) as (Y1 & Y2 & Y3 & Y4).
      assert (KR := at2_range xpt npt n kopt i Hk Hi). apply ptat_upd; auto. geo. }
    assert (QQ : good t /\ evs t = l /\ mm t (at1 fval kopt) = Some (u : N) /\ forall i, 1 <= i <= n -> i <> j -> ptat e kopt (if i <? j then id else z_) t i).
    { destruct P as (X1 & X2 & X3 & X4). auto 10. }
    assert (KR := at2_range xpt npt n kopt j Hk Hj).
    apply wp_bind, wp_assign_add, wp_ld. rewrite H1'. intros b0 [= <-]. apply wp_ld. rewrite H2'. intros o0 [= <-].
    apply KP with (a := at1 xbase j) (v := (b + o)%R : N) in QQ; [|unfold at1; geo|unfold at1; intros; geo].
    apply wp_bind, wp_assign_sub, wp_ld. rewrite !upd_other by (unfold at1; geo). rewrite H4'. intros v2 [= <-].
    apply wp_ld. rewrite !upd_other by (unfold at1; geo). rewrite H2'. intros o0 [= <-].
    apply KP with (a := at1 sl j) (v := (lo j - b - o)%R : N) in QQ; [|unfold at1; geo|unfold at1; intros; geo].
    apply wp_bind, wp_assign_sub, wp_ld. rewrite !upd_other by (unfold at1; geo). rewrite H5'. intros v2 [= <-].
    apply wp_ld. rewrite !upd_other by (unfold at1; geo). rewrite H2'. intros o0 [= <-].
    apply KP with (a := at1 su j) (v := (hi j - b - o)%R : N) in QQ; [|unfold at1; geo|unfold at1; intros; geo].
    apply wp_bind, wp_assign, wp_ret.
    apply KP with (a := at1 xopt j) (v := 0%R : N) in QQ; [|unfold at1; geo|unfold at1; intros; geo].
    match goal with |- wp _ ?t4 _ => set (t4' := t4) in * end.
    assert (PP : pts e kopt (fun i => if i <? j + 1 then id else z_) u l t4').
    { destruct QQ as (X1 & X2 & X3 & X4). split; [exact X1|]. split; [exact X2|]. split; [exact X3|].
      intros i Hi. destruct (Z.eq_dec i j) as [->|Ne].
      - destruct (Z.ltb_spec j (j + 1)); [|lia]. unfold t4'. apply (ptat_base e kopt t _ j b o); auto.
        + rewrite !upd_other by (unfold at1; geo). rewrite upd_same. reflexivity.
        + rewrite upd_same. reflexivity.
        + rewrite !upd_other by (unfold at1; geo). reflexivity.
        + rewrite !upd_other by (unfold at1; geo). rewrite upd_same. reflexivity.
        + rewrite upd_other by (unfold at1; geo). rewrite upd_same. reflexivity.
        + exists b, o. auto 10.
      - replace (i <? j + 1) with (i <? j) by (destruct (Z.ltb_spec i j); destruct (Z.ltb_spec i (j + 1)); lia). auto. }
    clearbody t4'. clear QQ KP P.
    eapply wp_safe with (P := T); [sf; sf|apply PP|]. intros uu' t5 _ G5 F5.
    exact (pts_same _ _ _ _ _ _ _ Hk G5 (samen_same _ _ (frame_samen _ _ F5)) PP). }
  intros uu t Pt. destruct uu. apply K. apply pts_r with (2 := Pt). intros i o Hi. destruct (Z.ltb_spec i (n + 1)); [reflexivity|lia].
Qed.

(** *** The choice of the points which are kept: the best one is *)
Definition idz (k : Z) (s : mst) : Prop := mm s (at1 ids k) = Some (0%R : N).
Lemma idz_upd a v k s : at1 ids k <> a -> idz k s -> idz k (upd s a v).
Proof. intros H1 H2. unfold idz. rewrite upd_other; auto. Qed.
Lemma idz_sam3 k s s' : 1 <= k <= npt -> sam3 s s' -> idz k s -> idz k s'.
Proof. intros Hk [_ S] H. unfold idz. rewrite S; auto. Qed.

Lemma wp_res_kold beta kold s (Q : N * N * Z -> mst -> Prop) : good s -> 0 <= kold <= npt ->
  (forall (denom vlmxsq : R) kold' s', good s' -> sam3 s s' -> (0 <= vlmxsq)%R -> 0 <= kold' <= npt ->
     ((0 < denom)%R -> 1 <= kold' <= npt /\ ~ idz kold' s') -> Q (denom : N, vlmxsq : N, kold') s') ->
  wp (res_kold n npt zmat vlag ids beta kold) s Q.
Proof.
  intros G Hk K. unfold res_kold. cbv zeta. arr3. unfold LOOP at 1.
  apply (wp_loopJ (fun k (r : N * N * Z) t => good t /\ sam3 s t /\ (0 <= (snd (fst r) : R))%R /\ (0 <= (fst (fst r) : R))%R /\ 0 <= snd r <= npt /\
    ((0 < (fst (fst r) : R))%R -> 1 <= snd r <= npt /\ ~ idz (snd r) t))); [lia| | |].
  { split; [exact G|]. split; [split; [split; auto|auto]|]. cbn [fst snd]. change (zero (N := N)) with (0%R : N).
    split; [apply Rle_refl|]. split; [apply Rle_refl|]. split; [exact Hk|]. intros L. destruct (Rlt_irrefl _ L). }
  2:{ intros [[denom vlm] kd] t (T1 & T2 & T3 & T4 & T5 & T6). cbn [fst snd] in *. apply K; auto. }
  intros k [[denom vlm] kd] t Hkk (T1 & T2 & T3 & T4 & T5 & T6). cbn [fst snd] in *.
  assert (FIN : forall (denom : R) kd t, good t -> sam3 s t -> (0 <= denom)%R -> 0 <= kd <= npt -> ((0 < denom)%R -> 1 <= kd <= npt /\ ~ idz kd t) ->
    wp (bind (emax (ret vlm) (lift2 nmul (ld (at1 vlag k)) (ld (at1 vlag k)))) (fun m => ret (denom : N, m, kd))) t
      (fun (r : N * N * Z) t => good t /\ sam3 s t /\ (0 <= (snd (fst r) : R))%R /\ (0 <= (fst (fst r) : R))%R /\ 0 <= snd r <= npt /\
       ((0 < (fst (fst r) : R))%R -> 1 <= snd r <= npt /\ ~ idz (snd r) t))).
  { intros dn k1 t1 U1 U2 U3 U4 U5. apply wp_bind, wp_lift2, wp_ret, wp_lift2, wp_ld. intros a Ea. apply wp_ld. intros a' Ea'.
    rewrite Ea in Ea'. injection Ea' as <-. apply wp_ret. cbn [fst snd]. repeat (split; [assumption|]). split; [|auto].
    apply bmax_nonneg. cbn [nmul NumR]. apply Rle_0_sqr. }
  apply wp_bind. apply wp_ifp, wp_lift2, wp_ld. intros z Ez. apply wp_ret. cbn [neq NumR].
  destruct (Req_bool_spec (z : R) (zero (N := N) : R)) as [E|E]; [apply wp_ret, FIN; auto|].
  eapply wp_q3T; [sf|exact T1|]. intros hd t1 G1 S1. eapply wp_q3T; [sf|exact G1|]. intros den t2 G2 S2.
  assert (S12 := sam3_trans _ _ _ S1 S2). assert (S02 := sam3_trans _ _ _ T2 S12).
  assert (IZ : forall j, 1 <= j <= npt -> idz j t2 -> idz j t) by (intros j Hj; unfold idz; rewrite (proj2 S12 j Hj); auto).
  cbn [nlt NumR]. destruct (Rlt_bool_spec (denom : R) (den : R)) as [L|L].
  - apply wp_ret. apply FIN; auto; [exact (Rle_trans _ _ _ T4 (Rlt_le _ _ L))|lia|]. intros _. split; [lia|]. intros I0. apply IZ in I0; [|lia].
    unfold idz in I0. rewrite Ez in I0. injection I0 as I0. apply E. exact I0.
  - apply wp_ret. apply FIN; auto. intros L0. destruct (T6 L0) as [Y1 Y2]. split; [exact Y1|]. intros I0. apply Y2, IZ; auto.
Qed.

Definition rmach (e : list N * N) (kopt : Z) (u : R) (ll : list (list N * N)) (l : rlabel * rvars (N := N)) (s : mst) : Prop :=
  pts e kopt (fun _ => id) u ll s /\ 0 <= r_kold (snd l) <= npt /\ 0 <= r_knew (snd l) <= npt /\
  match fst l with
  | R80 => r_knew (snd l) = kopt \/ r_kold (snd l) <> kopt /\ idz kopt s
  | R120 => idz kopt s
  end.
Definition rexit (e : list N * N) (kopt : Z) (u : R) (ll : list (list N * N)) (b : bool) (s : mst) : Prop :=
  pts e kopt (fun _ => id) u ll s /\ idz kopt s.
Definition rpost e kopt u ll (r : rlabel * rvars (N := N) + bool) (s : mst) : Prop :=
  match r with inl l => rmach e kopt u ll l s | inr b => rexit e kopt u ll b s end.

Lemma pts_sam3 e kopt r u l s s' : 1 <= kopt <= npt -> good s' -> sam3 s s' -> pts e kopt r u l s -> pts e kopt r u l s'.
Proof. intros Hk G [S _]. apply pts_same; auto. apply samen_same, S. Qed.
Lemma pts_updw e kopt r u l s a v : 1 <= kopt <= npt -> xalt <= a < wend -> pts e kopt r u l s -> pts e kopt r u l (upd s a v).
Proof.
  intros Hk Ha P. apply (pts_same _ _ _ _ _ s); auto; [apply good_w; [geo|apply P]|]. apply samen_same, upd_samen. unfold keptn. lia.
Qed.

Lemma wp_res_80 e kopt u ll v s : 1 <= kopt <= npt -> rmach e kopt u ll (R80, v) s ->
  wp (res_80 n npt bmat zmat ndim vlag ids vv kopt v) s (rpost e kopt u ll).
Proof.
  intros Hk (P & A1 & A2 & A3). destruct v as [beta denom kold knew nrem]. cbn [fst snd r_kold r_knew] in *. unfold res_80. cbv zeta. arr3.
  eapply wp_q3T; [sf|apply P|]. intros _ s1 G1 S1. eapply wp_q3T; [sf|exact G1|]. intros _ s2 G2 S2.
  assert (S := sam3_trans _ _ _ S1 S2). assert (P2 := pts_sam3 _ _ _ _ _ _ _ Hk G2 S P).
  assert (A3' : knew = kopt \/ kold <> kopt /\ idz kopt s2) by (destruct A3 as [A3|[A3 A4]]; [auto|right; split; [exact A3|exact (idz_sam3 _ _ _ Hk S A4)]]).
  clear S S1 S2 G1 s1 P A3 s. apply wp_bind, wp_assign, wp_ld. intros z Ez. apply wp_bind, wp_assign, wp_ret.
  set (s3 := upd _ _ _).
  assert (P3 : pts e kopt (fun _ => id) u ll s3) by (unfold s3; apply pts_updw; [exact Hk|unfold at1; geo|]; apply pts_updw; [exact Hk|unfold at1; geo|exact P2]).
  assert (I3 : idz kopt s3).
  { unfold s3. destruct (Z.eq_dec knew kopt) as [->|Ne]; [unfold idz; rewrite upd_same; reflexivity|].
    destruct A3' as [A3'|[A3' A4']]; [contradiction|]. apply idz_upd; [intros E; apply at1_inj in E; congruence|].
    apply idz_upd; [intros E; apply at1_inj in E; congruence|exact A4']. }
  clearbody s3. clear s2 G2 P2 A3' Ez z.
  eapply wp_q3T; [sf|apply P3|]. intros _ s4 G4 S4.
  assert (FIN : forall t, good t -> sam3 s3 t -> rmach e kopt u ll (R120, mkrv beta denom kold knew (nrem - 1)) t).
  { intros t Gt St. split; [exact (pts_sam3 _ _ _ _ _ _ _ Hk Gt St P3)|]. cbn [fst snd r_kold r_knew]. repeat (split; [assumption|]).
    exact (idz_sam3 _ _ _ Hk St I3). }
  destruct (Z.eqb_spec knew kopt); [apply wp_ret; apply FIN; auto|].
  eapply wp_q3T; [sf|exact G4|]. intros t1 s5 G5 S5. eapply wp_q3T; [sf|exact G5|]. intros _ s6 G6 S6.
  eapply wp_q3T; [sf|exact G6|]. intros _ s7 G7 S7.
  eapply wp_q3T; [apply update_safe; auto; try lia; intros i Hi; [apply Hvv|apply Rvv]; lia|exact G7|]. intros _ s8 G8 S8.
  assert (SS := sam3_trans _ _ _ (sam3_trans _ _ _ (sam3_trans _ _ _ (sam3_trans _ _ _ S4 S5) S6) S7) S8).
  destruct (nrem - 1 =? 0).
  - apply wp_ret. destruct (FIN _ G8 SS) as (F1 & F2 & F3 & F4). split; assumption.
  - eapply wp_q3T; [sf|exact G8|]. intros _ s9 G9 S9. apply wp_ret. apply FIN; [exact G9|]. exact (sam3_trans _ _ _ SS S9).
Qed.

Lemma wp_res_120 e kopt u ll winc v s : 1 <= kopt <= npt -> rmach e kopt u ll (R120, v) s ->
  wp (res_120 n npt xpt bmat zmat ndim vlag w ids vv kopt winc v) s (rpost e kopt u ll).
Proof.
  intros Hk (P & A1 & A2 & A3). destruct v as [beta denom kold knew nrem]. cbn [fst snd r_kold r_knew] in *. unfold res_120. cbv zeta. arr3.
  eapply wp_q3; [apply (res_pick_safe W3 Rd C n npt ndim Hn Hnpt Hndim vv Rvv knew A2)|apply P|]. intros [dsqmin knew1] s1 Hk1 G1 S1. cbn [fst snd] in Hk1.
  assert (FIN : forall t, good t -> sam3 s t -> pts e kopt (fun _ => id) u ll t /\ idz kopt t).
  { intros t Gt St. split; [exact (pts_sam3 _ _ _ _ _ _ _ Hk Gt St P)|exact (idz_sam3 _ _ _ Hk St A3)]. }
  destruct (neq dsqmin zero); [apply wp_ret; exact (FIN _ G1 S1)|].
  eapply wp_q3T; [apply res_wvec_safe with (ndim := ndim); auto|exact G1|]. intros _ s2 G2 S2.
  eapply wp_q3T; [apply res_vlag_safe; auto; lia|exact G2|]. intros beta1 s3 G3 S3.
  assert (S03 := sam3_trans _ _ _ (sam3_trans _ _ _ S1 S2) S3). clear S1 S2 S3 G1 G2 s1 s2.
  apply wp_bind. apply wp_res_kold; [exact G3|exact A1|]. intros den vlm kold1 s4 G4 S4 V0 Hk2 Hko.
  assert (S04 := sam3_trans _ _ _ S03 S4). clear S03 S4.
  cbn [nle NumR]. destruct (Rle_bool_spec den (nmul (vlm : N) (nQ 1 100 : N))) as [L|L].
  - eapply wp_q3T; [sf|exact G4|]. intros _ s5 G5 S5. assert (S05 := sam3_trans _ _ _ S04 S5). destruct (FIN _ G5 S05) as [F1 F2].
    apply wp_ret. split; [exact F1|]. cbn [fst snd r_kold r_knew]. auto.
  - destruct (FIN _ G4 S04) as [F1 F2]. apply wp_ret. split; [exact F1|]. cbn [fst snd r_kold r_knew]. split; [exact Hk2|]. split; [exact Hk1|].
    right. split; [|exact F2]. intros ->. destruct Hko as [_ Hko]; [|exact (Hko F2)].
    eapply Rle_lt_trans; [|exact L]. cbn [nmul nQ NumR]. apply Rmult_le_pos; [exact V0|]. lra.
Qed.

(** *** The new points *)
Section Eval.
Variables (kbase nf0 : Z) (l0 : list (list N * N)).
Definition pt0 (e : list N * N) (kopt : Z) (s : mst) (i : Z) : Prop := exists b o : R,
  mm s (at1 xbase i) = Some (b : N) /\ mm s (at2 xpt npt kopt i) = Some (o : N) /\
  mm s (at1 sl i) = Some ((lo i - b)%R : N) /\ mm s (at1 su i) = Some ((hi i - b)%R : N) /\
  nth_error (fst e) (Z.to_nat (i - 1)) = Some (img i (clampR (b + o)%R i)) /\ (kopt = kbase -> mm s (at1 xopt i) = Some (o : N)).
Definition best0 (kopt : Z) (s : mst) : Prop :=
  exists e, least e (evs s) /\ mm s (at1 fval kopt) = Some (val e : N) /\ forall i, 1 <= i <= n -> pt0 e kopt s i.
Definition rbest (nf kopt : Z) (s : mst) : Prop :=
  good s /\ 1 <= kopt <= npt /\ best0 kopt s /\ (forall e, In e l0 -> In e (evs s)) /\
  (kopt = kbase \/ nf0 < nf) /\ nf0 <= nf.
Definition einv (nf kopt : Z) (s : mst) : Prop := rbest nf kopt s /\ idz kopt s /\ idz kbase s.

(** The row [kpt] of XPT is modified *)
Definition WX (kpt : Z) (a : Z) : Prop := W3 a \/ exists j, 1 <= j <= n /\ a = at2 xpt npt kpt j.
Definition samx (kpt : Z) (s s' : mst) : Prop := evs s' = evs s /\
  (forall a, keptn a -> (forall j, 1 <= j <= n -> a <> at2 xpt npt kpt j) -> mm s' a = mm s a) /\
  forall k, 1 <= k <= npt -> mm s' (at1 ids k) = mm s (at1 ids k).
Lemma frame_samx kpt s s' : 1 <= kpt <= npt -> frame (WX kpt) s s' -> samx kpt s s'.
Proof.
  intros Hk [A B]. split; [exact B|]. split.
  - intros a Ha Na. apply A. intros [[Wa _]|(j & Hj & E)]; [|exact (Na j Hj E)]. unfold W, keptn in *. lia.
  - intros k Hkk. apply A. intros [[_ Wa]|(j & Hj & E)]; [apply Wa; unfold at1; lia|].
    assert (KR := at2_range xpt npt n kpt j Hk Hj). unfold at1 in E. geo.
Qed.
Lemma samx_trans kpt s1 s2 s3 : samx kpt s1 s2 -> sam3 s2 s3 -> samx kpt s1 s3.
Proof.
  intros (A & B & D) [[A' B'] D']. split; [congruence|]. split; [intros a Ha Na; rewrite A', B; auto|]. intros k Hk. rewrite D', D; auto.
Qed.

Lemma res_newpt_safex kpt xp xq : 1 <= kpt <= npt ->
  safe (WX kpt) Rd C (res_newpt n npt xpt hq pq w ids vv kpt xp xq) (fun r => 0 <= fst (fst (fst r)) <= n /\ 0 <= snd (fst (fst r)) <= n).
Proof.
  intros Hk. unfold res_newpt. cbv zeta.
  assert (X1 : forall a, WX kpt a -> Rd a).
  { intros a [Ha|(j & Hj & ->)]; [apply W3Rd, Ha|]. apply Rxpt; lia. }
  assert (X2 : forall a v, C a = Some v -> ~ WX kpt a).
  { intros a v E [Ha|(j & Hj & ->)]; [exact (CW3 a v E Ha)|]. assert (KR := at2_range xpt npt n kpt j Hk Hj). rewrite HC in E by geo. discriminate. }
  assert (X3 : mat (WX kpt) xpt npt kpt kpt 1 n) by (intros i j Hi Hj; right; exists j; split; [exact Hj|replace i with kpt by lia; reflexivity]).
  assert (X4 : arr (WX kpt) hq 0 (n * (n + 1) / 2)) by (intros i Hi; left; apply Hhq3, Hi).
  assert (X5 : arr (WX kpt) pq 0 npt) by (intros i Hi; left; apply Hpq3, Hi).
  assert (X6 : mat (WX kpt) w 2 1 1 1 n) by (intros i j Hi Hj; left; apply Haux1; auto).
  assert (X7 : mat (WX kpt) w 2 2 2 0 n) by (intros i j Hi Hj; left; apply Haux2; auto).
  assert (X8 : arr (WX kpt) vv 1 (ndim + npt)) by (intros i Hi; left; apply Hvv, Hi).
  pose proof Rvv; pose proof Rids; pose proof Rxpt; pose proof Rpq; pose proof Rhq.
  apply safe_bindT.
  { apply (safe_weak (WX kpt) Rd C _ (fun ih => 2 * ih = (n + 1) * (n + 1 - 1))); [|auto].
    unfold LOOP at 1. apply (safe_loopJ (WX kpt) Rd C (fun j ih => 2 * ih = j * (j - 1))); [lia| |lia].
    intros j ih Hj E. do 4 (apply safe_bindT; [sf|intro]).
    apply (safe_weak (WX kpt) Rd C _ (fun ih => 2 * ih = j * (j - 1) + 2 * (j + 1 - 1))); [|intros; lia].
    unfold LOOP. apply (safe_loopJ (WX kpt) Rd C (fun i ih => 2 * ih = j * (j - 1) + 2 * (i - 1))); [lia| |lia].
    intros i ih' Hi E'. assert (K := tri_range n j i ih' Hi (proj2 Hj) E'). sf. lia. }
  intros _. apply safe_bindT; [sf|]. intros _.
  eapply safe_bind; [apply (res_ip_safe (WX kpt) Rd C n npt Hn ids Rids); lia|]. intros ip Hip; cbv beta in Hip.
  eapply safe_bind; [apply (res_iq_safe (WX kpt) Rd C n npt Hn ids Rids); lia|]. intros iq Hiq; cbv beta in Hiq.
  apply safe_bindT; [sf|]. intros xp1.
  apply safe_bindT; [destruct (ip =? 0); sf|]. intros xq1.
  sf. cbn [fst snd]. lia.
Qed.

(** The variables of the new point *)
Lemma wp_res_x kpt s (Q : unit -> mst -> Prop) : 1 <= kpt <= npt -> good s ->
  (forall i, 1 <= i <= n -> exists b : R, mm s (at1 xbase i) = Some (b : N) /\
     mm s (at1 sl i) = Some ((lo i - b)%R : N) /\ mm s (at1 su i) = Some ((hi i - b)%R : N)) ->
  (forall s', good s' -> sam3 s s' -> (forall i, 1 <= i <= n -> exists b v : R, mm s (at1 xbase i) = Some (b : N) /\
     mm s (at2 xpt npt kpt i) = Some (v : N) /\ mm s' (at1 vv i) = Some (clampR (b + v)%R i : N)) -> Q tt s') ->
  wp (res_x n npt xl xu xbase xpt sl su vv kpt) s Q.
Proof.
  intros Hk Gs Hv K. unfold res_x. cbv zeta. unfold LOOP_.
  apply (wp_loopJ (fun i (_ : unit) t => good t /\ sam3 s t /\ forall j, 1 <= j < i -> exists b v : R, mm s (at1 xbase j) = Some (b : N) /\
     mm s (at2 xpt npt kpt j) = Some (v : N) /\ mm t (at1 vv j) = Some (clampR (b + v)%R j : N))); [lia| | |].
  - split; [exact Gs|]. split; [split; [split; auto|auto]|]. intros j Hj. lia.
  - intros i u s1 Hi (G1 & S1 & D1). destruct (Hv i Hi) as (b & Eb & Es & Eu).
    apply wp_bind, wp_ld. intros v Ev1.
    assert (F1 := proj1 (proj1 S1)).
    assert (Eb1 : mm s1 (at1 xbase i) = Some (b : N)) by (rewrite F1 by auto with kept; exact Eb).
    assert (Ev : mm s (at2 xpt npt kpt i) = Some v) by (rewrite <- F1 by auto with kept; exact Ev1).
    assert (Es1 : mm s1 (at1 sl i) = Some ((lo i - b)%R : N)) by (rewrite F1 by auto with kept; exact Es).
    assert (Eu1 : mm s1 (at1 su i) = Some ((hi i - b)%R : N)) by (rewrite F1 by auto with kept; exact Eu).
    assert (Elo := proj2 G1 _ _ (Hxl i Hi)). assert (Ehi := proj2 G1 _ _ (Hxu i Hi)).
    apply wp_assign. eapply wp_weak with (P := fun c s2 => s2 = s1 /\ c = clampR (b + v)%R i).
    { apply wp_ifp, wp_lift2, wp_ret, wp_ld. rewrite Eu1. intros u1 [= <-]. cbn [neq NumR].
      destruct (Req_bool_spec (v : R) (hi i - b)%R) as [E|E].
      - apply wp_ld. rewrite Ehi. intros h [= <-]. split; [reflexivity|]. apply clamp_cases; auto; tauto.
      - apply wp_ifp, wp_lift2, wp_ret, wp_ld. rewrite Es1. intros u1 [= <-]. cbn [neq NumR].
        destruct (Req_bool_spec (v : R) (lo i - b)%R) as [E'|E'].
        + apply wp_ld. rewrite Elo. intros h [= <-]. split; [reflexivity|]. apply clamp_cases; auto; tauto.
        + unfold eclamp. apply wp_bind, wp_lift2, wp_ld. rewrite Eb1. intros b1 [= <-]. apply wp_ld. rewrite Ev1. intros v2 [= <-].
          apply wp_bind, wp_ld. rewrite Elo. intros l1 [= <-]. apply wp_bind, wp_ld. rewrite Ehi. intros h1 [= <-].
          apply wp_ret. split; reflexivity. }
    intros c s2 [-> ->]. split; [apply good_w; [unfold at1; geo|exact G1]|]. split.
    + apply (sam3_trans _ s1); [exact S1|]. split; [apply upd_samen; unfold keptn, at1; geo|]. intros k Hkk. apply upd_other. unfold at1. geo.
    + intros j Hj. destruct (Z.eq_dec j i) as [->|Ne].
      * exists b, v. split; [exact Eb|]. split; [exact Ev|]. apply upd_same.
      * destruct (D1 j ltac:(lia)) as (b' & v' & X1 & X2 & X3). exists b', v'. split; [exact X1|]. split; [exact X2|].
        rewrite upd_other; [exact X3|]. intros E. apply at1_inj in E. contradiction.
  - intros u s1 (G1 & S1 & D1). destruct u. apply K; auto. intros i Hi. apply D1. lia.
Qed.

Lemma pt0_cells e kopt s s' i : (mm s' (at1 xbase i) = mm s (at1 xbase i)) -> mm s' (at2 xpt npt kopt i) = mm s (at2 xpt npt kopt i) ->
  mm s' (at1 sl i) = mm s (at1 sl i) -> mm s' (at1 su i) = mm s (at1 su i) -> mm s' (at1 xopt i) = mm s (at1 xopt i) ->
  pt0 e kopt s i -> pt0 e kopt s' i.
Proof. intros E1 E2 E3 E4 E5 (b & o & H). exists b, o. rewrite E1, E2, E3, E4, E5. exact H. Qed.

Lemma einv_sam3 nf kopt s s' : 1 <= kbase <= npt -> good s' -> sam3 s s' -> einv nf kopt s -> einv nf kopt s'.
Proof.
  intros Hb G S ((G0 & Hk & B & M & F) & I1 & I2). split; [|split; [exact (idz_sam3 _ _ _ Hk S I1)|exact (idz_sam3 _ _ _ Hb S I2)]].
  destruct S as [[S1 S2] _]. split; [exact G|]. split; [exact Hk|]. split; [|split; [rewrite S2; exact M|exact F]].
  destruct B as (e & L & E & P). exists e. rewrite S2. split; [exact L|]. split; [rewrite S1 by auto with kept; exact E|].
  intros i Hi. apply (pt0_cells e kopt s); auto with kept.
Qed.

Lemma wp_res_eval fbase kpt nf kopt (xp xq : N) s : 1 <= kbase <= npt -> 1 <= kpt <= npt -> einv nf kopt s ->
  wp (res_eval n npt ctx xl xu maxfun xbase xpt fval gopt hq pq bmat zmat ndim sl su w ids vv fbase kpt (nf, kopt, xp, xq)) s
    (fun r t => match r with
     | inl (nf, kopt, _, _) => einv nf kopt t
     | inr kopt => exists nf, einv nf kopt t
     end).
Proof.
  intros Hb Hkp I. unfold res_eval. cbv zeta. arr3. apply wp_ifp, wp_lift2, wp_ld. intros z Ez. apply wp_ret. cbn [neq NumR].
  destruct (Req_bool_spec (z : R) (zero (N := N) : R)) as [E|E]; [apply wp_ret; exact I|].
  assert (NZ : ~ idz kpt s) by (unfold idz; rewrite Ez; intros [= E1]; exact (E E1)). clear E z Ez.
  destruct (maxfun <=? nf); [apply wp_ret; exists nf; exact I|].
  destruct I as ((G0 & Hk & (e & L & Ef & P) & M & F) & I1 & I2).
  assert (N1 : kpt <> kopt) by (intros ->; exact (NZ I1)). assert (N2 : kpt <> kbase) by (intros ->; exact (NZ I2)). clear NZ.
  apply wp_bind. eapply wp_safe; [apply (res_newpt_safex kpt xp xq Hkp)|exact G0|].
  intros [[[ip iq] xp1] xq1] s1 [Hip Hiq] G1 F1. cbn [fst snd] in Hip, Hiq. apply frame_samx in F1; [|exact Hkp].
  eapply wp_q3T; [apply res_vquad_safe with (n := n); auto|exact G1|]. intros vquad s2 G2 S2.
  assert (X2 := samx_trans _ _ _ _ F1 S2). clear F1 S2 G1 s1. destruct X2 as (X1 & X2 & X3).
  assert (CE : forall a, keptn a -> ~ (xpt <= a < fval) -> mm s2 a = mm s a).
  { intros a Ha Na. apply X2; [exact Ha|]. intros j Hj ->. assert (KR := at2_range xpt npt n kpt j Hkp Hj). geo. }
  assert (P2 : forall i, 1 <= i <= n -> pt0 e kopt s2 i).
  { intros i Hi. apply (pt0_cells e kopt s); auto; try (apply CE; [auto with kept|unfold at1; geo]).
    apply X2; [auto with kept|]. intros j Hj. apply xpt_ne; auto. }
  assert (E2 : mm s2 (at1 fval kopt) = Some (val e : N)) by (rewrite CE; [exact Ef|auto with kept|unfold at1; geo]).
  assert (J1 : idz kopt s2) by (unfold idz; rewrite X3; auto). assert (J2 : idz kbase s2) by (unfold idz; rewrite X3; auto).
  rewrite <- X1 in L, M. clear X1 X2 X3 CE P Ef I1 I2 G0. clear s. rename s2 into s.
  apply wp_bind, wp_res_x; [exact Hkp|exact G2| |].
  { intros i Hi. destruct (P2 i Hi) as (b & o & H1' & H2' & H3' & H4' & _). exists b. auto. }
  intros s1 G1 S1 V. assert (K1 := proj1 (proj1 S1)). assert (T1 := proj2 (proj1 S1)).
  apply wp_bind. assert (NW : forall a, xbase <= a < wend -> ~ wsc a) by (intros a Ha Q; destruct (wsc_out _ Q) as [Q' _]; exact (Q' Ha)).
  set (X := fun i => match mm s1 (at1 vv i) with Some u => u : R | None => 0%R end).
  apply (wp_call vv X); [exact G1| | |].
  { intros i Hi. destruct (V i Hi) as (b & v & _ & _ & E). unfold X. rewrite E. reflexivity. }
  { intros i Hi. apply NW. unfold at1. geo. }
  intros s2 e0 G3 He0 Ee K2.
  assert (K : forall a, keptn a -> xbase <= a < wend -> mm s2 a = mm s a) by (intros a A1 A2; rewrite K2 by (apply NW; exact A2); apply K1, A1).
  assert (U1 : idz kopt s2) by (unfold idz; rewrite K2 by (apply NW; unfold at1; geo); rewrite (proj2 S1) by exact Hk; exact J1).
  assert (U2 : idz kbase s2) by (unfold idz; rewrite K2 by (apply NW; unfold at1; geo); rewrite (proj2 S1) by exact Hb; exact J2).
  rewrite T1 in Ee.
  assert (P3 : forall i, 1 <= i <= n -> pt0 e kopt s2 i).
  { intros i Hi. assert (KR := at2_range xpt npt n kopt i Hk Hi). apply (pt0_cells e kopt s); auto; apply K; auto with kept; unfold at1; geo. }
  assert (P4 : forall i, 1 <= i <= n -> pt0 e0 kpt s2 i).
  { intros i Hi. assert (KR := at2_range xpt npt n kpt i Hkp Hi). destruct (V i Hi) as (b & v & V1 & V2 & V3). destruct (P2 i Hi) as (b' & o & H1' & H2' & H3' & H4' & _).
    rewrite V1 in H1'. injection H1' as <-. exists b, v. rewrite !K by (auto with kept; unfold at1; geo). repeat (split; [assumption|]).
    split; [|contradiction]. rewrite He0 by exact Hi. unfold X. rewrite V3. reflexivity. }
  assert (E3 : mm s2 (at1 fval kopt) = Some (val e : N)) by (rewrite K by (auto with kept; unfold at1; geo); exact E2).
  clear K K1 K2 He0 V NW S1 T1 P2 E2 J1 J2 G1 G2. clear X s1.
  apply wp_bind, wp_assign, wp_ret. set (s3 := upd _ _ _).
  assert (G4 : good s3) by (apply good_w; [unfold at1; geo|exact G3]).
  assert (K3 : forall a, a <> at1 fval kpt -> mm s3 a = mm s2 a) by (intros a Ha; apply upd_other, Ha).
  assert (E4 : mm s3 (at1 fval kopt) = Some (val e : N)) by (rewrite K3; [exact E3|intros Q; apply at1_inj in Q; congruence]).
  assert (E5 : mm s3 (at1 fval kpt) = Some (val e0 : N)) by apply upd_same.
  assert (P5 : forall i, 1 <= i <= n -> pt0 e kopt s3 i).
  { intros i Hi. assert (KR := at2_range xpt npt n kopt i Hk Hi). apply (pt0_cells e kopt s2); auto; apply K3; unfold at1; geo. }
  assert (P6 : forall i, 1 <= i <= n -> pt0 e0 kpt s3 i).
  { intros i Hi. assert (KR := at2_range xpt npt n kpt i Hkp Hi). apply (pt0_cells e0 kpt s2); auto; apply K3; unfold at1; geo. }
  assert (U3 : idz kopt s3) by (unfold idz; rewrite K3 by (unfold at1; geo); exact U1).
  assert (U4 : idz kbase s3) by (unfold idz; rewrite K3 by (unfold at1; geo); exact U2).
  assert (Ev : evs s3 = e0 :: evs s) by exact Ee. clearbody s3. clear U1 U2 P3 P4 E3 K3 G3 Ee. clear s2.
  assert (FIN : forall k1, 1 <= k1 <= npt -> best0 k1 s3 -> k1 = kpt \/ k1 = kopt ->
    wp (bind (lift2 nsub (ret (val e0 : N)) (ret vquad)) (fun diff => bind (res_model n npt gopt hq pq bmat zmat ndim w ids kpt diff)
      (fun _ => bind (assign (at1 ids kpt) (ret zero)) (fun _ => ret (inl (nf + 1, k1, xp1, xq1)))))) s3
    (fun (r : Z * Z * N * N + Z) t => match r with
     | inl (nf, kopt, _, _) => einv nf kopt t
     | inr kopt => exists nf, einv nf kopt t
     end)).
  { intros k1 Hk1 B Ck. apply wp_bind, wp_lift2, wp_ret, wp_ret.
    eapply wp_q3T; [apply res_model_safe; auto|exact G4|]. intros _ t Gt St.
    apply wp_bind, wp_assign, wp_ret, wp_ret.
    assert (EX : rbest (nf + 1) k1 t).
    { destruct St as [[S1 S2] _]. split; [exact Gt|]. split; [exact Hk1|]. split; [|split; [rewrite S2, Ev; right; auto|lia]].
      destruct B as (e1 & B1 & B2 & B3). exists e1. rewrite S2. split; [exact B1|]. split; [rewrite S1 by auto with kept; exact B2|].
      intros i Hi. apply (pt0_cells e1 k1 s3); auto with kept. }
    split.
    - destruct EX as (Y1 & Y2 & Y3 & Y4). split; [apply good_w; [unfold at1; geo|exact Gt]|]. split; [exact Y2|]. split; [|exact Y4].
      destruct Y3 as (e1 & B1 & B2 & B3). exists e1. split; [exact B1|]. split; [rewrite upd_other; [exact B2|unfold at1; geo]|].
      intros i Hi. assert (KR := at2_range xpt npt n k1 i Hk1 Hi). apply (pt0_cells e1 k1 t); auto; apply upd_other; unfold at1; geo.
    - split; [|apply idz_upd; [intros Q; apply at1_inj in Q; congruence|exact (idz_sam3 _ _ _ Hb St U4)]].
      destruct (Z.eq_dec k1 kpt) as [->|Ne]; [unfold idz; rewrite upd_same; reflexivity|].
      destruct Ck as [Ck| ->]; [contradiction|]. apply idz_upd; [intros Q; apply at1_inj in Q; congruence|exact (idz_sam3 _ _ _ Hk St U3)]. }
  apply wp_bind, wp_ifp, wp_lift2, wp_ret, wp_ld. rewrite E4. intros f1 [= <-]. cbn [nlt NumR].
  destruct (Rlt_bool_spec (val e0 : R) (val e : R)) as [Q|Q]; apply wp_ret; apply FIN; auto.
  - exists e0. rewrite Ev. split; [apply least_new with e; [exact L|exact Q]|]. split; [exact E5|exact P6].
  - exists e. rewrite Ev. split; [apply least_old; [exact L|exact Q]|]. split; [exact E4|exact P5].
Qed.
End Eval.

Lemma wp_rescue fuel delta nf kopt s (Q : Z * Z -> mst -> Prop) : inv kopt s ->
  (forall nf1 kopt1 t, (nf1 < 0 /\ exists nf2, rbest kopt nf (evs s) nf2 kopt1 t) \/ rbest kopt nf (evs s) nf1 kopt1 t -> Q (nf1, kopt1) t) ->
  wp (rescue n npt ctx xl xu maxfun xbase xpt fval xopt gopt hq pq bmat zmat ndim sl su delta vlag w ids vv fuel nf kopt) s Q.
Proof.
  intros (G & Hk & e & Le & Ef & P) K. unfold rescue. cbv zeta.
  assert (PP : pts e kopt (fun _ => id) (val e) (evs s) s) by (split; [exact G|]; auto).
  set (ll := evs s) in *. clearbody ll. 
  apply wp_bind. eapply wp_res_shift; [exact Hk|exact PP|]. intros winc s1 P1.
  apply wp_bind. eapply wp_res_base; [exact Hk|exact P1|]. intros s2 P2.
  apply wp_bind, wp_ld. intros fbase _.
  arrs. assert (HA1 := w3_mat _ _ _ _ _ _ Haux1). assert (HA2 := w3_mat _ _ _ _ _ _ Haux2). assert (HI := Hids).
  eapply wp_qnT; [apply res_ids_safe with (ctx := ctx); auto; apply (cast_ok_R HH II n npt Hn)|apply P2|]. intros _ s3 G3 S3.
  assert (P3 := pts_same _ _ _ _ _ _ _ Hk G3 (samen_same _ _ S3) P2). clear S3 P2 P1 PP.
  apply wp_bind. eapply wp_weak with (P := rexit e kopt (val e) ll); [apply (wp_machine (rmach e kopt (val e) ll))|].
  { split; [exact P3|]. cbn [fst snd r_kold r_knew]. split; [lia|]. split; [lia|]. left. reflexivity. }
  { intros [l v] t Ht. destruct l; [apply (wp_res_80 e kopt (val e) ll)|apply (wp_res_120 e kopt (val e) ll)]; assumption. }
  intros all t [Pt It].
  assert (EI : einv kopt nf ll nf kopt t).
  { split; [|split; exact It]. destruct Pt as (X1 & X2 & X3 & X4). split; [exact X1|]. split; [exact Hk|]. rewrite X2.
    split; [|split; [auto|split; [left; reflexivity|lia]]]. exists e. rewrite X2. split; [exact Le|]. split; [exact X3|].
    intros i Hi. destruct (X4 i Hi) as (b & o & Y1 & Y2 & Y3 & Y4 & Y5 & Y6). exists b, o. auto 10. }
  destruct all; [apply wp_ret, K; right; apply EI|].
  apply wp_bind. apply (wp_loopx (fun (_ : Z) (v : Z * Z * N * N) t => let '(nf1, kopt1, _, _) := v in einv kopt nf ll nf1 kopt1 t)); [lia|exact EI| |].
  - intros i [[[nf1 kopt1] xp] xq] t1 Hi Et. eapply wp_weak; [apply wp_res_eval with (kbase := kopt); [exact Hk|exact Hi|exact Et]|].
    intros [[[[nf2 kopt2] xp2] xq2]|kopt2] t2 Ht2; [exact Ht2|]. destruct Ht2 as [nf2 E2]. apply wp_ret. apply K. left. split; [lia|]. exists nf2. apply E2.
  - intros [[[nf1 kopt1] xp] xq] t1 Et. apply wp_ret, K. right. apply Et.
Qed.

Lemma wp_190 fuel v s : blab B190 v -> cinv v s ->
  wp (bq_190 n npt ctx xl xu maxfun xbase xpt fval xopt gopt hq pq bmat zmat ndim sl su vlag w fuel v) s bpost.
Proof.
  intros [Hl Hl2] [I (e1 & He1 & Ee1)]. unfold bq_190. cbv zeta. apply wp_bind. apply wp_rescue; [exact I|]. intros nf1 kopt1 t B.
  assert (KK : forall (v' : bvars) t', b_fsave v' = b_fsave v -> b_kopt v' = kopt1 ->
    (exists nf2, rbest (b_kopt v) (b_nf v) (evs s) nf2 kopt1 t) -> evs t' = evs t -> inv kopt1 t' -> cinv v' t').
  { intros v' t' E1 E2 (nf2 & _ & _ & _ & M & _) E3 I'. split; [rewrite E2; exact I'|]. exists e1. rewrite E1, E3. split; [apply M, He1|exact Ee1]. }
  assert (B' : exists nf2, rbest (b_kopt v) (b_nf v) (evs s) nf2 kopt1 t) by (destruct B as [[_ B]|B]; [exact B|exists nf1; exact B]).
  assert (FIN : forall xoptsq t', evs t' = evs t -> inv kopt1 t' ->
    wp (if nf1 <? 0 then fail BQ_TOO_MANY_EVALUATIONS (set_nf maxfun (set_nfsav (b_nf v) (set_kbase (b_kopt v) (set_nf nf1 (set_kopt kopt1 (set_xoptsq xoptsq v))))))
        else let v := set_nresc nf1 (set_nfsav (b_nf v) (set_kbase (b_kopt v) (set_nf nf1 (set_kopt kopt1 (set_xoptsq xoptsq v))))) in
          if b_nfsav v <? nf1 then goto B20 (set_nfsav nf1 v) else if 0 <? b_ntrits v then goto B60 v else goto B210 v) t' bpost).
  { intros xoptsq t' E I'. cbv zeta. destruct v as [v1 v2 v3 v4 v5 v6 v7 v8 v9 v10 v11 v12 v13 v14 v15 v16 v17 v18 itest kbase knew kopt nf nfsav nresc ntrits status].
    cbn [b_nf b_kopt b_knew b_fsave b_ntrits b_nfsav set_nf set_nfsav set_kbase set_kopt set_xoptsq set_nresc] in *.
    destruct (Z.ltb_spec nf1 0) as [L|L].
    { apply wp_fail. apply KK; auto. }
    destruct (Z.ltb_spec nf nf1) as [La|La].
    { apply wp_goto; [discriminate|exact Hl|apply KK; auto]. }
    destruct B as [[L' _]|B]; [lia|]. destruct B as (_ & _ & _ & _ & [->|B] & _); [|lia].
    destruct (Z.ltb_spec 0 ntrits) as [Lb|Lb].
    { apply wp_goto; [discriminate|exact Hl|apply KK; auto]. }
    apply wp_goto; [discriminate| |apply KK; auto]. split; [exact Hl|]. apply Hl2. cbn [b_ntrits]. lia. }
  destruct B' as (nf2 & Gt & Hk & (e & Le & Ef & P) & M & F). apply wp_bind.
  destruct (Z.eqb_spec kopt1 (b_kopt v)) as [E|Ne].
  - apply wp_ret. apply FIN; [reflexivity|]. split; [exact Gt|]. split; [exact Hk|]. exists e. split; [exact Le|]. split; [exact Ef|].
    intros i Hi. destruct (P i Hi) as (b & o & Y1 & Y2 & Y3 & Y4 & Y5 & Y6). exists b, o. auto 10.
  - eapply wp_weak with (P := fun _ t' => evs t' = evs t /\ inv kopt1 t'); [|intros xo t' [E I']; apply FIN; auto].
    unfold LOOP. apply (wp_loopJ (fun j (_ : N) t' => good t' /\ evs t' = evs t /\ (forall a, (forall i, 1 <= i <= n -> a <> at1 xopt i) -> mm t' a = mm t a) /\
      forall i, 1 <= i < j -> mm t' (at1 xopt i) = mm t (at2 xpt npt kopt1 i))); [lia| | |].
    + split; [exact Gt|]. split; [reflexivity|]. split; [auto|]. intros i Hi. lia.
    + intros j xo t' Hj (G' & E' & C' & D'). assert (KR := at2_range xpt npt n kopt1 j Hk Hj).
      apply wp_bind, wp_ld. rewrite C' by (intros i Hi; unfold at1; geo). intros o Eo. apply wp_bind, wp_assign, wp_ret.
      apply wp_lift2, wp_ret, wp_lift2, wp_ret, wp_ret. split; [apply good_w; [unfold at1; geo|exact G']|]. split; [exact E'|]. split.
      * intros a Ha. rewrite upd_other; [apply C', Ha|]. apply Ha, Hj.
      * intros i Hi. destruct (Z.eq_dec i j) as [->|N]; [rewrite upd_same; symmetry; exact Eo|].
        rewrite upd_other; [apply D'; lia|]. intros Q. apply at1_inj in Q. contradiction.
    + intros xo t' (G' & E' & C' & D'). split; [exact E'|]. split; [exact G'|]. split; [exact Hk|]. exists e. rewrite E'. split; [exact Le|].
      split; [rewrite C' by (intros i Hi; unfold at1; geo); exact Ef|].
      intros i Hi. assert (KR := at2_range xpt npt n kopt1 i Hk Hi).
      destruct (P i Hi) as (b & o & Y1 & Y2 & Y3 & Y4 & Y5 & Y6). exists b, o. rewrite D' by lia.
      rewrite !C' by (intros i' Hi'; unfold at1; geo). auto 10.
Qed.

(** ** prelim *)
Definition frm (s : mst) (i : Z) : Prop := exists b : R, mm s (at1 xbase i) = Some (b : N) /\
  mm s (at1 sl i) = Some ((lo i - b)%R : N) /\ mm s (at1 su i) = Some ((hi i - b)%R : N).
(** The rows of XPT after [m], and the zeros of the first ones *)
Definition ZS (m : Z) (s : mst) : Prop :=
  (forall k j, m < k <= npt -> 1 <= j <= n -> mm s (at2 xpt npt k j) = Some (0%R : N)) /\
  (forall k j, 2 <= k <= n + 1 -> 1 <= j <= n -> j <> k - 1 -> mm s (at2 xpt npt k j) = Some (0%R : N)).
Definition pbest (m kopt : Z) (s : mst) : Prop :=
  1 <= kopt <= m /\ best0 0 kopt s /\ exists e1, In e1 (evs s) /\ mm s (at1 fval 1) = Some (val e1 : N).
Definition PI (z m kopt : Z) (s : mst) : Prop :=
  good s /\ (forall i, 1 <= i <= n -> frm s i) /\ ZS z s /\ (m = 0 /\ evs s = nil \/ pbest m kopt s).

Lemma pbest_cells m kopt s s' : m <= npt -> (forall i, 1 <= i <= n -> mm s' (at1 xbase i) = mm s (at1 xbase i)) ->
  (forall i, 1 <= i <= n -> mm s' (at1 sl i) = mm s (at1 sl i)) -> (forall i, 1 <= i <= n -> mm s' (at1 su i) = mm s (at1 su i)) ->
  (forall k, 1 <= k <= m -> mm s' (at1 fval k) = mm s (at1 fval k)) ->
  (forall i, 1 <= i <= n -> mm s' (at2 xpt npt kopt i) = mm s (at2 xpt npt kopt i)) -> evs s' = evs s -> pbest m kopt s -> pbest m kopt s'.
Proof.
  intros Hm E1 E2 E3 E4 E5 E6 (Hk & (e & L & Ef & P) & e1 & I1 & F1). split; [exact Hk|]. split.
  - exists e. rewrite E6. split; [exact L|]. split; [rewrite E4 by exact Hk; exact Ef|]. intros i Hi.
    destruct (P i Hi) as (b & o & H1 & H2 & H3 & H4 & H5 & H6). exists b, o. rewrite E1, E2, E3, E5 by exact Hi. repeat (split; [assumption|]). intros; lia.
  - exists e1. rewrite E6, E4 by lia. auto.
Qed.
Lemma frm_cells s s' i : mm s' (at1 xbase i) = mm s (at1 xbase i) -> mm s' (at1 sl i) = mm s (at1 sl i) -> mm s' (at1 su i) = mm s (at1 su i) ->
  frm s i -> frm s' i.
Proof. intros E1 E2 E3 (b & H). exists b. rewrite E1, E2, E3. exact H. Qed.
Lemma ZS_cells m s s' : (forall k j, 1 <= k <= npt -> 1 <= j <= n -> mm s' (at2 xpt npt k j) = mm s (at2 xpt npt k j)) -> 0 <= m -> ZS m s -> ZS m s'.
Proof. intros E Hm [A B]. split; intros k j Hk Hj; [|intros Hjk]; rewrite E by lia; auto. Qed.

Lemma PI_same z m kopt s s' : 0 <= z -> 0 <= m <= npt -> good s' -> (forall a, keptn a -> xbase <= a < wend -> mm s' a = mm s a) -> evs s' = evs s ->
  PI z m kopt s -> PI z m kopt s'.
Proof.
  intros Hz Hm G' F E (G & Hf & HZ & B). split; [exact G'|]. split.
  { intros i Hi. apply (frm_cells s); auto; apply F; auto with kept; unfold at1; geo. }
  split. { apply (ZS_cells z s); auto. intros k j Hk Hj. assert (KR := at2_range xpt npt n k j Hk Hj). apply F; auto with kept. geo. }
  destruct B as [[B1 B2]|B]; [left; split; [exact B1|rewrite E; exact B2]|]. right. assert (Hk := proj1 B).
  apply (pbest_cells m kopt s); auto; try lia; intros i Hi.
  1-3: apply F; [auto with kept|unfold at1; geo].
  - apply F; [apply kept_n, kept_fval; lia|unfold at1; geo].
  - assert (KR := at2_range xpt npt n kopt i ltac:(lia) Hi). apply F; [auto with kept|geo]. apply kept_n, kept_xpt; lia.
Qed.

Lemma PI_row nf kopt s j v : 1 <= nf <= npt -> 1 <= j <= n -> (2 <= nf <= n + 1 -> j = nf - 1) ->
  PI nf (nf - 1) kopt s -> PI nf (nf - 1) kopt (upd s (at2 xpt npt nf j) v).
Proof.
  intros Hnf Hj Hc (G & Hf & [Z1 Z2] & B). assert (KR := at2_range xpt npt n nf j Hnf Hj). split; [apply good_w; [geo|exact G]|]. split.
  { intros i Hi. apply (frm_cells s); auto; apply upd_other; unfold at1; geo. }
  split.
  { split; intros k j' Hk Hj'; [|intros Hjk]; (rewrite upd_other; [auto|]); apply xpt_ne; lia. }
  destruct B as [[B1 B2]|B]; [left; split; [exact B1|exact B2]|]. right. assert (Hk := proj1 B).
  apply (pbest_cells (nf - 1) kopt s); auto; try lia; intros i Hi; apply upd_other; try (unfold at1; geo). apply xpt_ne; lia.
Qed.
Lemma PI_weak nf kopt s : PI (nf - 1) (nf - 1) kopt s -> PI nf (nf - 1) kopt s.
Proof. intros (G & Hf & [Z1 Z2] & B). split; [exact G|]. split; [exact Hf|]. split; [|exact B]. split; [|exact Z2]. intros k j Hk. apply Z1. lia. Qed.

Definition ppost (nf kopt : Z) (l : list (list N * N)) (v : pvars (N := N)) (s : mst) : Prop :=
  p_nf v = nf /\ p_kopt v = kopt /\ (2 * n + 1 < nf -> 1 <= p_ipt v <= n /\ 1 <= p_jpt v <= n) /\ PI nf (nf - 1) kopt s /\ evs s = l /\
  (n + 2 <= nf <= 2 * n + 1 -> mm s (at2 xpt npt nf (nf - 1 - n)) = Some (p_stepb v) /\
     mm s (at2 xpt npt (nf - n) (nf - 1 - n)) = Some (p_stepa v) /\
     forall j, 1 <= j <= n -> j <> nf - 1 - n -> mm s (at2 xpt npt nf j) = Some (0%R : N)).

Lemma wp_pre_point nf v s : 1 <= nf <= npt -> PI (nf - 1) (nf - 1) (p_kopt v) s ->
  wp (pre_point n npt (rhobeg : N) xpt sl su nf v) s (ppost nf (p_kopt v) (evs s)).
Proof.
  intros Hnf HP. assert (HP' := PI_weak _ _ _ HP). unfold pre_point. destruct v as [nf0 kopt stepa stepb fbeg ipt jpt]. cbn [p_kopt] in *. cbv zeta. arrs.
  destruct (Z.leb_spec (nf - 1) (2 * n)) as [La|La].
  - destruct (_ && _)%bool eqn:E1; [|destruct (Z.ltb_spec n (nf - 1)) as [Lb|Lb]].
    + apply andb_true_iff in E1. destruct E1 as [E1 E2]. apply Z.leb_le in E1, E2.
      apply wp_bind. apply wp_ifp, wp_lift2, wp_ld. intros u Eu. apply wp_ret.
      assert (FIN : forall a : N, wp (bind (assign (at2 xpt npt nf (nf - 1)) (ret a)) (fun _ => ret (mkpv nf kopt a stepb fbeg ipt jpt))) s (ppost nf kopt (evs s))).
      { intros a. apply wp_bind, wp_assign, wp_ret, wp_ret. split; [reflexivity|]. split; [reflexivity|]. cbn [p_ipt p_jpt p_stepa p_stepb]. split; [lia|].
        split; [apply PI_row; auto; lia|]. split; [reflexivity|]. intros; lia. }
      destruct (neq u zero); apply wp_ret, FIN.
    + apply wp_bind, wp_ld. intros a Ea.
      assert (FIN : forall b : N, wp (bind (assign (at2 xpt npt nf (nf - 1 - n)) (ret b)) (fun _ => ret (mkpv nf kopt a b fbeg ipt jpt))) s (ppost nf kopt (evs s))).
      { intros b. apply wp_bind, wp_assign, wp_ret, wp_ret. split; [reflexivity|]. split; [reflexivity|]. cbn [p_ipt p_jpt p_stepa p_stepb]. split; [lia|].
        split; [apply PI_row; auto; lia|]. split; [reflexivity|]. intros _. split; [apply upd_same|]. split; [rewrite upd_other; [exact Ea|apply xpt_ne; lia]|].
        intros j Hj Nj. rewrite upd_other; [|apply xpt_ne; lia]. destruct HP as (_ & _ & [Z1 _] & _). apply Z1; lia. }
      apply wp_bind, wp_lift1, wp_ret. apply wp_bind, wp_ifp, wp_lift2, wp_ld. intros u Eu. apply wp_ret.
      assert (STEP : forall b : N, wp (bind (ifp (lift2 neq (ld (at1 su (nf - 1 - n))) (ret zero)) (emax (lift2 nmul (lift1 nopp (ret two)) (ret (rhobeg : N))) (ld (at1 sl (nf - 1 - n)))) (ret b))
        (fun stepb => bind (assign (at2 xpt npt nf (nf - 1 - n)) (ret stepb)) (fun _ => ret (mkpv nf kopt a stepb fbeg ipt jpt)))) s (ppost nf kopt (evs s))).
      { intros b. apply wp_bind, wp_ifp, wp_lift2, wp_ld. intros u' Eu'. apply wp_ret. destruct (neq u' zero); [|apply wp_ret, FIN].
        apply wp_lift2, wp_lift2, wp_lift1, wp_ret, wp_ret, wp_ld. intros u'' _. apply FIN. }
      destruct (neq u zero); [|apply wp_ret, STEP].
      apply wp_lift2, wp_lift2, wp_ret, wp_ret, wp_ld. intros u'' _. apply STEP.
    + apply wp_ret. split; [reflexivity|]. split; [reflexivity|]. cbn [p_ipt p_jpt p_stepa p_stepb]. split; [lia|].
      split; [exact HP'|]. split; [reflexivity|]. intros; lia.
  - assert (D := Z.quot_rem (nf - 1 - (n + 1)) n ltac:(lia)).
    assert (RR := Z.rem_bound_pos (nf - 1 - (n + 1)) n ltac:(lia) ltac:(lia)).
    set (it := Z.quot (nf - 1 - (n + 1)) n) in *.
    assert (HT : 2 * npt <= (n + 1) * (n + 2)) by (destruct Hnpt as [_ K]; assert (KK := Z.mul_div_le ((n + 1) * (n + 2)) 2 ltac:(lia)); lia).
    assert (Hit0 : 0 <= it) by (apply Z.quot_pos; lia).
    assert (Hit : it <= n) by nia.
    assert (FIN : forall ip jp, 1 <= ip <= n -> 1 <= jp <= n ->
      wp (bind (assign (at2 xpt npt nf ip) (ld (at2 xpt npt (ip + 1) ip))) (fun _ => bind (assign (at2 xpt npt nf jp) (ld (at2 xpt npt (jp + 1) jp)))
        (fun _ => ret (mkpv nf kopt stepa stepb fbeg ip jp)))) s (ppost nf kopt (evs s))).
    { intros ip jp Hip Hjp. apply wp_bind, wp_assign, wp_ld. intros a Ea. apply wp_bind, wp_assign, wp_ld. intros b Eb. apply wp_ret.
      split; [reflexivity|]. split; [reflexivity|]. cbn [p_ipt p_jpt p_stepa p_stepb]. split; [auto|].
      split; [apply PI_row; try lia; apply PI_row; auto; lia|]. split; [reflexivity|]. intros; lia. }
    destruct (Z.ltb_spec n (nf - 1 - it * n - n + it)) as [Lb|Lb]; apply FIN; lia.
Qed.

Lemma wp_pre_x nf s (Q : unit -> mst -> Prop) : 1 <= nf <= npt -> good s -> (forall i, 1 <= i <= n -> frm s i) ->
  (forall s', good s' -> onlyx s s' -> (forall i, 1 <= i <= n -> exists b v : R, mm s (at1 xbase i) = Some (b : N) /\
     mm s (at2 xpt npt nf i) = Some (v : N) /\ mm s' (at1 x i) = Some (clampR (b + v)%R i : N)) -> Q tt s') ->
  wp (pre_x n npt x xl xu xbase xpt sl su nf) s Q.
Proof.
  intros Hnf Gs Hv K. unfold pre_x, LOOP_.
  apply (wp_loopJ (fun i (_ : unit) s1 => good s1 /\ onlyx s s1 /\ forall j, 1 <= j < i -> exists b v : R, mm s (at1 xbase j) = Some (b : N) /\
     mm s (at2 xpt npt nf j) = Some (v : N) /\ mm s1 (at1 x j) = Some (clampR (b + v)%R j : N))); [lia| | |].
  - split; [exact Gs|]. split; [split; auto|]. intros j Hj. lia.
  - intros i u s1 Hi (G1 & [F1 E1] & D1). destruct (Hv i Hi) as (b & Eb & Es & Eu). assert (KR := at2_range xpt npt n nf i Hnf Hi).
    destruct (Hx i Hi) as (_ & Nx & Cx).
    assert (F2 : forall a, xbase <= a < wend -> mm s1 a = mm s a) by (intros a Ha; apply F1, notx, Ha).
    apply wp_bind, wp_assign. unfold eclamp. apply wp_bind, wp_lift2, wp_ld. rewrite F2 by (unfold at1; geo). rewrite Eb. intros b1 [= <-].
    apply wp_ld. rewrite F2 by geo. intros v Ev.
    apply wp_bind, wp_ld. rewrite (proj2 G1 _ _ (Hxl i Hi)). intros l1 [= <-]. apply wp_bind, wp_ld. rewrite (proj2 G1 _ _ (Hxu i Hi)). intros h1 [= <-].
    apply wp_ret. cbn [nadd NumR].
    assert (ALL : forall (c : R) s2, good s2 -> onlyx s s2 -> (forall a, a <> at1 x i -> mm s2 a = mm s1 a) -> mm s2 (at1 x i) = Some (c : N) -> c = clampR (b + v)%R i ->
      good s2 /\ onlyx s s2 /\ forall j, 1 <= j < i + 1 -> exists b v : R, mm s (at1 xbase j) = Some (b : N) /\
       mm s (at2 xpt npt nf j) = Some (v : N) /\ mm s2 (at1 x j) = Some (clampR (b + v)%R j : N)).
    { intros c s2 G2 O2 K2 Ec Qc. split; [exact G2|]. split; [exact O2|]. intros j Hj. destruct (Z.eq_dec j i) as [->|Ne].
      - exists b, v. split; [exact Eb|]. split; [exact Ev|]. rewrite Ec, Qc. reflexivity.
      - destruct (D1 j ltac:(lia)) as (b' & v' & X1 & X2 & X3). exists b', v'. split; [exact X1|]. split; [exact X2|].
        rewrite K2; [exact X3|]. intros E. apply at1_inj in E. contradiction. }
    assert (OU : forall s2 c, onlyx s s2 -> onlyx s (upd s2 (at1 x i) c)).
    { intros s2 c [O1 O2]. split; [|exact O2]. intros a Ha. rewrite upd_other; [auto|apply Ha, Hi]. }
    set (c0 := clampR (b + v)%R i) in *.
    assert (CC : forall c : N, c = lo i /\ v = (lo i - b)%R \/ c = hi i /\ v = (hi i - b)%R -> c = c0).
    { intros c Hc. assert (KK := Hlohi i Hi). unfold c0, clamp. cbn [nle NumR].
      destruct (Rle_bool_spec (hi i) (b + v)%R) as [Q1|Q1]; destruct (Rle_bool_spec (b + v)%R (lo i)) as [Q2|Q2];
        destruct Hc as [[-> Hc]|[-> Hc]]; try reflexivity; try (exfalso; lra); change (lo i = hi i)%R || change (hi i = lo i)%R; lra. }
    assert (LAST : forall s2, good s2 -> onlyx s s2 -> (forall a, a <> at1 x i -> mm s2 a = mm s1 a) -> mm s2 (at1 x i) = Some (c0 : N) ->
      wp (ifp (lift2 neq (ld (at2 xpt npt nf i)) (ld (at1 su i))) (assign (at1 x i) (ld (at1 xu i))) (ret tt)) s2
       (fun (_ : unit) s2 => good s2 /\ onlyx s s2 /\ forall j, 1 <= j < i + 1 -> exists b v : R, mm s (at1 xbase j) = Some (b : N) /\
        mm s (at2 xpt npt nf j) = Some (v : N) /\ mm s2 (at1 x j) = Some (clampR (b + v)%R j : N))).
    { intros s2 G2 O2 K2 Ec. assert (F3 : forall a, xbase <= a < wend -> mm s2 a = mm s a) by (intros a Ha; apply O2, notx, Ha).
      apply wp_ifp, wp_lift2, wp_ld. rewrite F3 by geo. rewrite Ev. intros v1 [= <-]. apply wp_ld. rewrite F3 by (unfold at1; geo). rewrite Eu. intros u1 [= <-].
      cbn [neq NumR]. destruct (Req_bool_spec (v : R) (hi i - b)%R) as [E|E].
      - apply wp_assign, wp_ld. rewrite (proj2 G2 _ _ (Hxu i Hi)). intros h1 [= <-].
        apply (ALL (hi i)); [apply good_upd; auto|apply OU, O2|intros a Ha; rewrite upd_other by exact Ha; apply K2, Ha|apply upd_same|apply CC; auto].
      - apply wp_ret. apply (ALL c0); auto. }
    assert (U0 : good (upd s1 (at1 x i) (c0 : N))) by (apply good_upd; auto).
    assert (O0 : onlyx s (upd s1 (at1 x i) (c0 : N))) by (apply OU; split; auto).
    apply wp_bind, wp_ifp, wp_lift2, wp_ld. rewrite upd_other by geo. rewrite F2 by geo. rewrite Ev. intros v1 [= <-].
    apply wp_ld. rewrite upd_other by (unfold at1 in *; geo). rewrite F2 by (unfold at1; geo). rewrite Es. intros u1 [= <-].
    cbn [neq NumR]. destruct (Req_bool_spec (v : R) (lo i - b)%R) as [E|E].
    + apply wp_assign, wp_ld. rewrite (proj2 U0 _ _ (Hxl i Hi)). intros h1 [= <-].
      assert (Q0 := CC (lo i) (or_introl (conj eq_refl E))). rewrite Q0 at 1.
      apply LAST; [apply good_upd; auto|apply OU, O0|intros a Ha; rewrite !upd_other by exact Ha; reflexivity|apply upd_same].
    + apply wp_ret. apply LAST; [exact U0|exact O0|intros a Ha; rewrite upd_other by exact Ha; reflexivity|apply upd_same].
  - intros u s1 (G1 & F1 & D1). destruct u. apply K; auto. intros i Hi. apply D1. lia.
Qed.

(** The branches of pre_model which keep the points *)
Lemma wp_pre_q nf kopt (p : prog (pvars (N := N))) s : 1 <= nf <= npt -> PI nf nf kopt s ->
  safe W Rd C p (fun v => p_nf v = nf /\ p_kopt v = kopt) -> wp p s (fun v t => p_nf v = nf /\ PI nf nf (p_kopt v) t).
Proof.
  intros Hnf HP Sp. eapply wp_safe; [exact Sp|apply HP|]. intros v t [E1 E2] G F. split; [exact E1|]. rewrite E2.
  destruct (frame_samen _ _ F) as [S1 S2]. apply (PI_same _ _ _ s); auto; lia.
Qed.

Lemma wp_pre_model e l nf v s : 1 <= nf <= npt -> p_nf v = nf -> (2 * n + 1 < nf -> 1 <= p_ipt v <= n /\ 1 <= p_jpt v <= n) ->
  good s -> (forall i, 1 <= i <= n -> frm s i) -> ZS nf s -> evs s = e :: l -> (forall i, 1 <= i <= n -> pt0 0 e nf s i) ->
  (nf - 1 = 0 /\ l = nil \/ 1 <= p_kopt v <= nf - 1 /\ (exists e0, least e0 l /\ mm s (at1 fval (p_kopt v)) = Some (val e0 : N) /\
      forall i, 1 <= i <= n -> pt0 0 e0 (p_kopt v) s i) /\ exists e1, In e1 l /\ mm s (at1 fval 1) = Some (val e1 : N)) ->
  (n + 2 <= nf <= 2 * n + 1 -> mm s (at2 xpt npt nf (nf - 1 - n)) = Some (p_stepb v) /\
     mm s (at2 xpt npt (nf - n) (nf - 1 - n)) = Some (p_stepa v) /\
     forall j, 1 <= j <= n -> j <> nf - 1 - n -> mm s (at2 xpt npt nf j) = Some (0%R : N)) ->
  wp (pre_model n npt (rhobeg : N) xpt fval gopt hq bmat zmat ndim (val e : N) v) s (fun v t => p_nf v = nf /\ PI nf nf (p_kopt v) t).
Proof.
  intros Hnf Env Hij G Hf HZ Ev Pe HB Hst. unfold pre_model. destruct v as [nf0 kopt stepa stepb fbeg ipt jpt].
  cbn [p_nf p_kopt p_ipt p_jpt p_stepa p_stepb] in *. subst nf0. cbv zeta. apply wp_bind, wp_assign, wp_ret. set (s1 := upd _ _ _).
  assert (G1 : good s1) by (apply good_w; [unfold at1; geo|exact G]).
  assert (K1 : forall a, a <> at1 fval nf -> mm s1 a = mm s a) by (intros a Ha; apply upd_other, Ha).
  assert (KX : forall k j, 1 <= k <= npt -> 1 <= j <= n -> mm s1 (at2 xpt npt k j) = mm s (at2 xpt npt k j)).
  { intros k j Hk Hj. assert (KR := at2_range xpt npt n k j Hk Hj). apply K1. unfold at1. geo. }
  assert (F1 : forall i, 1 <= i <= n -> frm s1 i) by (intros i Hi; apply (frm_cells s); auto; apply K1; unfold at1; geo).
  assert (Z1 : ZS nf s1) by (apply (ZS_cells nf s); [exact KX|lia|exact HZ]).
  assert (P1 : forall e k, 1 <= k <= npt -> (forall i, 1 <= i <= n -> pt0 0 e k s i) -> forall i, 1 <= i <= n -> pt0 0 e k s1 i).
  { intros e' k Hk Hp i Hi. apply (pt0_cells 0 e' k s); auto; apply K1; unfold at1; geo. }
  assert (Ev1 : evs s1 = e :: l) by exact Ev.
  assert (Ef : mm s1 (at1 fval nf) = Some (val e : N)) by apply upd_same.
  assert (B1 : nf = 1 /\ l = nil \/ 1 <= kopt <= nf - 1 /\ (exists e0, least e0 l /\ mm s1 (at1 fval kopt) = Some (val e0 : N) /\
      forall i, 1 <= i <= n -> pt0 0 e0 kopt s1 i) /\ exists e1, In e1 l /\ mm s1 (at1 fval 1) = Some (val e1 : N)).
  { destruct HB as [[A1 A2]|(A1 & (e0 & A2 & A3 & A4) & e1 & A5 & A6)]; [left; split; [lia|exact A2]|]. right. split; [exact A1|]. split.
    - exists e0. split; [exact A2|]. split; [rewrite K1; [exact A3|unfold at1; geo]|]. apply P1; [lia|exact A4].
    - exists e1. split; [exact A5|]. rewrite K1; [exact A6|unfold at1; geo]. }
  assert (T1 : n + 2 <= nf <= 2 * n + 1 -> mm s1 (at2 xpt npt nf (nf - 1 - n)) = Some stepb /\
     mm s1 (at2 xpt npt (nf - n) (nf - 1 - n)) = Some stepa /\
     forall j, 1 <= j <= n -> j <> nf - 1 - n -> mm s1 (at2 xpt npt nf j) = Some (0%R : N)).
  { intros Hr. destruct (Hst Hr) as (A1 & A2 & A3). rewrite !KX by lia. split; [exact A1|]. split; [exact A2|]. intros j Hj Nj. rewrite KX by lia. auto. }
  assert (Pe1 := P1 e nf ltac:(lia) Pe). clearbody s1. clear P1 Pe HB Hst HZ Hf Ev K1 KX G. clear s. rename s1 into s.
  (* the choice of kopt *)
  apply wp_bind. eapply wp_weak with (P := fun (r : N * Z) t => t = s /\ pbest nf (snd r) s /\ (snd r = nf -> least e (evs s)) /\
    (snd r <> nf -> exists u : R, mm s (at1 fval (snd r)) = Some (u : N) /\ (u <= val e)%R)).
  { destruct (Z.eqb_spec nf 1) as [E1|E1].
    - destruct B1 as [[_ Hl]|B1]; [|lia]. apply wp_ret. cbn [snd]. rewrite E1 in Ef, Pe1. rewrite E1. assert (Le : least e (evs s)).
      { rewrite Ev1, Hl. split; [left; reflexivity|]. intros e' [<-|[]]. apply Rle_refl. }
      split; [reflexivity|]. split; [|split; [auto|congruence]]. split; [lia|]. split; [exists e; auto|]. exists e. split; [apply Le|exact Ef].
    - destruct B1 as [[B1 _]|(Hk & (e0 & A2 & A3 & A4) & e1 & A5 & A6)]; [contradiction|].
      assert (I1 : exists e1, In e1 (evs s) /\ mm s (at1 fval 1) = Some (val e1 : N)) by (exists e1; rewrite Ev1; split; [right; exact A5|exact A6]).
      apply wp_ifp, wp_lift2, wp_ret, wp_ld. rewrite A3. intros u [= <-]. cbn [nlt NumR].
      destruct (Rlt_bool_spec (val e : R) (val e0 : R)) as [Q|Q]; apply wp_ret; cbn [snd]; (split; [reflexivity|]).
      + assert (Le : least e (evs s)) by (rewrite Ev1; apply least_new with e0; auto).
        split; [|split; [auto|congruence]]. split; [lia|]. split; [exists e; auto|exact I1].
      + split; [|split; [intros; lia|intros _; exists (val e0); auto]]. split; [lia|]. split; [|exact I1].
        exists e0. rewrite Ev1. split; [apply least_old; auto|auto]. }
  intros [fbeg1 kopt1] t (-> & PB & LE & LT). cbn [snd] in *. clear B1 kopt.
  assert (HP : PI nf nf kopt1 s) by (split; [exact G1|]; auto). assert (Hk1 := proj1 PB). arrs.
  destruct (Z.leb_spec nf (2 * n + 1)) as [L|L].
  2:{ assert (K := off_range n ipt jpt ltac:(lia) ltac:(lia)). apply (wp_pre_q nf kopt1); [exact Hnf|exact HP|]. sf; cbn [p_nf p_kopt]; auto. }
  destruct (_ && _)%bool eqn:E1; [|destruct (Z.leb_spec (n + 2) nf) as [La|La]].
  { apply andb_true_iff in E1. destruct E1 as [E1 E2]. apply Z.leb_le in E1, E2.
    apply (wp_pre_q nf kopt1); [exact Hnf|exact HP|]. sf; cbn [p_nf p_kopt]; auto. }
  2:{ apply (wp_pre_q nf kopt1); [exact Hnf|exact HP|]. sf; cbn [p_nf p_kopt]; auto. }
  clear E1. destruct (T1 ltac:(lia)) as (TB & TA & TZ). clear T1.
  assert (K := diag_range' n (nf - 1 - n) ltac:(lia)).
  apply wp_bind, wp_lift2, wp_lift2, wp_ret, wp_ret, wp_ret. apply wp_bind, wp_lift2, wp_ret, wp_ret.
  eapply wp_qnT; [sf|exact G1|]. intros _ s2 G2 S2. eapply wp_qnT; [sf|exact G2|]. intros _ s3 G3 S3. assert (S := samen_trans _ _ _ S2 S3).
  clear S2 S3 G2 s2. destruct S as [S1 S2]. rewrite <- S2 in Ev1.
  assert (HP3 : PI nf nf kopt1 s3) by (apply (PI_same _ _ _ s); auto; lia).
  assert (Ef3 : mm s3 (at1 fval nf) = Some (val e : N)) by (rewrite S1 by auto with kept; exact Ef).
  assert (Pe3 : forall i, 1 <= i <= n -> pt0 0 e nf s3 i) by (intros i Hi; apply (pt0_cells 0 e nf s); auto with kept).
  rewrite <- S2 in LE.
  assert (LT3 : kopt1 <> nf -> exists u : R, mm s3 (at1 fval kopt1) = Some (u : N) /\ (u <= val e)%R).
  { intros Nk. destruct (LT Nk) as (u & U1 & U2). exists u. split; [|exact U2]. rewrite S1; [exact U1|apply kept_n, kept_fval; lia]. }
  assert (TB3 : mm s3 (at2 xpt npt nf (nf - 1 - n)) = Some stepb) by (rewrite S1; [exact TB|apply kept_n, kept_xpt; lia]).
  assert (TZ3 : forall j, 1 <= j <= n -> j <> nf - 1 - n -> mm s3 (at2 xpt npt nf j) = Some (0%R : N)).
  { intros j Hj Nj. rewrite S1; [auto|apply kept_n, kept_xpt; lia]. }
  clear S1 S2 TB TA TZ LT Pe1 Ef HP PB F1 Z1 G1. clear s. rename s3 into s.
  apply wp_bind. eapply wp_weak with (P := fun kopt2 t => 1 <= kopt2 <= nf /\ PI nf nf kopt2 t).
  { assert (NO : wp (ret (N := N) kopt1) s (fun kopt2 t => 1 <= kopt2 <= nf /\ PI nf nf kopt2 t)) by (apply wp_ret; auto).
    apply wp_ifp, wp_lift2, wp_lift2, wp_ret, wp_ret, wp_ret. destruct (nlt _ _); [|exact NO].
    apply wp_ifp, wp_lift2, wp_ret, wp_ld. intros u Eu. cbn [nlt NumR]. destruct (Rlt_bool_spec (val e : R) (u : R)) as [Q|Q]; [|exact NO]. clear NO.
    apply wp_bind, wp_assign, wp_ld. intros u' _. apply wp_bind, wp_assign, wp_ret. apply wp_bind, wp_assign, wp_ret. apply wp_bind, wp_assign, wp_ret, wp_ret.
    set (t := upd _ _ _). assert (Hnn : 2 <= nf - n <= n + 1) by lia.
    assert (KRa := at2_range xpt npt n nf (nf - 1 - n) ltac:(lia) ltac:(lia)). assert (KRb := at2_range xpt npt n (nf - n) (nf - 1 - n) ltac:(lia) ltac:(lia)).
    destruct HP3 as (G & Hf & [Z1 Z2] & [[B _]|B]); [lia|].
    assert (Gt : good t) by (unfold t; repeat (apply good_w; [unfold at1; geo|]); exact G).
    assert (KO : forall a, ~ (xpt <= a < fval) -> a <> at1 fval nf -> a <> at1 fval (nf - n) -> mm t a = mm s a).
    { intros a A1 A2 A3. unfold t. rewrite !upd_other; auto; geo. }
    assert (KX : forall k j, 1 <= k <= npt -> 1 <= j <= n -> (k = nf \/ k = nf - n) /\ j = nf - 1 - n \/ mm t (at2 xpt npt k j) = mm s (at2 xpt npt k j)).
    { intros k j Hk Hj. assert (KR := at2_range xpt npt n k j Hk Hj).
      destruct (Z.eq_dec j (nf - 1 - n)) as [->|Nj]; [|right; unfold t; rewrite !upd_other; auto; try (unfold at1; geo); apply xpt_ne; lia].
      destruct (Z.eq_dec k nf) as [->|N1]; [left; auto|]. destruct (Z.eq_dec k (nf - n)) as [->|N2]; [left; auto|].
      right. unfold t. rewrite !upd_other; auto; try (unfold at1; geo); apply xpt_ne; lia. }
    assert (Et : mm t (at1 fval (nf - n)) = Some (val e : N)).
    { unfold t. do 2 (rewrite upd_other by (unfold at1; geo)). apply upd_same. }
    assert (Xt : mm t (at2 xpt npt (nf - n) (nf - 1 - n)) = Some stepb).
    { unfold t. rewrite upd_other; [apply upd_same|]. apply xpt_ne; lia. }
    assert (FR : forall i, 1 <= i <= n -> frm t i) by (intros i Hi; apply (frm_cells s); auto; apply KO; unfold at1; geo).
    assert (ZT : ZS nf t).
    { split.
      - intros k j Hk Hj. destruct (KX k j ltac:(lia) Hj) as [KK|KK]; [lia|]. rewrite KK. auto.
      - intros k j Hk Hj Nj. destruct (KX k j ltac:(lia) Hj) as [KK|KK]; [lia|]. rewrite KK. auto. }
    destruct B as (Hk & (e0 & B1 & B2 & B3) & e1 & B4 & B5).
    assert (V1 : exists e1, In e1 (evs t) /\ mm t (at1 fval 1) = Some (val e1 : N)).
    { exists e1. split; [exact B4|]. rewrite KO by (unfold at1; geo). exact B5. }
    assert (Evt : evs t = evs s) by reflexivity. clearbody t.
    destruct (Z.eqb_spec kopt1 nf) as [Ek|Nk].
    - split; [lia|]. split; [exact Gt|]. split; [exact FR|]. split; [exact ZT|]. right. split; [lia|]. split; [|exact V1].
      exists e. rewrite Evt. split; [apply LE, Ek|]. split; [exact Et|]. intros i Hi. destruct (Pe3 i Hi) as (b & o & Y1 & Y2 & Y3 & Y4 & Y5 & Y6).
      exists b, o. rewrite (KO (at1 xbase i)), (KO (at1 sl i)), (KO (at1 su i)) by (unfold at1; geo). split; [exact Y1|]. split; [|split; [exact Y3|split; [exact Y4|split; [exact Y5|intros; lia]]]].
      destruct (Z.eq_dec i (nf - 1 - n)) as [->|Ni].
      + rewrite Xt. rewrite TB3 in Y2. exact Y2.
      + destruct (KX (nf - n) i ltac:(lia) Hi) as [KK|KK]; [lia|]. rewrite KK. rewrite TZ3 in Y2 by auto. rewrite <- Y2. apply Z2; lia.
    - destruct (LT3 Nk) as (u0 & U1 & U2). assert (Nk2 : kopt1 <> nf - n).
      { intros ->. rewrite Eu in U1. injection U1 as ->. exact (Rlt_irrefl _ (Rlt_le_trans _ _ _ Q U2)). }
      split; [lia|]. split; [exact Gt|]. split; [exact FR|]. split; [exact ZT|]. right. split; [lia|]. split; [|exact V1].
      exists e0. rewrite Evt. split; [exact B1|]. split; [rewrite KO; [exact B2|unfold at1; geo| |]; intros E; apply at1_inj in E; contradiction|].
      intros i Hi. apply (pt0_cells 0 e0 kopt1 s); auto; try (apply KO; unfold at1; geo). destruct (KX kopt1 i ltac:(lia) Hi) as [KK|KK]; [lia|exact KK]. }
  intros kopt2 t [Hk2 HPt]. apply (wp_pre_q nf kopt2); [exact Hnf|exact HPt|]. sf; cbn [p_nf p_kopt]; auto.
Qed.

Definition pinv (v : pvars (N := N)) (s : mst) : Prop := 0 <= p_nf v < npt /\ PI (p_nf v) (p_nf v) (p_kopt v) s.
Definition pres (r : Z * Z) (s : mst) : Prop := 1 <= fst r <= npt /\ PI (fst r) (fst r) (snd r) s.
Lemma wp_pre_iter v s : pinv v s ->
  wp (pre_iter n npt ctx x xl xu (rhobeg : N) maxfun xbase xpt fval gopt hq bmat zmat ndim sl su v) s
    (fun r s => match r with inl v => pinv v s | inr r => pres r s end).
Proof.
  intros [Hnf HP]. unfold pre_iter. cbv zeta. set (nf := p_nf v + 1). assert (E : p_nf v = nf - 1) by (unfold nf; lia). rewrite E in HP.
  apply wp_bind. eapply wp_weak; [apply wp_pre_point; [lia|exact HP]|]. intros v1 s1 (E1 & E2 & E3 & P1 & E4 & E5).
  set (l := evs s) in *. clearbody l. clear HP. clear s. rewrite <- E2 in P1. destruct P1 as (G1 & F1 & Z1 & B1).
  apply wp_bind. apply wp_pre_x; [lia|exact G1|exact F1|]. intros s2 G2 O2 X2. destruct (onlyx_same _ _ O2) as [K2 Ev2].
  apply wp_bind. set (X := fun i => match mm s2 (at1 x i) with Some u => u : R | None => 0%R end).
  assert (EX : forall i, 1 <= i <= n -> mm s2 (at1 x i) = Some (X i : N)).
  { intros i Hi. destruct (X2 i Hi) as (b & u & _ & _ & Q). unfold X. rewrite Q. reflexivity. }
  apply (wp_call x X); [exact G2|exact EX| |].
  { intros i Hi Q. destruct (wsc_out _ Q) as [_ Q']. exact (Q' i Hi eq_refl). }
  intros s3 e G3 He Ee K3.
  assert (K : forall a, xbase <= a < wend -> mm s3 a = mm s1 a).
  { intros a Ha. rewrite K3; [apply K2, Ha|]. intros Q. apply wsc_out in Q. apply Q, Ha. }
  rewrite Ev2, E4 in Ee. assert (KX : forall k j, 1 <= k <= npt -> 1 <= j <= n -> mm s3 (at2 xpt npt k j) = mm s1 (at2 xpt npt k j)).
  { intros k j Hk Hj. assert (KR := at2_range xpt npt n k j Hk Hj). apply K. geo. }
  apply wp_bind. eapply wp_weak; [apply (wp_pre_model e l nf v1 s3)|].
  - lia.
  - exact E1.
  - exact E3.
  - exact G3.
  - intros i Hi. apply (frm_cells s1); auto; apply K; unfold at1; geo.
  - apply (ZS_cells nf s1); auto. lia.
  - exact Ee.
  - intros i Hi. destruct (X2 i Hi) as (b & u & Q1 & Q2 & Q3). destruct (F1 i Hi) as (b' & Y1 & Y2 & Y3). rewrite Q1 in Y1. injection Y1 as <-.
    exists b, u. rewrite KX by lia. rewrite !K by (unfold at1; geo). repeat (split; [assumption|]). split; [|intros; lia].
    rewrite He by exact Hi. unfold X. rewrite Q3. reflexivity.
  - destruct B1 as [[B1 B2]|(Hk & (e0 & A2 & A3 & A4) & e1 & A5 & A6)]; [left; split; [exact B1|congruence]|]. right. split; [exact Hk|]. rewrite E4 in A2, A5. split.
    + exists e0. split; [exact A2|]. split; [rewrite K by (unfold at1; geo); exact A3|]. intros i Hi. apply (pt0_cells 0 e0 (p_kopt v1) s1); auto; try (apply K; unfold at1; geo).
      apply KX; lia.
    + exists e1. split; [exact A5|]. rewrite K by (unfold at1; geo). exact A6.
  - intros Hr. destruct (E5 Hr) as (A1 & A2 & A3). rewrite !KX by lia. split; [exact A1|]. split; [exact A2|]. intros j Hj Nj. rewrite KX by lia. auto.
  - intros v2 s4 [N2 P2]. rewrite N2. destruct (_ && _)%bool eqn:Ec; apply wp_ret.
    + apply andb_true_iff in Ec. destruct Ec as [Ec1 Ec2]. apply Z.ltb_lt in Ec1. split; [lia|]. rewrite N2. exact P2.
    + split; cbn [fst snd]; [lia|exact P2].
Qed.

(** At the start: the variables are in the bounds, from which sl and su come *)
Definition init (s : mst) : Prop := good s /\ evs s = nil /\ forall i, 1 <= i <= n -> exists b : R,
  mm s (at1 x i) = Some (b : N) /\ mm s (at1 sl i) = Some ((lo i - b)%R : N) /\ mm s (at1 su i) = Some ((hi i - b)%R : N).

Lemma wp_pre_init s : init s ->
  wp (pre_init n npt x xbase xpt hq pq bmat zmat ndim) s (fun _ t => PI 0 0 0 t).
Proof.
  intros (G & Ev & HI). unfold pre_init. cbv zeta. arrs.
  apply wp_bind. eapply wp_weak with (P := fun (_ : unit) t => PI 0 0 0 t).
  - unfold LOOP_ at 1.
    apply (wp_loopJ (fun j (_ : unit) t => good t /\ evs t = nil /\ (forall i, 1 <= i <= n -> mm t (at1 x i) = mm s (at1 x i)) /\
      (forall i, 1 <= i <= n -> mm t (at1 sl i) = mm s (at1 sl i)) /\ (forall i, 1 <= i <= n -> mm t (at1 su i) = mm s (at1 su i)) /\
      (forall i, 1 <= i < j -> mm t (at1 xbase i) = mm s (at1 x i) /\ forall k, 1 <= k <= npt -> mm t (at2 xpt npt k i) = Some (0%R : N)))); [lia| | |].
    + split; [exact G|]. split; [exact Ev|]. split; [auto|]. split; [auto|]. split; [auto|]. intros i Hi. lia.
    + clear HI. intros j u t Hj (G1 & E1 & X1 & X2 & X3 & X4). apply wp_bind, wp_assign, wp_ld. intros b Eb. rewrite X1 in Eb by exact Hj.
      apply wp_bind. unfold LOOP_ at 1.
      apply (wp_loopJ (fun k (_ : unit) t => good t /\ evs t = nil /\ (forall i, 1 <= i <= n -> mm t (at1 x i) = mm s (at1 x i)) /\
      (forall i, 1 <= i <= n -> mm t (at1 sl i) = mm s (at1 sl i)) /\ (forall i, 1 <= i <= n -> mm t (at1 su i) = mm s (at1 su i)) /\
      (forall i, 1 <= i <= j -> mm t (at1 xbase i) = mm s (at1 x i) /\ forall k', 1 <= k' <= npt -> i < j \/ k' < k -> mm t (at2 xpt npt k' i) = Some (0%R : N)))); [lia| | |].
      * split; [apply good_w; [unfold at1; geo|exact G1]|]. split; [exact E1|]. split.
        { intros i Hi. rewrite upd_other; [apply X1, Hi|]. destruct (Hx i Hi) as (_ & Nx & _). intros Q. rewrite Q in Nx. apply Nx. unfold at1. geo. }
        split; [intros i Hi; rewrite upd_other; [apply X2, Hi|unfold at1; geo]|]. split; [intros i Hi; rewrite upd_other; [apply X3, Hi|unfold at1; geo]|].
        intros i Hi. split.
        -- destruct (Z.eq_dec i j) as [->|Ni]; [rewrite upd_same; symmetry; exact Eb|]. rewrite upd_other; [apply X4; lia|].
           intros Q. apply at1_inj in Q. contradiction.
        -- intros k' Hk' Hc. assert (KR := at2_range xpt npt n k' i Hk' ltac:(lia)). rewrite upd_other; [apply X4; lia|unfold at1; geo].
      * intros k u' t' Hk (G2 & E2 & Y1 & Y2 & Y3 & Y4). assert (KR := at2_range xpt npt n k j Hk Hj). apply wp_assign, wp_ret.
        split; [apply good_w; [geo|exact G2]|]. split; [exact E2|]. split.
        { intros i Hi. rewrite upd_other; [apply Y1, Hi|]. destruct (Hx i Hi) as (_ & Nx & _). intros Q. rewrite Q in Nx. apply Nx. geo. }
        split; [intros i Hi; rewrite upd_other; [apply Y2, Hi|unfold at1; geo]|]. split; [intros i Hi; rewrite upd_other; [apply Y3, Hi|unfold at1; geo]|].
        intros i Hi. split; [rewrite upd_other; [apply Y4, Hi|unfold at1; geo]|].
        intros k' Hk' Hc. destruct (Z.eq_dec i j) as [->|Ni]; [destruct (Z.eq_dec k' k) as [->|Nk]; [apply upd_same|]|]; (rewrite upd_other; [apply Y4; lia|apply xpt_ne; lia]).
      * intros u' t' (G2 & E2 & Y1 & Y2 & Y3 & Y4).
        eapply wp_safe; [unfold LOOP_ at 1; apply (safe_loop W Rd C)|exact G2|].
        { intros i u2 Hi. sf. }
        intros u2 t2 _ G3 F. destruct (frame_samen _ _ F) as [S1 S2]. split; [exact G3|]. split; [congruence|].
        split; [intros i Hi; rewrite S1 by auto with kept; apply Y1, Hi|]. split; [intros i Hi; rewrite S1 by auto with kept; apply Y2, Hi|].
        split; [intros i Hi; rewrite S1 by auto with kept; apply Y3, Hi|].
        intros i Hi. split; [rewrite S1 by (apply kept_n, kept_xbase; lia); apply Y4; lia|]. intros k' Hk'. rewrite S1 by (apply kept_n, kept_xpt; lia). apply Y4; lia.
    + intros u t (G1 & E1 & X1 & X2 & X3 & X4). split; [exact G1|]. split.
      { intros i Hi. destruct (HI i Hi) as (b & I1 & I2 & I3). exists b. destruct (X4 i ltac:(lia)) as [X5 _]. rewrite X5, X2, X3 by exact Hi. auto. }
      split; [|left; auto]. split; intros k j Hk Hj; [|intros _]; apply X4; lia.
  - intros _ t HP. eapply wp_qnT; [sf|apply HP|]. intros _ t1 G1 S1.
    eapply wp_safe; [unfold LOOP_ at 1; apply (safe_loop W Rd C)|exact G1|].
    { intros i u2 Hi. sf. }
    intros _ t2 _ G2 F. destruct (samen_trans _ _ _ S1 (frame_samen _ _ F)) as [S3 S4]. apply (PI_same _ _ _ t); auto; lia.
Qed.

Lemma wp_start s : init s ->
  wp (bq_start n npt ctx x xl xu (rhobeg : N) maxfun xbase xpt fval xopt gopt hq pq bmat zmat ndim sl su) s bpost.
Proof.
  intros HI. unfold bq_start, prelim. cbv zeta. apply wp_bind.
  eapply wp_weak with (P := pres).
  { apply wp_bind. eapply wp_weak; [apply wp_pre_init, HI|]. intros u0 t HP. cbv beta in HP. apply (wp_machine pinv).
    - split; [cbn [p_nf]; lia|exact HP].
    - intros v t' Hv. apply wp_pre_iter, Hv. }
  intros [nf kopt] t [Hnf (G & Hf & _ & [[B _]|B])]; cbn [fst snd] in *; [lia|]. destruct B as (Hk & (e & Le & Ef & P) & e1 & I1 & E1).
  apply wp_bind. eapply wp_weak with (P := fun (_ : N) t' => inv kopt t' /\ evs t' = evs t /\ mm t' (at1 fval 1) = Some (val e1 : N)).
  - unfold LOOP. apply (wp_loopJ (fun j (_ : N) t' => good t' /\ evs t' = evs t /\ (forall a, (forall i, 1 <= i <= n -> a <> at1 xopt i) -> mm t' a = mm t a) /\
      forall i, 1 <= i < j -> mm t' (at1 xopt i) = mm t (at2 xpt npt kopt i))); [lia| | |].
    + split; [exact G|]. split; [reflexivity|]. split; [auto|]. intros i Hi. lia.
    + intros j xo t' Hj (G' & E' & C' & D'). assert (KR := at2_range xpt npt n kopt j ltac:(lia) Hj).
      apply wp_bind, wp_assign, wp_ld. rewrite C' by (intros i Hi; unfold at1; geo). intros o Eo.
      apply wp_lift2, wp_ret, wp_lift2, wp_ld. intros o1 _. apply wp_ld. intros o2 _.
      split; [apply good_w; [unfold at1; geo|exact G']|]. split; [exact E'|]. split.
      * intros a Ha. rewrite upd_other; [apply C', Ha|]. apply Ha, Hj.
      * intros i Hi. destruct (Z.eq_dec i j) as [->|Ne]; [rewrite upd_same; symmetry; exact Eo|].
        rewrite upd_other; [apply D'; lia|]. intros Q. apply at1_inj in Q. contradiction.
    + intros xo t' (G' & E' & C' & D'). split.
      * split; [exact G'|]. split; [lia|]. exists e. rewrite E'. split; [exact Le|].
        split; [rewrite C' by (intros i Hi; unfold at1; geo); exact Ef|].
        intros i Hi. assert (KR := at2_range xpt npt n kopt i ltac:(lia) Hi).
        destruct (P i Hi) as (b & o & Y1 & Y2 & Y3 & Y4 & Y5 & Y6). exists b, o. rewrite D' by lia.
        rewrite !C' by (intros i' Hi'; unfold at1; geo). auto 10.
      * split; [exact E'|]. rewrite C' by (intros i Hi; unfold at1; geo). exact E1.
  - intros xo t' (I' & E' & F'). apply wp_bind, wp_ld. rewrite F'. intros fs [= <-].
    match goal with |- wp (if _ then fail _ ?v else _) _ _ => assert (CI : cinv v t') end.
    { split; [exact I'|]. exists e1. rewrite E'. split; [exact I1|reflexivity]. }
    destruct (nf <? npt); [apply wp_fail, CI|]. apply wp_goto; [discriminate| |exact CI]. cbn [blab b_ntrits]. lia.
Qed.

Lemma wp_step fuel l s : binv l s ->
  wp (bq_step n npt ctx x xl xu (rhoend : N) maxfun xbase xpt fval xopt gopt hq pq bmat zmat ndim sl su xnew xalt d vlag w fuel l) s bpost.
Proof.
  destruct l as [l v]. unfold bq_step. destruct l; cbn [binv].
  - intros [H1 H2]. apply wp_20; auto.
  - intros [H1 H2]. apply wp_60; auto.
  - intros [H1 H2]. apply wp_90; auto.
  - intros [H1 H2]. apply wp_190; auto.
  - intros [H1 H2]. apply wp_210; auto.
  - intros [H1 H2]. apply wp_230; auto.
  - intros [H1 H2]. apply wp_360; auto.
  - intros [H1 H2]. apply wp_650; auto.
  - intros [H1 H2]. apply wp_680; auto.
  - intros H. apply wp_ret. exact H.
Qed.

Theorem wp_bobyqb fuel s : init s ->
  wp (bobyqb n npt ctx x xl xu (rhobeg : N) (rhoend : N) maxfun xbase xpt fval xopt gopt hq pq bmat zmat ndim sl su xnew xalt d vlag w fuel) s final.
Proof.
  intros HI. unfold bobyqb. apply wp_bind. eapply wp_weak; [apply wp_start, HI|]. intros [l|v] t Hr.
  - apply wp_bind. eapply wp_weak with (P := dinv); [|intros v t' Hv; apply wp_end, Hv].
    apply (wp_machine binv); [exact Hr|]. intros l' t' Hl. apply wp_step, Hl.
  - apply wp_end, Hr.
Qed.
End Best.
