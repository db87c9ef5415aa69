(** * Accesses and evaluations of bobyqa_optimize *)
From Coq Require Import ZArith List Bool Lia.
From Verif Require Import Num BqLang BqModel BqWp BqSafe BqEval BqRun BqSpec.
Import ListNotations.
Local Open Scope Z_scope.

Lemma even_half a : Z.even a = true -> 2 * (a / 2) = a.
Proof. intros H. apply Zeven_bool_iff in H. apply Zeven_div2 in H. rewrite Z.div2_div in H. lia. Qed.
Lemma tri_half n : 2 * (n * (n + 1) / 2) = n * (n + 1).
Proof.
  apply even_half. rewrite Z.even_mul, Z.even_add. cbn [Z.even]. destruct (Z.even n); reflexivity.
Qed.
Lemma w_half n : 2 * (3 * n * (n + 5) / 2) = 3 * n * (n + 5).
Proof.
  apply even_half. rewrite !Z.even_mul, Z.even_add. cbn [Z.even]. destruct (Z.even n); reflexivity.
Qed.

(** The partition of the workspace is made of consecutive arrays and its last array ends at the end of the workspace *)
Lemma partition_end n npt : iw_ n npt + 3 * ndim_ n npt = work_size n npt.
Proof.
  unfold iw_, ivl, id_, ixa, ixn, isu, isl, izmat, ibmat, ipq, ihq_, igo, ixo, ifv, ixp, ixb, ndim_, work_size.
  pose proof (tri_half n). pose proof (w_half n). lia.
Qed.

(** Loops with an exit, the invariant depending on the index *)
Lemma safe_loopxJ {N : Num} (W Rd : Z -> Prop) (C : Z -> option N) {A B} (J : Z -> A -> Prop) (Q : B -> Prop) lo hi
  (body : Z -> A -> prog N (A + B)) (a : A) :
  lo <= hi + 1 ->
  (forall i a, lo <= i <= hi -> J i a ->
     safe W Rd C (body i a) (fun r => match r with inl a => J (i + 1) a | inr b => Q b end)) -> J lo a ->
  safe W Rd C (loopx lo hi body a) (fun r => match r with inl a => J (hi + 1) a | inr b => Q b end).
Proof.
  intros H Hb Ha. unfold loopx.
  assert (Ek : lo + Z.of_nat (Z.to_nat (hi - lo + 1)) = hi + 1) by lia. rewrite <- Ek.
  assert (K : forall i a, lo <= i < lo + Z.of_nat (Z.to_nat (hi - lo + 1)) -> J i a ->
              safe W Rd C (body i a) (fun r => match r with inl a => J (i + 1) a | inr b => Q b end))
    by (intros; apply Hb; auto; lia).
  clear Hb Ek H. revert K. generalize (Z.to_nat (hi - lo + 1)). intros k K. revert lo a Ha K.
  induction k as [|k IH]; intros lo a Ha K; cbn [loopxn].
  - apply safe_ret. rewrite Z.add_0_r. exact Ha.
  - eapply safe_bind; [apply K; [lia|exact Ha]|]. intros [b|b] Hr.
    + replace (lo + Z.of_nat (S k)) with (lo + 1 + Z.of_nat k) by lia. apply IH; auto. intros; apply K; auto; lia.
    + apply safe_ret, Hr.
Qed.

Section Opt.
Context {N : Num}.
Notation mst := (mst N).
Notation prog := (prog N).
Variables (n npt : Z) (ctx : context (N := N)) (x xl xu : Z) (rhobeg rhoend : N) (maxfun w : Z).
Variables (lo hi sc : Z -> N) (box : Z -> N -> Prop).
Variables (Rd : Z -> Prop) (C : Z -> option N) (O : Z -> Prop) (m0 : Z -> option N).
Hypothesis (Hn : 2 <= n) (Hnpt : n + 2 <= npt <= (n + 1) * (n + 2) / 2).
Let W (a : Z) : Prop := w <= a < w + work_size n npt.
Let X (a : Z) : Prop := x <= a < x + n.
Hypothesis HR : forall a, W a \/ X a -> Rd a /\ C a = None /\ O a.
Hypothesis Hxw : forall a, X a -> ~ W a.
Hypothesis Hcn : c_n ctx = n.
Hypothesis Hxl : forall i, 1 <= i <= n -> C (at1 xl i) = Some (lo i).
Hypothesis Hxu : forall i, 1 <= i <= n -> C (at1 xu i) = Some (hi i).
Hypothesis HRC : forall a v, C a = Some v -> Rd a.
Hypothesis Hscl : match c_scl ctx with
  | None => True
  | Some scl => forall i, 0 <= i < n ->
      C (scl + i) = Some (sc (i + 1)) /\
      Rd (c_ws ctx + i) /\ ~ W (c_ws ctx + i) /\ C (c_ws ctx + i) = None /\ O (c_ws ctx + i) /\
      (forall j, 1 <= j <= n -> at1 x j <> c_ws ctx + i)
  end.
(** The check of bobyqa.c lines 438-444 passed *)
Definition spaced : Prop := forall i, 1 <= i <= n -> nlt (nsub (hi i) (lo i)) (nadd rhobeg rhobeg) = false.
Hypothesis HB : spaced ->
  forall i, 1 <= i <= n -> box i (lo i) /\ box i (hi i) /\ forall v, box i (clamp v (lo i) (hi i)).
Hypothesis Hcast : cast_ok N n npt.
Notation st := (st Rd C n maxfun ctx sc box O m0).
Notation sx := (sx Rd C n maxfun x ctx sc box O m0).
Notation ht := (ht n maxfun ctx sc box O m0).

Let HWR a : W a -> Rd a.
Proof. intros H. apply HR. auto. Qed.
Let HCW a v : C a = Some v -> ~ W a.
Proof. intros H Ha. destruct (HR a (or_introl Ha)) as (_ & E & _). congruence. Qed.
Let HWO a : W a -> O a.
Proof. intros H. apply HR. auto. Qed.
Let Hx i : 1 <= i <= n -> Rd (at1 x i) /\ ~ W (at1 x i) /\ C (at1 x i) = None /\ O (at1 x i).
Proof.
  intros H. assert (Xi : X (at1 x i)) by (unfold X, at1; lia). destruct (HR _ (or_intror Xi)) as (A & B & D).
  repeat split; auto.
Qed.

(** The programs that write also the variables *)
Let WX (a : Z) : Prop := W a \/ X a.
Let HXR a : WX a -> Rd a.
Proof. intros H. apply HR, H. Qed.
Let HCX a v : C a = Some v -> ~ WX a.
Proof. intros H Ha. destruct (HR a Ha) as (_ & E & _). congruence. Qed.
Let HXO a : WX a -> O a.
Proof. intros H. apply HR, H. Qed.

Lemma isl_pos : 0 <= isl n npt /\ isl n npt + 2 * n <= work_size n npt.
Proof.
  pose proof (partition_end n npt). unfold iw_, ivl, id_, ixa, ixn, isu in H.
  split; [|unfold ndim_ in H; lia].
  unfold isl, izmat, ibmat, ipq, ihq_, igo, ixo, ifv, ixp, ixb, ndim_. pose proof (tri_half n). nia.
Qed.

Lemma opt_start_ht nf :
  ht (st nf) (opt_start n npt x rhobeg w xl xu)
    (fun r s => match r with inl _ => spaced | inr _ => True end /\ st nf s).
Proof.
  apply (ht_safe WX Rd C); [exact HXO|].
  unfold opt_start, opt_start_body.
  pose proof isl_pos as [P1 P2].
  eapply safe_weak.
  { apply (safe_loopxJ WX Rd C
      (fun j (_ : unit) => forall i, 1 <= i <= j -> nlt (nsub (hi i) (lo i)) (nadd rhobeg rhobeg) = false)
      (fun _ : unit => True)); [lia| |intros; lia].
  intros j [] Hj HJ.
  apply safe_bind with (fun t => t = nsub (hi (j + 1)) (lo (j + 1))).
  { intros s G. unfold lift2, bind, ld.
    replace (xu + j) with (at1 xu (j + 1)) by (unfold at1; lia). replace (xl + j) with (at1 xl (j + 1)) by (unfold at1; lia).
    rewrite (proj2 G _ _ (Hxu (j + 1) ltac:(lia))), (proj2 G _ _ (Hxl (j + 1) ltac:(lia))). cbn [ret].
    split; [reflexivity|]. split; [exact G|apply frame_refl]. }
  intros temp Et. destruct (nlt temp (nadd rhobeg rhobeg)) eqn:Es; [apply safe_ret; auto|].
  assert (A1 : safe WX Rd C (ld (xl + j)) (fun _ => True)).
  { apply safe_ld. replace (xl + j) with (at1 xl (j + 1)) by (unfold at1; lia). apply (HRC _ _ (Hxl (j + 1) ltac:(lia))). }
  assert (A2 : safe WX Rd C (ld (xu + j)) (fun _ => True)).
  { apply safe_ld. replace (xu + j) with (at1 xu (j + 1)) by (unfold at1; lia). apply (HRC _ _ (Hxu (j + 1) ltac:(lia))). }
  assert (B1 : WX (x + j)) by (right; unfold X; lia).
  assert (B2 : WX (w + (isl n npt + j))) by (left; unfold W; lia).
  assert (B3 : WX (w + (isl n npt + j) + n)) by (left; unfold W; lia).
  assert (A3 : safe WX Rd C (ld (x + j)) (fun _ => True)) by (apply safe_ld, HXR, B1).
  assert (A4 : safe WX Rd C (ld (w + (isl n npt + j))) (fun _ => True)) by (apply safe_ld, HXR, B2).
  assert (A5 : safe WX Rd C (ld (w + (isl n npt + j) + n)) (fun _ => True)) by (apply safe_ld, HXR, B3).
  cbv zeta.
  Ltac sx1 := first [assumption
    | lazymatch goal with |- safe _ _ _ (assign _ _) _ => apply safe_assign; [eassumption|eassumption|assumption|] end | sf1].
  repeat sx1; auto.
  intros i Hi. destruct (Z.eq_dec i (j + 1)) as [->|]; [congruence|apply HJ; lia]. }
  intros [u|u] Hr; cbv beta iota in *; auto. intros i Hi. apply Hr. lia.
Qed.

Lemma part_arr k l : 0 <= k -> k + l <= work_size n npt -> arr W (w + k) 1 l.
Proof. intros H1 H2 i Hi. unfold W, at1. lia. Qed.
Lemma part_arr0 k l : 1 <= k -> k + l <= work_size n npt -> arr W (w + k) 0 l.
Proof. intros H1 H2 i Hi. unfold W, at1. lia. Qed.
Lemma part_mat0 k r c : 1 <= k -> 0 <= r -> k + r * c <= work_size n npt -> mat W (w + k) r 0 r 1 c.
Proof. intros H1 H2 H3 i j Hi Hj. unfold W, at2. nia. Qed.

(** The final scaling *)
Lemma final_scale_ht nf :
  ht (sx nf) (match c_scl ctx with None => ret tt | Some scl => scale x n scl x end)
    (fun _ s => st nf s /\ forall i, 1 <= i <= n -> exists v, box i v /\
       mm s (at1 x i) = Some (match c_scl ctx with None => v | Some _ => nmul (sc i) v end)).
Proof.
  destruct (c_scl ctx) as [scl|] eqn:Es.
  2:{ apply ht_ret. intros s [Hs Hb]. split; [exact Hs|]. intros i Hi. destruct (Hb i Hi Logic.I) as [v [E B]]. exists v. auto. }
  unfold scale. eapply ht_weak.
  - apply (ht_loopJ n maxfun ctx sc box O m0 (fun i (_ : unit) s => st nf s /\
      (forall j, 1 <= j <= n -> i < j -> exists v, mm s (at1 x j) = Some v /\ box j v) /\
      (forall j, 1 <= j <= n -> j <= i -> exists v, box j v /\ mm s (at1 x j) = Some (nmul (sc j) v))) 0 (n - 1)); [lia|].
    intros i [] Hi s (Hs & H1 & H2).
    destruct (Hscl i) as (Ci & _); [lia|]. destruct Hs as (G & G1 & G2 & G3 & G4).
    destruct (H1 (i + 1)) as [v [Ev Bv]]; [lia|lia|].
    assert (Eai : at1 x (i + 1) = x + i) by (unfold at1; lia). rewrite Eai in Ev.
    unfold assign, lift2, bind, ld. rewrite (proj2 G _ _ Ci), Ev. cbn [ret]. unfold sto. rewrite Ev.
    assert (Xi : X (x + i)) by (unfold X; lia). destruct (HR _ (or_intror Xi)) as (A & B & D).
    destruct G as [Ga Gb]. split; [|split].
    + split; [split; cbn|].
      * intros b Hb. destruct (Z.eqb_spec b (x + i)); eauto.
      * intros b u Hb. destruct (Z.eqb_spec b (x + i)) as [->|]; [congruence|auto].
      * repeat split; auto. intros b Hb. cbn. destruct (Z.eqb_spec b (x + i)) as [->|]; [contradiction|auto].
    + intros j Hj L. cbn. destruct (Z.eqb_spec (at1 x j) (x + i)) as [e|]; [unfold at1 in e; lia|]. apply H1; lia.
    + intros j Hj L. cbn. destruct (Z.eqb_spec (at1 x j) (x + i)) as [e|e].
      * assert (j = i + 1) by (unfold at1 in e; lia). subst j. eauto.
      * apply H2; [auto|]. unfold at1 in e. lia.
  - intros s [Hs Hb]. split; [exact Hs|]. split; [intros j Hj _; apply Hb; auto|intros j Hj L; lia].
  - intros _ s (Hs & _ & H2). split; [exact Hs|]. intros i Hi. apply H2; lia.
Qed.

Lemma opt_run_ht fuel :
  ht (st 0) (opt_run n npt x rhobeg rhoend maxfun w fuel ctx xl xu)
    (fun status s => E n maxfun ctx sc box O m0 s /\
      (status <> BQ_TOO_CLOSE -> forall i, 1 <= i <= n -> exists v, box i v /\
         mm s (at1 x i) = Some (match c_scl ctx with None => v | Some _ => nmul (sc i) v end))).
Proof.
  unfold opt_run. eapply ht_bind; [apply opt_start_ht|]. intros [u|u]; cbv beta iota.
  2:{ apply ht_ret. intros s [_ Hs]. split; [exact (st_E _ _ _ _ _ _ _ _ _ 0 s Hs)|congruence]. }
  apply ht_ctx. intros Hsp. specialize (HB Hsp).
  pose proof (partition_end n npt) as Pe. pose proof (tri_half n) as Ht.
  assert (Q : 0 <= n * npt /\ 0 <= n * (n + 1) / 2 /\ 0 <= (npt + n) * n /\ 0 <= npt * (npt - (n + 1))) by nia.
  destruct Q as (Q1 & Q2 & Q3 & Q4).
  pose proof (part_arr ixb n) as A1. pose proof (part_mat0 (ixp n) npt n) as A2. pose proof (part_arr0 (ifv n npt) npt) as A3.
  pose proof (part_arr (ixo n npt) n) as A4. pose proof (part_arr (igo n npt) n) as A5.
  pose proof (part_arr0 (ihq_ n npt) (n * (n + 1) / 2)) as A6. pose proof (part_arr0 (ipq n npt) npt) as A7.
  pose proof (part_mat0 (ibmat n npt) (ndim_ n npt) n) as A8. pose proof (part_mat0 (izmat n npt) npt (npt - n - 1)) as A9.
  pose proof (part_arr (isl n npt) n) as A10. pose proof (part_arr (isu n npt) n) as A11.
  pose proof (part_arr (ixn n npt) n) as A12. pose proof (part_arr (ixa n npt) n) as A13.
  pose proof (part_arr (id_ n npt) n) as A14. pose proof (part_arr0 (ivl n npt) (ndim_ n npt)) as A15.
  pose proof (part_arr0 (iw_ n npt) (3 * ndim_ n npt)) as A16.
  assert (B : 0 <= ixb /\ ixb + n = ixp n /\ ixp n + npt * n = ifv n npt /\ ifv n npt + npt = ixo n npt /\ ixo n npt + n = igo n npt /\
    igo n npt + n = ihq_ n npt /\ ihq_ n npt + n * (n + 1) / 2 = ipq n npt /\ ipq n npt + npt = ibmat n npt /\
    ibmat n npt + ndim_ n npt * n = izmat n npt /\ izmat n npt + npt * (npt - n - 1) = isl n npt /\ isl n npt + n = isu n npt /\
    isu n npt + n = ixn n npt /\ ixn n npt + n = ixa n npt /\ ixa n npt + n = id_ n npt /\ id_ n npt + n = ivl n npt /\
    ivl n npt + ndim_ n npt = iw_ n npt).
  { unfold iw_, ivl, id_, ixa, ixn, isu, isl, izmat, ibmat, ipq, ihq_, igo, ixo, ifv, ixp, ixb. repeat split; lia. }
  assert (Q5 : 0 <= npt * (npt - n - 1)) by nia. fold (ndim_ n npt) in Q3. assert (Qd : 0 <= ndim_ n npt) by (unfold ndim_; lia).
  eapply ht_bind.
  { apply (bobyqb_ht W Rd C HWR HCW n npt ctx x xl xu rhobeg rhoend maxfun) with (lo := lo) (hi := hi);
      [exact Hn|exact Hnpt|reflexivity|apply A1|apply A2|apply A3|apply A4|apply A5|apply A6|apply A7|apply A8|apply A9|apply A10
      |apply A11|apply A12|apply A13|apply A14|apply A15|..]; try lia.
    all: try assumption. all: try (apply A16; lia).
    all: try (intros i Hi; apply HWR;
      first [apply A1|apply A3|apply A4|apply A5|apply A6|apply A7|apply A10|apply A11|apply A12|apply A13|apply A14|apply A15|apply A16]; lia).
    all: intros i j Hi Hj; apply HWR; first [apply A2|apply A8|apply A9]; lia. }
  intros status. cbv beta. apply ht_ex. intros nf.
  eapply ht_bind; [apply final_scale_ht|]. intros u1. cbv beta.
  assert (Ww : W w) by (unfold W, work_size; pose proof (w_half n); nia).
  intros s [Hs Hf].
  assert (S : safe W Rd C (assign w (lift2 nmul (ld w) (ret (c_sgn ctx)))) (fun _ => True)).
  { apply safe_assign; auto. apply safe_lift2; [apply safe_ld; auto|apply safe_ret; auto]. }
  assert (K := ht_safe W Rd C n maxfun ctx sc box O m0 HWO _ _ nf S s Hs).
  specialize (S s (proj1 Hs)). unfold bind. destruct (assign w _ s) as [a s'|s'|s'|s'] eqn:Ea; auto.
  cbn [ret]. destruct K as [_ K]. destruct S as (_ & _ & [F _]). split; [exact (st_E _ _ _ _ _ _ _ _ _ nf s' K)|].
  intros _ i Hi. destruct (Hf i Hi) as [v [Bv Ev]]. exists v. split; [exact Bv|]. rewrite F; [exact Ev|]. apply Hx, Hi.
Qed.
End Opt.

(** ** The whole of bobyqa_optimize *)
Section All.
Context {N : Num}.
Notation mst := (mst N).
Variables (n npt : Z) (maximize : bool) (fn : list (list N * N) -> list N -> N) (x xl xu : Z) (scl : option Z).
Variables (rhobeg rhoend : N) (maxfun w : Z) (fuel : nat) (s : mst).
Hypothesis HL : layout n npt x xl xu scl w s.
Hypothesis He : evs s = [].
Hypothesis Hcast : 2 <= n -> n + 2 <= npt <= (n + 1) * (n + 2) / 2 -> cast_ok N n npt.
(** The values of the bounds and of the scaling factors *)
Variables (lo hi sc : Z -> N).
Hypothesis Hlo : forall i, 1 <= i <= n -> mm s (at1 xl i) = Some (lo i).
Hypothesis Hhi : forall i, 1 <= i <= n -> mm s (at1 xu i) = Some (hi i).
Hypothesis Hsc : forall a i, scl = Some a -> 1 <= i <= n -> mm s (at1 a i) = Some (sc i).
(** The possible values of the variables *)
Variable pt : Z -> N -> Prop.
Definition clamps (box : Z -> N -> Prop) (lo hi : Z -> N) : Prop :=
  forall i, 1 <= i <= n -> box i (lo i) /\ box i (hi i) /\ forall v, box i (clamp v (lo i) (hi i)).
Definition sclok : Prop := forall i, 1 <= i <= n ->
  neq (sc i) (nZ 1) = true \/ neq (nsub (sc i) (sc i)) (nZ 0) = true /\ nle (sc i) (nZ 0) = false.
Definition slo (i : Z) : N := nmul (ndiv (nZ 1) (sc i)) (lo i).
Definition shi (i : Z) : N := nmul (ndiv (nZ 1) (sc i)) (hi i).
Hypothesis Hok : nle rhoend (nZ 0) = false -> nlt rhobeg rhoend = false -> spaced n rhobeg lo hi -> clamps pt lo hi.
Hypothesis Hoks : scl <> None -> sclok -> nle rhoend (nZ 0) = false -> nlt rhobeg rhoend = false -> spaced n rhobeg slo shi ->
  clamps (fun i v => pt i (nmul (sc i) v)) slo shi.

Definition point (p : list N) : Prop :=
  length p = Z.to_nat n /\ forall i, 1 <= i <= n -> exists v, pt i v /\ nth_error p (Z.to_nat (i - 1)) = Some v.
Definition refused (r : bstatus) : Prop :=
  r = BQ_BAD_NVARS \/ r = BQ_BAD_NPT \/ r = BQ_BAD_RHO_RANGE \/ r = BQ_BAD_SCALING \/ r = BQ_TOO_CLOSE.

Definition allres (o : out N bstatus) : Prop :=
  exists s', final o = Some s' /\
    (forall a, ~ outputs n npt x scl w a -> mm s' a = mm s a) /\
    Z.of_nat (length (evs s')) <= Z.max 1 maxfun /\
    Forall (fun e => point (fst e)) (evs s') /\
    (forall r s1, o = Ret r s1 -> ~ refused r -> forall i, 1 <= i <= n -> exists v, pt i v /\ mm s' (at1 x i) = Some v).

Lemma allres_ret r : refused r -> allres (Ret r s).
Proof.
  intros Hr. exists s. cbn [final]. rewrite He. cbn. split; [reflexivity|]. split; [auto|]. split; [lia|]. split; [constructor|].
  intros r0 s1 E. injection E as -> ->. contradiction.
Qed.

Lemma cells1 (s0 : mst) a k i : cells s0 a k -> 1 <= i <= k -> exists v, mm s0 (at1 a i) = Some v.
Proof. intros H Hi. destruct (H (i - 1)) as [v E]; [lia|]. exists v. rewrite <- E. f_equal. Qed.

Lemma ws_doc : work_size n npt + match scl with None => 0 | Some _ => 3 * n end = doc_size n npt scl.
Proof. reflexivity. Qed.

Definition outb (a : Z) : bool := (((x <=? a) && (a <? x + n)) || ((w <=? a) && (a <? w + work_size n npt)))%bool.
Lemma outbP a : outb a = true <-> w <= a < w + work_size n npt \/ x <= a < x + n.
Proof. unfold outb. rewrite orb_true_iff, !andb_true_iff, !Z.leb_le, !Z.ltb_lt. lia. Qed.
Lemma outb_outputs a : 0 <= n -> outb a = true -> outputs n npt x scl w a.
Proof.
  intros H0 H. apply outbP in H. unfold outputs. pose proof ws_doc. destruct H as [H|H]; [right|left; exact H].
  destruct scl; lia.
Qed.

Hypothesis (Hn : 2 <= n) (Hnpt : n + 2 <= npt <= (n + 1) * (n + 2) / 2).
Hypothesis (Hr1 : nle rhoend (nZ 0) = false) (Hr2 : nlt rhobeg rhoend = false).

Lemma apart_not_out a k i : apart a k x n -> apart a k w (doc_size n npt scl) -> 1 <= i <= k -> outb (at1 a i) = false.
Proof.
  intros H1 H2 Hi. destruct (outb (at1 a i)) eqn:E; [|reflexivity]. apply outbP in E. unfold apart, at1 in *.
  pose proof ws_doc. exfalso. destruct scl; lia.
Qed.

(** Without scaling *)
Lemma run_plain sgn : allres (opt_run n npt x rhobeg rhoend maxfun w fuel (mkctx fn None 0 sgn n) xl xu s).
Proof.
  assert (Hs := opt_run_ht n npt (mkctx fn None 0 sgn n) x xl xu rhobeg rhoend maxfun w lo hi sc pt
    (fun a => exists v, mm s a = Some v) (fun a => if outb a then None else mm s a) (fun a => outputs n npt x scl w a) (mm s)
    Hn Hnpt).
  pose proof ws_doc as Ew.
  destruct HL as [L1 L2 L3 L4 L5 L6 L7 L8 L9 L10 L11].
  assert (Hd : 0 <= doc_size n npt scl - work_size n npt) by (destruct scl; lia).
  specialize (Hs). lapply Hs; clear Hs; [intros Hs|].
  2:{ intros a Ha. assert (Eo : outb a = true) by (apply outbP; exact Ha). rewrite Eo. split; [|split; [reflexivity|]].
      - destruct Ha as [Ha|Ha].
        + destruct (L5 (a - w)) as [v E]; [lia|]. exists v. rewrite <- E. f_equal. lia.
        + destruct (L1 (a - x)) as [v E]; [lia|]. exists v. rewrite <- E. f_equal. lia.
      - apply outb_outputs; [lia|exact Eo]. }
  lapply Hs; clear Hs; [intros Hs|].
  2:{ intros a Ha Hb. unfold apart in L6. lia. }
  specialize (Hs eq_refl).
  lapply Hs; clear Hs; [intros Hs|].
  2:{ intros i Hi. rewrite (apart_not_out xl n i) by assumption. apply Hlo, Hi. }
  lapply Hs; clear Hs; [intros Hs|].
  2:{ intros i Hi. rewrite (apart_not_out xu n i) by assumption. apply Hhi, Hi. }
  lapply Hs; clear Hs; [intros Hs|].
  2:{ intros a v. destruct (outb a); [discriminate|]. eauto. }
  specialize (Hs Logic.I (Hok Hr1 Hr2) (Hcast Hn Hnpt) fuel s).
  lapply Hs; clear Hs; [intros Hs|].
  2:{ split; [split; auto; intros a v; destruct (outb a); [discriminate|auto]|].
      split; [unfold evsok; rewrite He; constructor|]. rewrite He. cbn. split; [reflexivity|]. split; [lia|].
      intros a Ha. reflexivity. }
  destruct (opt_run _ _ _ _ _ _ _ _ _ _ _ s) as [r s'|s'|s'|s'] eqn:Er; cbn beta iota in Hs.
  - destruct Hs as [(H1 & H2 & H3) H4]. exists s'. cbn [final]. split; [reflexivity|]. split; [exact H3|]. split; [exact H2|].
    split; [exact H1|]. intros r0 s1 E Hr i Hi. injection E as -> ->. apply H4; [|exact Hi]. intros ->. apply Hr. unfold refused. tauto.
  - destruct Hs.
  - destruct Hs as (H1 & H2 & H3). exists s'. split; [reflexivity|]. split; [exact H3|]. split; [exact H2|]. split; [exact H1|].
    discriminate.
  - destruct Hs as (H1 & H2 & H3). exists s'. split; [reflexivity|]. split; [exact H3|]. split; [exact H2|]. split; [exact H1|].
    discriminate.
Qed.

(** The scaling of the bounds *)
Lemma scale_spec a tl tu : scl = Some a -> tl = w + work_size n npt + n -> tu = tl + n ->
  exists s1, opt_scale n x xl xu a tl tu s = Ret tt s1 /\ evs s1 = [] /\
    (forall b, ~ outputs n npt x scl w b -> mm s1 b = mm s b) /\
    (forall b, (exists v, mm s b = Some v) -> exists v, mm s1 b = Some v) /\
    (forall i, 1 <= i <= n -> mm s1 (at1 tl i) = Some (slo i) /\ mm s1 (at1 tu i) = Some (shi i)).
Proof.
  intros Ea -> ->. destruct HL as [L1 L2 L3 L4 L5 L6 L7 L8 L9 L10 L11]. pose proof ws_doc as Ew.
  assert (Hlo' := Hlo). assert (Hhi' := Hhi). assert (Hsc' := Hsc a). rewrite Ea in *.
  assert (Hw : 0 <= work_size n npt) by (unfold work_size; pose proof (w_half n); nia).
  unfold opt_scale, loop.
  assert (Hk : (Z.to_nat (n - 1 - 0 + 1) = Z.to_nat n)) by lia. rewrite Hk. clear Hk.
  set (tl := w + work_size n npt + n).
  set (body := fun (j : Z) (_ : unit) => _).
  assert (K : forall k, Z.of_nat k <= n -> forall s0,
    evs s0 = [] -> (forall b, ~ outputs n npt x (Some a) w b -> mm s0 b = mm s b) ->
    (forall b, (exists v, mm s b = Some v) -> exists v, mm s0 b = Some v) ->
    (forall i, 1 <= i <= n - Z.of_nat k -> mm s0 (at1 tl i) = Some (slo i) /\ mm s0 (at1 (tl + n) i) = Some (shi i)) ->
    exists s1, loopn k (n - Z.of_nat k) body tt s0 = Ret tt s1 /\ evs s1 = [] /\
    (forall b, ~ outputs n npt x (Some a) w b -> mm s1 b = mm s b) /\
    (forall b, (exists v, mm s b = Some v) -> exists v, mm s1 b = Some v) /\
    (forall i, 1 <= i <= n -> mm s1 (at1 tl i) = Some (slo i) /\ mm s1 (at1 (tl + n) i) = Some (shi i))).
  2:{ destruct (K (Z.to_nat n) ltac:(lia) s He ltac:(auto) ltac:(auto)) as (s1 & H1); [intros; lia|].
      replace (n - Z.of_nat (Z.to_nat n)) with 0 in H1 by lia. exists s1. exact H1. }
  induction k as [|k IH]; intros Hk s0 E0 F0 D0 T0.
  { exists s0. cbn [loopn ret]. rewrite Z.sub_0_r in T0. repeat split; auto; apply T0; auto. }
  set (j := n - Z.of_nat (S k)) in *.
  assert (Hj : 0 <= j < n) by lia.
  assert (G1 : mm s0 (a + j) = Some (sc (j + 1))).
  { rewrite F0; [|unfold outputs, apart in *; lia]. rewrite <- (Hsc' (j + 1)); [f_equal; unfold at1; lia|reflexivity|lia]. }
  assert (G2 : mm s0 (xl + j) = Some (lo (j + 1))).
  { rewrite F0; [|unfold outputs, apart in *; lia]. rewrite <- (Hlo' (j + 1)); [f_equal; unfold at1; lia|lia]. }
  assert (G3 : mm s0 (xu + j) = Some (hi (j + 1))).
  { rewrite F0; [|unfold outputs, apart in *; lia]. rewrite <- (Hhi' (j + 1)); [f_equal; unfold at1; lia|lia]. }
  destruct (D0 (x + j)) as [vx G4]; [apply L1, Hj|].
  destruct (D0 (tl + j)) as [vl G5].
  { destruct (L5 (work_size n npt + n + j)) as [v E]; [lia|]. exists v. rewrite <- E. f_equal. unfold tl. lia. }
  destruct (D0 (tl + n + j)) as [vu G6].
  { destruct (L5 (work_size n npt + n + n + j)) as [v E]; [lia|]. exists v. rewrite <- E. f_equal. unfold tl. lia. }
  cbn [loopn]. unfold bind at 1.
  assert (Ebody : body j tt s0 = Ret tt (mkmst (fun b => if b =? tl + n + j then Some (shi (j + 1)) else
     if b =? tl + j then Some (slo (j + 1)) else if b =? x + j then Some (nmul vx (ndiv (nZ 1) (sc (j + 1)))) else mm s0 b) (evs s0))).
  { unfold body, assign, lift2, bind, ld, sto, ret, one. rewrite G1. rewrite G4. cbn [mm evs]. rewrite ?G4. cbn [mm evs].
    assert (xl + j =? x + j = false) as -> by (unfold apart in *; lia). rewrite G2. cbn [mm evs].
    assert (tl + j =? x + j = false) as -> by (unfold apart in *; lia). rewrite G5. cbn [mm evs].
    assert (xu + j =? tl + j = false) as -> by (unfold apart in *; lia).
    assert (xu + j =? x + j = false) as -> by (unfold apart in *; lia). rewrite G3. cbn [mm evs].
    assert (tl + n + j =? tl + j = false) as -> by lia.
    assert (tl + n + j =? x + j = false) as -> by (unfold apart in *; lia). rewrite G6. cbn [mm evs]. reflexivity. }
  rewrite Ebody. replace (j + 1) with (n - Z.of_nat k) by lia. apply IH; [lia|exact E0|..].
  - intros b Hb. cbn. unfold outputs in Hb.
    assert (b =? tl + n + j = false) as -> by lia. assert (b =? tl + j = false) as -> by lia.
    assert (b =? x + j = false) as -> by lia. apply F0. exact Hb.
  - intros b Hb. cbn. destruct (b =? tl + n + j); [eauto|]. destruct (b =? tl + j); [eauto|]. destruct (b =? x + j); eauto.
  - intros i Hi. cbn. unfold at1.
    assert (tl + (i - 1) =? tl + n + j = false) as -> by lia.
    assert (tl + (i - 1) =? x + j = false) as -> by (unfold apart in *; lia).
    assert (tl + n + (i - 1) =? tl + j = false) as -> by lia.
    assert (tl + n + (i - 1) =? x + j = false) as -> by (unfold apart in *; lia).
    destruct (Z.eqb_spec (tl + (i - 1)) (tl + j)) as [e|e].
    + assert (tl + n + (i - 1) =? tl + n + j = true) as -> by lia. assert (Ej : n - Z.of_nat k = i) by lia. rewrite Ej. auto.
    + assert (tl + n + (i - 1) =? tl + n + j = false) as -> by lia. apply T0. lia.
Qed.

Lemma run_scaled a sgn tx : scl = Some a -> sclok -> tx = w + work_size n npt ->
  forall s1, opt_scale n x xl xu a (tx + n) (tx + n + n) s = Ret tt s1 ->
  allres (opt_run n npt x rhobeg rhoend maxfun w fuel (mkctx fn (Some a) tx sgn n) (tx + n) (tx + n + n) s1).
Proof.
  intros Ea Hsok Etx s1 Es1.
  destruct (scale_spec a (tx + n) (tx + n + n) Ea ltac:(lia) eq_refl) as (s2 & E2 & V2 & F2 & D2 & T2).
  rewrite E2 in Es1. injection Es1 as ->.
  assert (Hw : 0 <= work_size n npt) by (unfold work_size; pose proof (w_half n); nia).
  set (kb := fun b : Z => (outb b || ((tx <=? b) && (b <? tx + n)))%bool).
  assert (kbP : forall b, kb b = true <-> outb b = true \/ tx <= b < tx + n).
  { intros b. unfold kb. rewrite orb_true_iff, andb_true_iff, Z.leb_le, Z.ltb_lt. tauto. }
  assert (Hs := opt_run_ht n npt (mkctx fn (Some a) tx sgn n) x (tx + n) (tx + n + n) rhobeg rhoend maxfun w slo shi sc
    (fun i v => pt i (nmul (sc i) v))
    (fun b => exists v, mm s1 b = Some v) (fun b => if kb b then None else mm s1 b) (fun b => outputs n npt x scl w b) (mm s)
    Hn Hnpt).
  pose proof ws_doc as Ew.
  destruct HL as [L1 L2 L3 L4 L5 L6 L7 L8 L9 L10 L11]. rewrite Ea in Ew, L4, L5, L6, L7, L8, L11.
  lapply Hs; clear Hs; [intros Hs|].
  2:{ intros b Hb. assert (Eo : outb b = true) by (apply outbP; exact Hb).
      assert (kb b = true) as -> by (apply kbP; auto). split; [|split; [reflexivity|]].
      - apply D2. destruct Hb as [Hb|Hb].
        + destruct (L5 (b - w)) as [v E]; [lia|]. exists v. rewrite <- E. f_equal. lia.
        + destruct (L1 (b - x)) as [v E]; [lia|]. exists v. rewrite <- E. f_equal. lia.
      - apply outb_outputs; [lia|exact Eo]. }
  lapply Hs; clear Hs; [intros Hs|].
  2:{ intros b Hb Hb'. unfold apart in L6. lia. }
  specialize (Hs eq_refl).
  assert (Kt : forall b, tx + n <= b < tx + n + 2 * n -> kb b = false).
  { intros b Hb. destruct (kb b) eqn:E; [|reflexivity]. apply kbP in E. rewrite outbP in E. unfold apart in L6. lia. }
  lapply Hs; clear Hs; [intros Hs|].
  2:{ intros i Hi. rewrite Kt by (unfold at1; lia). apply T2, Hi. }
  lapply Hs; clear Hs; [intros Hs|].
  2:{ intros i Hi. rewrite Kt by (unfold at1; lia). apply T2, Hi. }
  lapply Hs; clear Hs; [intros Hs|].
  2:{ intros b v. destruct (kb b); [discriminate|]. eauto. }
  lapply Hs; clear Hs; [intros Hs|].
  2:{ cbn [c_scl c_ws]. intros i Hi. split; [|split; [|split; [|split; [|split]]]].
      - assert (kb (a + i) = false) as ->.
        { destruct (kb (a + i)) eqn:E; [|reflexivity]. apply kbP in E. rewrite outbP in E. unfold apart in *. lia. }
        rewrite F2; [|rewrite Ea; unfold outputs, apart in *; lia].
        rewrite <- (Hsc a (i + 1) Ea) by lia. f_equal. unfold at1. lia.
      - apply D2. destruct (L5 (work_size n npt + i)) as [v E]; [lia|]. exists v. rewrite <- E. f_equal. lia.
      - lia.
      - assert (kb (tx + i) = true) as -> by (apply kbP; right; lia). reflexivity.
      - rewrite Ea. unfold outputs. lia.
      - intros k Hk. unfold at1, apart in *. lia. }
  assert (Hne : scl <> None) by congruence.
  specialize (Hs (Hoks Hne Hsok Hr1 Hr2) (Hcast Hn Hnpt) fuel s1).
  lapply Hs; clear Hs; [intros Hs|].
  2:{ split; [split; auto; intros b v; destruct (kb b); [discriminate|auto]|].
      split; [unfold evsok; rewrite V2; constructor|]. rewrite V2. cbn. split; [reflexivity|]. split; [lia|].
      intros b Hb. apply F2, Hb. }
  assert (Q : forall s0, evsok n (mkctx fn (Some a) tx sgn n) sc (fun i v => pt i (nmul (sc i) v)) s0 ->
    Forall (fun e => point (fst e)) (evs s0)).
  { intros s0 H0. eapply Forall_impl; [|exact H0]. intros e [H1 H2]. split; [exact H1|]. intros i Hi.
    destruct (H2 i Hi) as [v [Bv Ev]]. cbn [c_scl] in Ev. eauto. }
  destruct (opt_run _ _ _ _ _ _ _ _ _ _ _ s1) as [r s'|s'|s'|s'] eqn:Er; cbn beta iota in Hs.
  - destruct Hs as [(H1 & H2 & H3) H4]. exists s'. cbn [final]. split; [reflexivity|]. split; [exact H3|]. split; [exact H2|].
    split; [exact (Q _ H1)|]. intros r0 s3 E Hr i Hi. injection E as -> ->.
    destruct (H4 ltac:(intros ->; apply Hr; unfold refused; tauto) i Hi) as [v [Bv Ev]]. cbn [c_scl] in Ev. eauto.
  - destruct Hs.
  - destruct Hs as (H1 & H2 & H3). exists s'. split; [reflexivity|]. split; [exact H3|]. split; [exact H2|]. split; [exact (Q _ H1)|].
    discriminate.
  - destruct Hs as (H1 & H2 & H3). exists s'. split; [reflexivity|]. split; [exact H3|]. split; [exact H2|]. split; [exact (Q _ H1)|].
    discriminate.
Qed.

(** The scaling factors *)
Lemma check_scl_spec a : scl = Some a ->
  exists r, opt_check_scl n a s = Ret r s /\ (r = Some true -> sclok).
Proof.
  intros Ea. assert (Hsc' := fun i => Hsc a i Ea). unfold opt_check_scl, loopx.
  replace (Z.to_nat (n - 1 - 0 + 1)) with (Z.to_nat n) by lia.
  set (body := fun (j : Z) (scaling : bool) => _).
  assert (K : forall k b, Z.of_nat k <= n ->
    (forall i, 1 <= i <= n - Z.of_nat k ->
       neq (sc i) (nZ 1) = true \/ neq (nsub (sc i) (sc i)) (nZ 0) = true /\ nle (sc i) (nZ 0) = false) ->
    exists r, loopxn k (n - Z.of_nat k) body b s = Ret r s /\ match r with inl _ => sclok | inr _ => True end).
  { induction k as [|k IH]; intros b Hk H.
    - exists (inl b). cbn [loopxn ret]. split; [reflexivity|]. intros i Hi. apply H. lia.
    - set (j := n - Z.of_nat (S k)) in *.
      assert (G : mm s (a + j) = Some (sc (j + 1))).
      { rewrite <- (Hsc' (j + 1)) by lia. f_equal. unfold at1. lia. }
      cbn [loopxn]. unfold bind, body. unfold bind, ld. rewrite G.
      fold body. replace (j + 1) with (n - Z.of_nat k) in * by lia.
      destruct (neq (sc (n - Z.of_nat k)) one) eqn:E1.
      { cbn [ret]. apply IH; [lia|]. intros i Hi. destruct (Z.eq_dec i (n - Z.of_nat k)) as [->|]; [left; exact E1|apply H; lia]. }
      destruct (neq (nsub (sc (n - Z.of_nat k)) (sc (n - Z.of_nat k))) zero) eqn:E3; cbn [negb orb].
      2:{ exists (inr tt). cbn [ret]. auto. }
      destruct (nle (sc (n - Z.of_nat k)) zero) eqn:E4.
      { exists (inr tt). cbn [ret]. auto. }
      cbn [ret]. apply IH; [lia|]. intros i Hi. destruct (Z.eq_dec i (n - Z.of_nat k)) as [->|]; [right; auto|apply H; lia]. }
  destruct (K (Z.to_nat n) false ltac:(lia) ltac:(intros; lia)) as (r & E & Q).
  replace (n - Z.of_nat (Z.to_nat n)) with 0 in E by lia.
  unfold bind at 1. rewrite E. destruct r as [b|u].
  - exists (Some b). split; [reflexivity|]. intros _. exact Q.
  - exists None. split; [reflexivity|discriminate].
Qed.
End All.

Theorem optimize_all {N : Num} n npt maximize fn x xl xu scl (rhobeg rhoend : N) maxfun w fuel s :
  layout n npt x xl xu scl w s -> evs s = [] ->
  (2 <= n -> n + 2 <= npt <= (n + 1) * (n + 2) / 2 -> cast_ok N n npt) ->
  forall lo hi sc : Z -> N,
  (forall i, 1 <= i <= n -> mm s (at1 xl i) = Some (lo i)) ->
  (forall i, 1 <= i <= n -> mm s (at1 xu i) = Some (hi i)) ->
  (forall a i, scl = Some a -> 1 <= i <= n -> mm s (at1 a i) = Some (sc i)) ->
  forall pt : Z -> N -> Prop,
  (nle rhoend (nZ 0) = false -> nlt rhobeg rhoend = false -> spaced n rhobeg lo hi -> clamps n pt lo hi) ->
  (scl <> None -> sclok n sc -> nle rhoend (nZ 0) = false -> nlt rhobeg rhoend = false ->
     spaced n rhobeg (slo lo sc) (shi hi sc) -> clamps n (fun i v => pt i (nmul (sc i) v)) (slo lo sc) (shi hi sc)) ->
  allres n npt x scl maxfun w s pt
    (bobyqa_optimize n npt maximize fn x xl xu scl rhobeg rhoend maxfun w fuel s).
Proof.
  intros HL He Hcast lo hi sc Hlo Hhi Hsc pt Hok Hoks. unfold bobyqa_optimize.
  destruct (Z.ltb_spec n 2) as [Hn|Hn]; [eapply allres_ret; eauto; unfold refused; auto|].
  destruct (Z.ltb_spec npt (n + 2)) as [Hp|Hp]; [eapply allres_ret; eauto; unfold refused; auto|].
  destruct (Z.ltb_spec ((n + 2) * (n + 1) / 2) npt) as [Hq|Hq]; cbn [orb]; [eapply allres_ret; eauto; unfold refused; auto|].
  destruct (nle rhoend zero) eqn:Hr1; cbn [orb]; [eapply allres_ret; eauto; unfold refused; auto|].
  destruct (nlt rhobeg rhoend) eqn:Hr2; [eapply allres_ret; eauto; unfold refused; auto|].
  assert (Hnpt : n + 2 <= npt <= (n + 1) * (n + 2) / 2) by (rewrite (Z.mul_comm (n + 1)); lia).
  set (sgn := if maximize then _ else _).
  destruct scl as [a|] eqn:Ea.
  2:{ eapply run_plain; eauto. }
  destruct (check_scl_spec n (Some a) s sc Hsc Hn a eq_refl) as (r & Er & Hr).
  unfold bind at 1. rewrite Er. destruct r as [[|]|].
  - cbv zeta. set (tx := w + work_size n npt).
    destruct (scale_spec n npt x xl xu (Some a) rhobeg rhoend w s HL He lo hi sc Hlo Hhi Hsc pt ltac:(auto) Hn Hnpt a
      (tx + n) (tx + n + n) eq_refl) as (s1 & E1 & _); [reflexivity|reflexivity|].
    unfold bind at 1. rewrite E1.
    eapply (run_scaled n npt fn x xl xu (Some a)) with (s1 := s1); eauto.
  - eapply run_plain; eauto.
  - eapply allres_ret; eauto; unfold refused; auto.
Qed.
