(** * Accesses of the main loop of cobyla.c *)
From Coq Require Import ZArith List Bool Lia.
From Verif Require Import Num BqLang BqModel BqWp BqSafe BqRun NwTop CbModel CbSpec CbSafe.
Import ListNotations.
Local Open Scope Z_scope.

Ltac cvs := cbn [c_parmu c_parsig c_prerec c_prerem c_rho c_f c_resmax c_ibrnch c_iflag c_ifull c_jdrop c_nfvals c_status
  p_parmu p_parsig p_prerec p_prerem p_rho p_f p_resmax p_ibrnch p_iflag p_ifull p_jdrop p_nfvals p_status fst snd] in *.

Lemma ok_loopJ {N : Num} (E : mst N -> Prop) {A} (J : Z -> A -> mst N -> Prop) lo hi body (a : A) s :
  (forall i a s, lo <= i <= hi -> J i a s -> ok E (body i a) s (J (i + 1))) -> lo <= hi + 1 -> J lo a s ->
  ok E (loop lo hi body a) s (J (hi + 1)).
Proof.
  intros Hb Hlo Ha. unfold loop.
  assert (K : forall k lo a s, lo + Z.of_nat k = hi + 1 -> (forall i a s, lo <= i <= hi -> J i a s -> ok E (body i a) s (J (i + 1))) ->
    J lo a s -> ok E (loopn k lo body a) s (J (hi + 1))).
  { clear. induction k as [|k IH]; intros lo a s Ek Hb Ha; cbn [loopn].
    - apply ok_ret. replace (hi + 1) with lo by lia. exact Ha.
    - eapply ok_bind; [apply Hb; [lia|exact Ha]|]. intros a' s' H. apply IH; [lia| |exact H]. intros i b t Hi. apply Hb. lia. }
  apply K; auto. lia.
Qed.

Section Main.
Context {N : Num}.
Hypothesis HLaws : CbLaws N.
Let Heq : neq (zero : N) zero = true := cl_zero HLaws.
Variables (W Rd : Z -> Prop) (C : Z -> option N).
Hypothesis WRd : forall a, W a -> Rd a.
Hypothesis CW : forall a v, C a = Some v -> ~ W a.
Notation safe := (safe W Rd C).
Variables (n m x : Z) (rhobeg rhoend : N) (maxfun : Z).
Variables (con sim simi datmat a vsig veta sigbar dx w : Z) (cc : option Z).
Hypothesis (Hn : 1 <= n) (Hm : 0 <= m).
Notation np := (n + 1).
Notation mp := (m + 1).
Notation mpp := (m + 2).
Hypothesis (Ax : arr W x 1 n) (Acon : arr W con 1 mpp) (Asim : mat W sim n 1 n 1 np) (Asimi : mat W simi n 1 n 1 n)
  (Adat : mat W datmat mpp 1 mpp 1 np) (Aa : mat W a n 1 n 1 mp) (Avsig : arr W vsig 1 n) (Aveta : arr W veta 1 n)
  (Asig : arr W sigbar 1 n) (Adx : arr W dx 1 n) (Aw : arr W w 1 n).
(** The arrays of trstlp in W, with the elements of index 0 *)
Hypothesis (Az : mat W w n 1 n 0 n) (Azd : arr W (w + n * n) 0 n) (Avc : arr W (w + n * n + n) 0 mp)
  (Asd : arr W (w + n * n + n + mp) 1 n) (Adn : arr W (w + n * n + n + mp + n) 1 n)
  (Avd : arr W (w + n * n + n + mp + n + n) 0 mp).
Hypothesis (Acc : match cc with None => True | Some c => forall k, 0 <= k < m -> Rd (c + k) end).

Definition limit : Z := Z.max maxfun 1.
Definition cvok (v : cvars (N := N)) : Prop := 0 <= c_nfvals v <= limit.
Definition clab (l : clabel * cvars (N := N)) : Prop :=
  let v := snd l in
  cvok v /\
  match fst l with
  | Ccall => c_ibrnch v = 1 \/ 1 <= c_jdrop v <= np
  | Ceval | Cnew => (c_ibrnch v = 1 \/ 1 <= c_jdrop v <= np) /\ c_nfvals v < limit
  | _ => 1 <= c_nfvals v
  end.
(** The number of evaluations made at a label, and the status *)
Definition ccnt (l : clabel * cvars (N := N)) : Z :=
  match fst l with Cnew => c_nfvals (snd l) + 1 | _ => c_nfvals (snd l) end.
Definition cstop (st : cstatus) : Prop := st = CB_SUCCESS \/ st = CB_ROUNDING_ERRORS \/ st = CB_TOO_MANY_EVALUATIONS.
Definition cst (st : cstatus) (l : clabel * cvars (N := N)) : Prop :=
  let v := snd l in
  match fst l with
  | C600 | Cend => cstop (c_status v) /\ (c_status v = CB_TOO_MANY_EVALUATIONS -> c_nfvals v = limit) /\
      (c_status v = CB_SUCCESS -> nlt rhoend (c_rho v) = false)
  | _ => c_status v = st
  end.
Context {B : Type}.
Variable Q : B -> Prop.
Variables (c : Z) (st : cstatus).
Definition cinv (l : clabel * cvars (N := N)) : Prop := clab l /\ ccnt l = c /\ cst st l.
Definition cpost (r : clabel * cvars (N := N) + B) : Prop := match r with inl l => cinv l | inr b => Q b end.

Lemma cgoto_safe l v : cinv (l, v) -> safe (cgoto (B := B) l v) cpost.
Proof. intros H. apply safe_ret, H. Qed.
Ltac ci := unfold cinv, clab, cvok, ccnt, cst, cstop in *; cvs.
Ltac cd := unfold cfail; apply cgoto_safe; ci; intuition (congruence || lia || auto).

Lemma co_start_safe v : safe (co_start n x rhobeg sim simi v)
  (fun u => u = p_iflag 0 (p_rho rhobeg (p_parmu zero (p_jdrop np (p_ibrnch 0 v))))).
Proof. unfold co_start. cbv zeta. apply safe_bindT; [cf|]. intros _. apply safe_ret. reflexivity. Qed.

Lemma co_call_safe v : cinv (Ccall, v) -> safe (co_call maxfun (B := B) v) cpost.
Proof.
  intros H. unfold co_call. destruct ((maxfun <=? c_nfvals v) && (0 <? c_nfvals v))%bool eqn:E.
  - apply andb_true_iff in E. destruct E as [E1 E2]. apply Z.leb_le in E1. apply Z.ltb_lt in E2. unfold limit in *. unfold cfail.
    apply cgoto_safe. ci. unfold limit in *. intuition (congruence || lia).
  - assert (c_nfvals v < limit).
    { apply andb_false_iff in E. unfold limit. destruct E as [E|E]; [apply Z.leb_gt in E|apply Z.ltb_ge in E]; lia. }
    cd.
Qed.

Lemma co_resmax_safe : safe (co_resmax m con cc) T.
Proof.
  unfold co_resmax. apply safe_loop. intros k r Hk. assert (K : W (con + k)).
  { replace (con + k) with (at1 con (k + 1)) by (unfold at1; lia). apply Acon. lia. }
  apply safe_bindT; [|cf]. destruct cc as [c'|].
  - apply safe_bindT; [apply safe_ld, Acc; lia|]. intros t.
    apply safe_bindT; [apply (safe_assign W Rd C WRd CW); [exact K|apply safe_ret; exact Logic.I]|]. cf.
  - apply safe_lift1, safe_ld, WRd, K.
Qed.

Lemma co_initial_safe v : cvok v -> 1 <= c_nfvals v -> 1 <= c_jdrop v <= np -> c_nfvals v = c -> c_status v = st ->
  safe (co_initial n m x con sim simi datmat (B := B) v) cpost.
Proof.
  intros H2 H3 H4 H5 H6. unfold cvok in H2. unfold co_initial. cbv zeta. apply safe_bindT.
  - destruct (Z.leb_spec (c_jdrop v) n); [|cf]. apply safe_ifp; [cf|cf|]. do 2 (apply safe_bindT; [cf|intros _]). cf.
  - intros _. destruct (Z.leb_spec (c_nfvals v) n).
    + apply safe_bindT; [cf|]. intros _. cd.
    + cd.
Qed.

Lemma co_new_safe v : cinv (Cnew, v) -> safe (co_new n m x con sim simi datmat cc (B := B) v) cpost.
Proof.
  intros ((P2 & P3 & P4) & H2 & H3). unfold cvok in P2. unfold ccnt, cst in *. cvs. unfold co_new. cbv zeta.
  apply safe_bindT; [apply co_resmax_safe|]. intros rm. do 2 (apply safe_bindT; [cf|intros _]). cvs.
  destruct (Z.eqb_spec (c_ibrnch v) 1) as [E|E]; [cd|]. destruct P3 as [P3|P3]; [contradiction|].
  apply safe_bindT; [cf|]. intros _. destruct (Z.ltb_spec np (c_nfvals v + 1)); [cd|].
  apply co_initial_safe; unfold cvok; cvs; repeat split; auto; lia.
Qed.

Lemma co_best_safe parmu : safe (co_best n m datmat parmu) (fun k => 1 <= k <= np).
Proof.
  unfold co_best. apply safe_bindT; [cf|]. intros ph. apply safe_bind with (P := fun r : Z * N => 1 <= fst r <= np).
  - unfold LOOP. apply safe_loopP; [|cbn [fst]; lia]. intros j [nb pm] Hj H. cbn [fst] in H. apply safe_bindT; [cf|]. intros t.
    cf; cbn [fst]; lia.
  - intros [nb pm] H. apply safe_ret. exact H.
Qed.

Lemma co_pole_safe k : 1 <= k <= np -> safe (co_pole n m sim simi datmat k) T.
Proof. intros Hk. unfold co_pole. destruct (Z.leb_spec k n); cf. Qed.
Lemma co_error_safe : safe (co_error n sim simi) T.
Proof. unfold co_error. cf. Qed.
Lemma co_linear_safe : safe (co_linear n m con simi datmat a w) T.
Proof. unfold co_linear. cf. Qed.


(** When IFLAG = 0, one of the vertices can be dropped *)
Hypothesis Hdisj : vsig + n <= veta.
Notation none := (fun _ : Z => False).
Definition drops (rho : N) (k : Z) (s : mst N) : Prop :=
  exists j v, 1 <= j < k /\ ((mm s (at1 vsig j) = Some v /\ (exists q, sumsq q /\ v = ndiv (nZ 1) (nsqrt q)) /\ nlt v (nmul (nQ 1 4) rho) = true) \/
                             (mm s (at1 veta j) = Some v /\ nlt (nmul (nQ 21 10) rho) v = true)).

Lemma ok_ld E p s (P : N -> mst N -> Prop) v : mm s p = Some v -> P v s -> ok E (ld p) s P.
Proof. intros Ha HP. unfold ok, ld. rewrite Ha. exact HP. Qed.
Lemma ok_assign E p e s (P : unit -> mst N -> Prop) : W p -> good Rd C s ->
  ok E e s (fun v s1 => s1 = s /\ P tt (mkmst (fun b => if b =? p then Some v else mm s b) (evs s))) -> ok E (assign p e) s P.
Proof.
  intros Ha G He. unfold assign. eapply ok_bind; [exact He|]. intros v s1 [-> HP]. unfold ok, sto.
  destruct (proj1 G p (WRd p Ha)) as [u ->]. exact HP.
Qed.

Lemma square_safe V p b : Rd b -> sumsq p -> BqWp.safe V Rd C (lift2 nadd (ret p) (lift2 nmul (ld b) (ld b))) sumsq.
Proof.
  intros Hb Hp s G. unfold lift2, bind, ret, ld. destruct (proj1 G b Hb) as [v Ev]. rewrite !Ev.
  split; [apply sumsq_add, Hp|]. split; [exact G|apply frame_refl].
Qed.

Lemma co_sigma_ok rho s : good Rd C s ->
  ok (frame W s) (co_sigma n sim simi vsig veta (nmul (nQ 1 4) rho) (nmul (nQ 21 10) rho)) s
    (fun iflag s' => good Rd C s' /\ frame W s s' /\ (iflag = 1 \/ drops rho (n + 1) s')).
Proof.
  intros G. unfold co_sigma, LOOP at 1.
  apply (ok_loopJ (frame W s) (fun j iflag s' => good Rd C s' /\ frame W s s' /\ (iflag = 1 \/ drops rho j s'))); [|lia|].
  2:{ split; [exact G|]. split; [apply frame_refl|]. left. reflexivity. }
  intros j iflag s1 Hj (G1 & F1 & D1).
  eapply ok_bind with (P := fun r s' => sumsq (fst r) /\ good Rd C s' /\ frame none s1 s').
  { eapply ok_safe with (W := none) (P := fun r => sumsq (fst r)); [|exact G1| |].
    - unfold LOOP. apply safe_loopP; [|apply sumsq_zero]. intros i [p q] Hi H. cbn [fst] in H.
      eapply safe_bind with (P := sumsq); [|intros ws Hw; apply safe_bindT; [cf|]; intros we; apply safe_ret; exact Hw]. apply square_safe; [apply WRd, Asimi; lia|exact H].
    - intros s' F'. eapply frame_trans; [exact F1|]. destruct F' as [F' E']. split; auto.
    - intros r s' Hr G' F'. auto. }
  intros [wsig weta] s2 [Hq [G2 [F2 E2]]]. cbn [fst] in Hq.
  assert (F2' : frame W s s2). { eapply frame_trans; [exact F1|]. split; auto. }
  assert (Hs2 : forall b, mm s2 b = mm s1 b) by (intros b; apply F2; auto).
  eapply ok_bind.
  { apply ok_assign with (P := fun _ s' => s' = mkmst (fun b => if b =? at1 vsig j then Some (ndiv one (nsqrt wsig)) else mm s2 b) (evs s2));
      [apply Avsig; lia|exact G2|]. unfold ok. cbn. auto. }
  intros ? s3 E3. cbv beta in E3. assert (G3 : good Rd C s3) by (rewrite E3; apply (sto_good W Rd C); auto; apply Avsig; lia).
  assert (F3 : frame W s s3).
  { rewrite E3. eapply frame_trans; [exact F2'|]. split; [|reflexivity]. intros b Hb. cbn [mm].
    destruct (Z.eqb_spec b (at1 vsig j)) as [->|]; auto. destruct Hb. apply Avsig; lia. }
  eapply ok_bind.
  { apply ok_assign with (P := fun _ s' => s' = mkmst (fun b => if b =? at1 veta j then Some (nsqrt weta) else mm s3 b) (evs s3));
      [apply Aveta; lia|exact G3|]. unfold ok. cbn. auto. }
  intros ? s4 E4. cbv beta in E4. assert (G4 : good Rd C s4) by (rewrite E4; apply (sto_good W Rd C); auto; apply Aveta; lia).
  assert (F4 : frame W s s4).
  { rewrite E4. eapply frame_trans; [exact F3|]. split; [|reflexivity]. intros b Hb. cbn [mm].
    destruct (Z.eqb_spec b (at1 veta j)) as [->|]; auto. destruct Hb. apply Aveta; lia. }
  assert (V1 : mm s4 (at1 vsig j) = Some (ndiv one (nsqrt wsig))).
  { rewrite E4. cbn [mm]. destruct (Z.eqb_spec (at1 vsig j) (at1 veta j)) as [E|_]; [unfold at1 in E; lia|].
    rewrite E3. cbn [mm]. rewrite Z.eqb_refl. reflexivity. }
  assert (V2 : mm s4 (at1 veta j) = Some (nsqrt weta)) by (rewrite E4; cbn [mm]; rewrite Z.eqb_refl; reflexivity).
  assert (D4 : iflag = 1 \/ drops rho j s4).
  { destruct D1 as [D1|(i & v & Hi & D1)]; [auto|]. right. exists i, v. split; [exact Hi|].
    rewrite E4, E3. cbn [mm]. rewrite !Hs2. unfold at1 in *.
    destruct (Z.eqb_spec (vsig + (i - 1)) (veta + (j - 1))); [lia|]. destruct (Z.eqb_spec (vsig + (i - 1)) (vsig + (j - 1))); [lia|].
    destruct (Z.eqb_spec (veta + (i - 1)) (veta + (j - 1))); [lia|]. destruct (Z.eqb_spec (veta + (i - 1)) (vsig + (j - 1))); [lia|].
    exact D1. }
  clear E3 E4. unfold ok, ifp, orp, lift2, bind, ld, ret. rewrite V1. destruct (nlt (ndiv one (nsqrt wsig)) _) eqn:N1.
  - split; [exact G4|]. split; [exact F4|]. right. exists j, (ndiv one (nsqrt wsig)). split; [lia|]. left. split; [exact V1|]. split; [exists wsig; auto|exact N1].
  - rewrite V2. destruct (nlt _ (nsqrt weta)) eqn:N2; (split; [exact G4|split; [exact F4|]]).
    + right. exists j, (nsqrt weta). split; [lia|]. auto.
    + destruct D4 as [D4|(i & v & Hi & D4)]; [auto|]. right. exists i, v. split; [lia|exact D4].
Qed.

Lemma co_drop_ok E rho s : good Rd C s -> drops rho (n + 1) s ->
  ok E (co_drop n vsig veta (nmul (nQ 21 10) rho)) s (fun j s' => s' = s /\ 1 <= j <= n).
Proof.
  intros G (j & v & Hj & D). unfold co_drop. set (pe := nmul (nQ 21 10) rho) in *.
  eapply ok_bind with (P := fun r s' => s' = s /\ (1 <= fst r <= n \/ (fst r = 0 /\ snd r = pe /\
    forall i e, 1 <= i < n + 1 -> mm s (at1 veta i) = Some e -> nlt pe e = false))).
  { unfold LOOP. apply (ok_loopJ E (fun k r s' => s' = s /\ (1 <= fst r <= n \/ (fst r = 0 /\ snd r = pe /\
      forall i e, 1 <= i < k -> mm s (at1 veta i) = Some e -> nlt pe e = false)))); [|lia|].
    - intros k [jd t] s1 Hk [-> H]. cbn [fst snd] in H. destruct (proj1 G (at1 veta k)) as [e Ee]; [apply WRd, Aveta; lia|].
      eapply ok_bind; [eapply ok_ld with (P := fun v s' => v = e /\ s' = s); [exact Ee|auto]|]. intros e' s' [-> ->]. apply ok_ret.
      split; [reflexivity|]. destruct H as [H|(H1 & H2 & H3)]; [destruct (nlt t e); cbn [fst snd]; left; lia|]. subst t.
      destruct (nlt pe e) eqn:N1; cbn [fst snd]; [left; lia|]. right. split; [exact H1|]. split; [reflexivity|].
      intros i e' Hi Ei. destruct (Z.eq_dec i k) as [->|]; [congruence|]. apply (H3 i); [lia|exact Ei].
    - split; [reflexivity|]. right. cbn [fst snd]. split; [reflexivity|]. split; [reflexivity|]. intros; lia. }
  intros [jd t] s1 [-> H]. cbn [fst snd] in H. destruct (Z.eqb_spec jd 0) as [->|Nj]; [|apply ok_ret; split; [reflexivity|lia]].
  destruct H as [H|(_ & -> & H)]; [lia|].
  assert (D' : mm s (at1 vsig j) = Some v /\ nlt v pe = true).
  { destruct D as [(D1 & (q & Hq & ->) & D2)|[D1 D2]]; [split; [exact D1|apply (cl_drop HLaws); auto]|]. rewrite (H j v Hj D1) in D2. discriminate. }
  destruct D' as [D1 D2].
  eapply ok_bind with (P := fun r s' => s' = s /\ (1 <= fst r <= n \/ (fst r = 0 /\ snd r = pe /\
    forall i e, 1 <= i < n + 1 -> mm s (at1 vsig i) = Some e -> nlt e pe = false))).
  { unfold LOOP. apply (ok_loopJ E (fun k r s' => s' = s /\ (1 <= fst r <= n \/ (fst r = 0 /\ snd r = pe /\
      forall i e, 1 <= i < k -> mm s (at1 vsig i) = Some e -> nlt e pe = false)))); [|lia|].
    - intros k [jd t] s1 Hk [-> H']. cbn [fst snd] in H'. destruct (proj1 G (at1 vsig k)) as [e Ee]; [apply WRd, Avsig; lia|].
      eapply ok_bind; [eapply ok_ld with (P := fun v s' => v = e /\ s' = s); [exact Ee|auto]|]. intros e' s' [-> ->]. apply ok_ret.
      split; [reflexivity|]. destruct H' as [H'|(H1 & H2 & H3)]; [destruct (nlt e t); cbn [fst snd]; left; lia|]. subst t.
      destruct (nlt e pe) eqn:N1; cbn [fst snd]; [left; lia|]. right. split; [exact H1|]. split; [reflexivity|].
      intros i e' Hi Ei. destruct (Z.eq_dec i k) as [->|]; [congruence|]. apply (H3 i); [lia|exact Ei].
    - split; [reflexivity|]. right. cbn [fst snd]. split; [reflexivity|]. split; [reflexivity|]. intros; lia. }
  intros [jd t] s1 [-> H']. cbn [fst snd] in H'. apply ok_ret. split; [reflexivity|]. destruct H' as [H'|(_ & _ & H')]; [exact H'|].
  rewrite (H' j v Hj D1) in D2. discriminate.
Qed.

Lemma co_replace_safe jdrop : 1 <= jdrop <= n -> safe (co_replace n sim simi dx jdrop) T.
Proof. intros Hj. unfold co_replace. cf. Qed.

Lemma co_vertex_safe v jdrop : 1 <= jdrop <= n -> cvok v -> c_nfvals v = c -> c_status v = st ->
  safe (co_vertex n m x sim simi datmat a vsig dx (B := B) v jdrop) cpost.
Proof.
  intros Hj H2 H3 H4. unfold cvok in H2. unfold co_vertex. apply safe_bindT; [cf|]. intros t. apply safe_bindT; [cf|]. intros _.
  apply safe_bindT; [cf|]. intros [[cp cm] su]. cbv zeta. apply safe_bindT; [cf|]. intros _.
  apply safe_bindT; [apply co_replace_safe, Hj|]. intros _. apply safe_bindT; [cf|]. intros _. cd.
Qed.

Lemma safe_ok {A} (p : prog N A) (P : A -> Prop) :
  (forall s, good Rd C s -> ok (frame W s) p s (fun r s' => P r /\ good Rd C s' /\ frame W s s')) -> safe p P.
Proof. intros H s G. specialize (H s G). unfold ok in H. destruct (p s); auto. Qed.
Lemma ok_of_safe {A} (p : prog N A) (P : A -> Prop) s0 s : safe p P -> good Rd C s -> frame W s0 s ->
  ok (frame W s0) p s (fun r s' => P r /\ good Rd C s' /\ frame W s0 s').
Proof.
  intros H G F. eapply ok_safe; [exact H|exact G|intros s' F'; eapply frame_trans; eauto|].
  intros r s' Pr G' F'. split; [exact Pr|]. split; [exact G'|]. eapply frame_trans; eauto.
Qed.

Lemma co_140_safe v : cinv (C140, v) -> safe (co_140 n m x con sim simi datmat a vsig veta dx w (B := B) v) cpost.
Proof.
  intros H. unfold co_140. eapply safe_bind; [apply co_best_safe|]. intros nb Hnb. cbv beta in Hnb.
  apply safe_bindT; [apply co_pole_safe, Hnb|]. intros _. apply safe_bindT; [apply co_error_safe|]. intros er.
  destruct (nlt tenth er); [cd|]. apply safe_bindT; [apply co_linear_safe|]. intros _. cbv zeta.
  apply safe_ok. intros s G.
  eapply ok_bind; [apply co_sigma_ok; exact G|]. intros iflag s1 (G1 & F1 & D1).
  destruct ((c_ibrnch (p_iflag iflag (p_parsig (nmul (nQ 1 4) (c_rho v)) v)) =? 1) || (iflag =? 1))%bool eqn:E.
  - apply ok_of_safe; auto. cd.
  - apply orb_false_iff in E. destruct E as [E1 E2]. apply Z.eqb_neq in E1, E2. destruct D1 as [D1|D1]; [contradiction|].
    eapply ok_bind; [apply co_drop_ok; [exact G1|exact D1]|]. intros jd s2 [-> Hj].
    apply ok_of_safe; auto. ci. apply co_vertex_safe; auto; unfold cvok; cvs; tauto.
Qed.

Lemma co_altered_safe parmu : safe (co_altered n m datmat parmu) T.
Proof.
  unfold co_altered. apply safe_bindT; [cf|]. intros ph. apply safe_bindT; [|intros r; destruct r; cf].
  eapply safe_weak; [apply (safe_loopxP W Rd C T T)|auto]; auto. intros j [] Hj _. cf.
Qed.

Lemma co_370_safe fuel v : cinv (C370, v) -> safe (co_370 n m x con sim datmat a dx w (B := B) fuel v) cpost.
Proof.
  intros H. unfold co_370. cbv zeta.
  apply safe_bindT; [eapply safe_weak; [apply trstlp_safe; auto|auto]|].
  { intros i j Hi Hj. apply WRd, Aa; lia. }
  { intros i Hi. apply WRd, Acon; lia. }
  intros ifull. apply safe_bindT; [cf|]. intros short. destruct short; [cd|].
  apply safe_bindT; [cf|]. intros _. apply safe_bindT; [cf|]. intros [rn su]. apply safe_bindT; [cf|]. intros prerec.
  apply safe_bindT; [cf1; [apply co_altered_safe|cf]|]. intros altered.
  destruct altered; [cd|]. apply safe_bindT; [cf|]. intros _. cd.
Qed.

Lemma co_choose_safe v tr : safe (co_choose n sim simi vsig veta sigbar dx v tr) (fun j => 0 <= j <= n).
Proof.
  unfold co_choose. apply safe_bind with (P := fun r : Z * N => 0 <= fst r <= n).
  { unfold LOOP at 1. apply safe_loopP; [|cbn [fst]; lia]. intros j [jd ra] Hj H. cbn [fst] in H. apply safe_bindT; [cf|]. intros t.
    cbv zeta. apply safe_bindT; [cf|]. intros _. apply safe_ret. destruct (nlt ra (nabs t)); cbn [fst]; lia. }
  intros [jd ra] H1. cbn [fst] in H1. apply safe_bind with (P := fun r : Z * N => 0 <= fst r <= n).
  { unfold LOOP at 1. apply safe_loopP; [|cbn [fst]; lia]. intros j [l ed] Hj H. cbn [fst] in H. apply safe_ifp; [cf| |cf; exact H].
    apply safe_bindT; [cf|]. intros t. apply safe_bindT; [cf|]. intros t'. apply safe_ret. destruct (nlt ed t'); cbn [fst]; lia. }
  intros [l ed] H2. cbn [fst] in H2. apply safe_ret. destruct (0 <? l); lia.
Qed.

Lemma co_440_safe v : cinv (C440, v) -> safe (co_440 n m con sim simi datmat vsig veta sigbar dx (B := B) v) cpost.
Proof.
  intros H. unfold co_440. cbv zeta. do 2 (apply safe_bindT; [cf|intro]).
  set (v1 := if (_ && _)%bool then p_prerem (c_prerec v) v else v).
  assert (H1 : cinv (C440, v1)) by (unfold v1; destruct (_ && _)%bool; exact H). clearbody v1.
  eapply safe_bind; [apply co_choose_safe|]. intros jd Hj. cbv beta in Hj. destruct (Z.eqb_spec jd 0); [cd|].
  apply safe_bindT; [apply co_replace_safe; lia|]. intros _. apply safe_bindT; [cf|]. intros _. cf1; cd.
Qed.

Lemma co_parmu_safe parmu : safe (co_parmu n m datmat parmu) T.
Proof.
  unfold co_parmu. apply safe_bindT; [|intros [[d c1] c2]; cf]. unfold LOOP at 1. apply safe_loop. intros k [[d c1] c2] Hk.
  apply safe_bindT; [cf|]. intros c0. apply safe_bindT; [cf|]. intros [c1' c2']. cf.
Qed.

Lemma co_550_safe v : cinv (C550, v) -> safe (co_550 n m rhoend datmat (B := B) v) cpost.
Proof.
  intros H. unfold co_550. cf1; [cd|]. cf1.
  - cbv zeta. apply safe_bindT; [cf1; [apply co_parmu_safe|cf]|]. intros pm.
    cd.
  - cbv zeta. cf1; cd.
Qed.

Lemma co_600_safe v : cinv (C600, v) -> safe (co_600 n m x sim datmat (B := B) v) cpost.
Proof. intros H. unfold co_600. do 3 (apply safe_bindT; [cf|intro]). cd. Qed.

(** The labels where the functions are not evaluated *)
Lemma co_step_safe ev fin fuel l : fst l <> Ceval -> fst l <> Cend -> cinv l ->
  safe (co_step n m x rhoend maxfun con sim simi datmat a vsig veta sigbar dx w cc (B := B) ev fin fuel l) cpost.
Proof.
  intros N1 N2 H. destruct l as [l v]. cbn [fst] in N1, N2. unfold co_step. cbn [fst snd]. destruct l; try congruence.
  - apply co_call_safe, H.
  - apply co_new_safe, H.
  - apply co_140_safe, H.
  - apply co_370_safe, H.
  - apply co_440_safe, H.
  - apply co_550_safe, H.
  - apply co_600_safe, H.
Qed.
End Main.
