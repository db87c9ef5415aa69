(** * The client and cobyla_optimize *)
From Coq Require Import ZArith List Bool Lia.
From Verif Require Import Num BqLang BqModel BqWp BqSafe BqSpec BqPc NwTop NwInd CbModel CbMain CbSpec CbTop CbProps CbRcSpec CbRc.
Import ListNotations.
Local Open Scope Z_scope.

Section Start.
Context {N : Num}.
Variables (n m x : Z) (rhobeg : N) (work : Z).
Local Open Scope bq_scope.
Definition st0 : prog N unit :=
  LOOP_ n (fun i =>
    at2 (o_sim n m work) n i (n + 1)%Z <~ x#i ;;
    LOOP_ n (fun j =>
      at2 (o_sim n m work) n i j <~ $zero ;;
      at2 (o_simi n m work) n i j <~ $zero) ;;
    at2 (o_sim n m work) n i i <~ $rhobeg ;;
    at2 (o_simi n m work) n i i <~ $(ndiv one rhobeg)).
Local Close Scope bq_scope.
Definition vst (v : cvars (N := N)) : cvars := p_iflag 0 (p_rho rhobeg (p_parmu zero (p_jdrop (n + 1)%Z (p_ibrnch 0 v)))).
Lemma begin_eq v : cb_begin n m x rhobeg work v = bind st0 (fun _ => ret (vst v)).
Proof. reflexivity. Qed.
Lemma ind_st0 : ind st0.
Proof. unfold st0. it. Qed.
Lemma lowp_st0 D X : lowp D X st0.
Proof. unfold st0. lw. Qed.
Definition W0 (a : Z) : Prop := work + m + 2 <= a < work + cb_size n m.
Definition R0 (a : Z) : Prop := W0 a \/ x <= a < x + n.
Hypothesis Hn : 1 <= n.
Hypothesis Hm : 0 <= m.
Lemma st0_safe : safe W0 R0 (fun _ => None) st0 (fun _ => True).
Proof.
  assert (WR : forall a, W0 a -> R0 a) by (intros a Ha; left; exact Ha).
  assert (CW : forall a (v : N), (fun _ => None) a = Some v -> ~ W0 a) by discriminate.
  destruct (carea n m work Hn Hm) as (G1 & G2 & G3 & G4 & G5 & G6 & G7 & G8 & G9 & G10).
  assert (Sz : work + (m + 2) + n * (n + 1) + n * n <= work + cb_size n m) by (unfold cb_size; nia).
  assert (As : mat W0 (o_sim n m work) n 1 n 1 (n + 1)).
  { intros i j Hi Hj. assert (Q1 : 0 <= (j - 1) * n) by nia. assert (Q2 : (j - 1) * n + n <= n * (n + 1)) by nia. assert (0 <= n * n) by nia.
    unfold W0, at2. lia. }
  assert (Ai : mat W0 (o_simi n m work) n 1 n 1 n).
  { intros i j Hi Hj. assert (Q1 : 0 <= (j - 1) * n) by nia. assert (Q2 : (j - 1) * n + n <= n * n) by nia. assert (0 <= n * (n + 1)) by nia.
    unfold W0, at2. lia. }
  unfold st0, LOOP_. apply safe_loop. intros i u Hi. 
  apply safe_bindT; [apply (safe_assign _ _ _ WR CW); [apply As; lia|apply safe_ld; right; unfold at1; lia]|intros _].
  apply safe_bindT.
  { apply safe_loop. intros j u' Hj. apply safe_bindT; [apply (safe_assign _ _ _ WR CW); [apply As; lia|apply safe_ret; auto]|intros _].
    apply (safe_assign _ _ _ WR CW); [apply Ai; lia|apply safe_ret; auto]. }
  intros _. apply safe_bindT; [apply (safe_assign _ _ _ WR CW); [apply As; lia|apply safe_ret; auto]|intros _].
  apply (safe_assign _ _ _ WR CW); [apply Ai; lia|apply safe_ret; auto].
Qed.
Definition ends {A} (p : prog N A) : Prop := forall s, match p s with Cast _ | More _ => False | _ => True end.
Lemma ends_ret {A} (a : A) : ends (ret a). Proof. intros s. exact Logic.I. Qed.
Lemma ends_bind {A B} (p : prog N A) (q : A -> prog N B) : ends p -> (forall a, ends (q a)) -> ends (bind p q).
Proof. intros H K s. specialize (H s). unfold bind. destruct (p s); auto. apply K. Qed.
Lemma ends_ld a : ends (ld a). Proof. intros s. unfold ld. destruct (mm s a); exact Logic.I. Qed.
Lemma ends_assign a e : ends e -> ends (assign a e).
Proof. intros H. apply ends_bind; [exact H|]. intros v s. unfold sto. destruct (mm s a); exact Logic.I. Qed.
Lemma ends_loop {A} lo hi (body : Z -> A -> prog N A) a : (forall i b, ends (body i b)) -> ends (loop lo hi body a).
Proof.
  intros H. unfold loop. generalize (Z.to_nat (hi - lo + 1)). intros k. revert lo a.
  induction k as [|k IH]; intros lo a; cbn [loopn]; [apply ends_ret|]. apply ends_bind; [apply H|]. intros b. apply IH.
Qed.
Lemma st0_ends : ends st0.
Proof.
  unfold st0, LOOP_. repeat first [apply ends_loop; intros ? ?|apply ends_assign|apply ends_ld|apply ends_ret|apply ends_bind; [|intros ?]].
Qed.
Lemma st0_ok (s : mst N) : cells s x n -> cells s work (cdoc_size n m) -> exists t, st0 s = Ret tt t /\ frame W0 s t.
Proof.
  intros Hx Hw. assert (H := st0_safe s). assert (E := st0_ends s).
  assert (G : good R0 (fun _ => None) s).
  { apply good_cells. intros a [Ha|Ha].
    - apply (cells_in s work (cdoc_size n m)); [exact Hw|]. rewrite cdoc_cb. unfold W0 in Ha. lia.
    - apply (cells_in s x n); auto. }
  specialize (H G). destruct (st0 s) as [[] t|t|t|t]; try contradiction. exists t. split; [reflexivity|apply H].
Qed.
End Start.

Section Top.
Context {N : Num}.
Notation prog := (prog N).
Notation mst := (mst N).
Variables (n m : Z) (maximize : bool) (fn : list (list N * N) -> list N -> N) (cn : list (list N * N) -> list N -> Z -> N).
Variables (x : Z) (rhobeg rhoend : N) (maxfun work c : Z) (fi : nat) (s : mst).
Hypothesis HN : CbLaws N.
Hypothesis HL : clayout n m x None work s.
Hypothesis Hc : cells s c m.
Hypothesis Hcx : apart c m x n.
Hypothesis Hcw : apart c m work (cdoc_size n m).
Hypothesis Hn : 1 <= n.
Hypothesis Hm : 0 <= m.
Notation stepO := (co_step n m x rhoend maxfun work (o_sim n m work) (o_simi n m work) (o_datmat n m work) (o_a n m work) (o_vsig n m work)
    (o_veta n m work) (o_sigbar n m work) (o_dx n m work) (o_w n m work) None
    (cb_call n m maximize fn cn x work None) (cb_end n maximize x work None) fi).
Notation stepR := (co_step n m x rhoend maxfun work (o_sim n m work) (o_simi n m work) (o_datmat n m work) (o_a n m work) (o_vsig n m work)
    (o_veta n m work) (o_sigbar n m work) (o_dx n m work) (o_w n m work) (Some c) cb_request (fun v => ret v) fi).
Notation client := (cclient n m maximize fn cn x c fi).
Notation fin := (cb_end n maximize x work None).
Notation mkq := (mkq n m rhobeg rhoend maxfun work).
Notation csgn := (csgn maximize).
Notation inC := (inC m c).
Notation needed := (needed n m x work c).
Notation eqv := (eqv (N := N) inC needed).
Notation eqvI := (eqvI n m x work c).
Notation st0 := (st0 n m x rhobeg work).
Notation vst := (vst n rhobeg).
Notation optimize := (cb_optimize n m maximize fn cn x rhobeg rhoend maxfun work None fi).

Lemma opt_first j t : optimize (S (S j)) t =
  bind st0 (fun _ => bind (calcfc n m fn cn work x) (fun f => machine j stepO (Cnew, p_f (csgn f) (vst cv0)))) t.
Proof.
  unfold cb_optimize. rewrite begin_eq. unfold bind. destruct (st0 t) as [[] u|u|u|u]; try reflexivity.
  unfold ret at 1. unfold cb_run. cbn [machine]. unfold bind at 1. cbn [co_step fst snd]. unfold co_call. change (c_nfvals (vst cv0)) with 0.
  rewrite andb_false_r. unfold cgoto, ret at 1. unfold bind at 1. cbn [co_step fst snd].
  change (cb_call n m maximize fn cn x work None (vst cv0) u) with (bind (calcfc n m fn cn work x) (fun f => ret (inl (B := cstatus * Z) (Cnew, p_f (csgn f) (vst cv0)))) u).
  unfold bind at 1. destruct (calcfc n m fn cn work x u); reflexivity.
Qed.
Lemma opt_short j t r u : (j < 2)%nat -> optimize j t <> Ret r u.
Proof.
  intros Hj. unfold cb_optimize, cb_run. rewrite begin_eq. unfold bind at 1. unfold bind at 1. destruct (st0 t) as [[] w|w|w|w]; try discriminate.
  unfold ret at 1. destruct j as [|[|j]]; [discriminate| |lia]. cbn [machine]. unfold bind at 1. cbn [co_step fst snd]. unfold co_call.
  cbn [vst c_nfvals cv0 p_iflag p_rho p_parmu p_jdrop p_ibrnch]. rewrite andb_false_r. discriminate.
Qed.
Lemma iter_first f F t : cobyla_iterate (mkq cv0) f (Some x) (Some c) fi (S (S F)) t =
  bind st0 (fun _ => bind (machine F stepR (Cnew, p_f f (vst cv0))) (fun v => ret (mkq v))) t.
Proof.
  unfold cobyla_iterate, q_status, q_nevals. cbn [q_v CbRc.mkq q_n q_m q_rhobeg q_rhoend q_maxfun q_w c_status cv0 c_nfvals].
  cbn [Z.ltb Z.compare orb Z.eqb]. rewrite begin_eq. unfold bind. destruct (st0 t) as [[] u|u|u|u]; try reflexivity.
  unfold ret at 1. unfold cb_run. cbn [machine]. unfold bind at 1. cbn [co_step fst snd]. unfold co_call.
  cbn [vst c_nfvals cv0 p_iflag p_rho p_parmu p_jdrop p_ibrnch p_status p_prerec p_prerem p_parsig p_f].
  rewrite andb_false_r. unfold cgoto, ret at 1. unfold bind at 1. reflexivity.
Qed.
Lemma iter_short f F t q u : (F < 2)%nat -> cobyla_iterate (mkq cv0) f (Some x) (Some c) fi F t <> Ret q u.
Proof.
  intros HF. unfold cobyla_iterate, q_status, q_nevals. cbn [q_v CbRc.mkq q_n q_m q_rhobeg q_rhoend q_maxfun q_w c_status cv0 c_nfvals].
  cbn [Z.ltb Z.compare orb Z.eqb]. rewrite begin_eq. unfold cb_run. unfold bind at 1. unfold bind at 1. destruct (st0 t) as [[] w|w|w|w]; try discriminate.
  unfold ret at 1. unfold bind at 1. destruct F as [|[|F]]; [discriminate| |lia]. cbn [machine]. unfold bind at 1. cbn [co_step fst snd]. unfold co_call.
  cbn [vst c_nfvals cv0 p_iflag p_rho p_parmu p_jdrop p_ibrnch p_status p_prerec p_prerem p_parsig p_f]. rewrite andb_false_r. discriminate.
Qed.

(** The memory without the array of the constraints of the client *)
Definition cut : mst := mkmst (fun a => if inC a then None else mm s a) (evs s).
Lemma Cx a : x <= a < x + n -> ~ (c <= a < c + m).
Proof. unfold apart in Hcx. lia. Qed.
Lemma Cw' a : work <= a < work + cdoc_size n m -> ~ (c <= a < c + m).
Proof. unfold apart in Hcw. lia. Qed.
Lemma size_m : m + 2 <= cdoc_size n m.
Proof. unfold cdoc_size. nia. Qed.
Lemma Cw a : work <= a < work + m -> ~ (c <= a < c + m).
Proof. pose proof size_m. intros H1. apply Cw'. lia. Qed.
Lemma cut_layout : clayout n m x None work cut.
Proof.
  destruct HL as [H1 H2 H3 H4 H5]. constructor; auto; intros i Hi; cbn [mm cut].
  - rewrite inC_false; [apply H1, Hi|apply Cx; lia].
  - rewrite inC_false; [apply H3, Hi|apply Cw'; lia].
Qed.
Lemma cut_eqv : eqv s cut.
Proof.
  split; [reflexivity|]. split; [reflexivity|]. pose proof size_m. intros a [Ha|[Ha|Ha]].
  - apply (cells_in s c m); auto.
  - apply (cells_in s x n); [apply (cl_x _ _ _ _ _ _ HL)|exact Ha].
  - apply (cells_in s work (cdoc_size n m)); [apply (cl_w _ _ _ _ _ _ HL)|lia].
Qed.

(** The first evaluation: in cobyla_optimize the initial values are set before, in cobyla_iterate after *)
Lemma first_ok : exists f s1 t' u' s2, calcfc n m fn cn c x s = Ret f s1 /\ st0 cut = Ret tt t' /\ calcfc n m fn cn work x t' = Ret f u' /\
  st0 s1 = Ret tt s2 /\ eqvI 0 m s2 u'.
Proof.
  pose proof size_m as Hsz. pose proof Cw as Cwm. pose proof Cx as Cxm. pose proof Cw' as Cwd.
  assert (Axw : forall a, x <= a < x + n -> ~ W0 n m work a).
  { intros a Ha Hw. unfold W0 in Hw. rewrite <- cdoc_cb in Hw. pose proof (cl_x_w _ _ _ _ _ _ HL) as H. unfold apart in H. lia. }
  destruct (readn_ok (Z.to_nat n) x s) as [p Hp]; [intros i Hi; apply (cl_x _ _ _ _ _ _ HL); lia|].
  destruct (calc_ok n m fn cn x Hm c s p) as (s1 & A1 & A2 & A3); [apply Hp; reflexivity|exact Hc|].
  destruct (st0_ok n m x rhobeg work Hn Hm cut) as (t' & B1 & B2 & B3); [apply (cl_x _ _ _ _ _ _ cut_layout)|apply (cl_w _ _ _ _ _ _ cut_layout)|].
  set (s1' := mkmst (mm s1) (evs s)).
  assert (E1 : eqv s1' cut).
  { destruct cut_eqv as (_ & _ & E). split; [|split; [reflexivity|]].
    - intros a. cbn [cut mm s1']. rewrite A3. destruct (inC a) eqn:Ei; [reflexivity|]. unfold CbRc.inC in Ei. rewrite Ei. reflexivity.
    - intros a Ha. cbn [mm s1']. rewrite A3. destruct (_ && _)%bool; [eauto|apply E, Ha]. }
  assert (L := lowp_st0 n m x rhobeg work inC needed s1' cut E1). rewrite B1 in L. cbn [lowo] in L.
  destruct (st0 s1') as [[] t1|t1|t1|t1] eqn:E2; try contradiction. destruct L as (_ & L1 & L2 & L3).
  assert (F1 : frame (W0 n m work) s1' t1).
  { assert (H := st0_safe n m x rhobeg work Hn Hm s1'). rewrite E2 in H. apply H. apply good_cells. intros a Ha. cbn [mm s1']. rewrite A3.
    destruct (_ && _)%bool; [eauto|]. destruct Ha as [Ha|Ha].
    - apply (cells_in s work (cdoc_size n m)); [apply (cl_w _ _ _ _ _ _ HL)|]. unfold W0 in Ha. rewrite cdoc_cb. lia.
    - apply (cells_in s x n); [apply (cl_x _ _ _ _ _ _ HL)|exact Ha]. }
  destruct F1 as [F1 F2].
  destruct (calc_ok n m fn cn x Hm work t' p) as (u' & U1 & U2 & U3).
  { apply Hp. intros i Hi. rewrite B2 by (apply Axw; lia). cbn [mm cut]. rewrite inC_false; [reflexivity|apply Cxm; lia]. }
  { intros i Hi. rewrite B2 by (unfold W0; lia). cbn [mm cut]. rewrite inC_false by (apply Cwm; lia). apply (cl_w _ _ _ _ _ _ HL). lia. }
  rewrite B3 in U1, U2, U3. cbn [evs cut] in U1, U2, U3.
  exists (fn (evs s) p), s1, t', u', (mkmst (mm t1) (evs s1)). split; [exact A1|]. split; [exact B1|]. split; [exact U1|]. split.
  { assert (D := ind_st0 n m x rhobeg work s1' (evs s1)). rewrite E2 in D. cbn [mm s1' oset] in D. destruct s1 as [m1 e1]. exact D. }
  split; [|split].
  - intros a. cbn [mm]. rewrite U3. replace (work + 0) with work by lia. destruct (Z.leb_spec work a), (Z.ltb_spec a (work + m)); cbn [andb].
    2-4: rewrite L1; destruct (inC a); reflexivity.
    rewrite inC_false by (apply Cwm; lia). rewrite F1.
    + cbn [mm s1']. rewrite A3. destruct (Z.leb_spec c (c + (a - work))), (Z.ltb_spec (c + (a - work)) (c + m)); try lia. cbn [andb]. do 2 f_equal. lia.
    + unfold W0. rewrite <- cdoc_cb. intros Hw. apply (Cwd (c + (a - work))); lia.
  - cbn [evs]. congruence.
  - exact L3.
Qed.

Lemma fwd_top fuel r s2 F k : optimize fuel cut = Ret r s2 -> (fuel < F)%nat -> (fuel < k)%nat ->
  exists v' s3 t3, client F k (mkq cv0) s = Ret (mkq v') s3 /\ eqv s3 t3 /\ fin v' t3 = Ret r s2.
Proof.
  intros E HF Hk. destruct fuel as [|[|j]]; try (exfalso; eapply opt_short; [|exact E]; lia).
  destruct first_ok as (f & s1 & t' & u' & sR & A1 & A2 & A3 & A4 & A5).
  rewrite opt_first in E. unfold bind at 1 in E. rewrite A2 in E. unfold bind at 1 in E. rewrite A3 in E.
  destruct F as [|[|F]]; [lia|lia|]. destruct k as [|k]; [lia|].
  destruct (fwd n m maximize fn cn x rhobeg rhoend maxfun work c fi Hn Hm Cx Cw j (p_f (csgn f) (vst cv0)) sR u' r s2 F (S (S F)) k)
    as (v1 & s4 & v' & s3 & t3 & B1 & B2 & B3 & B4); [reflexivity|cbn; lia|exact A5|exact E|lia|lia|lia|].
  exists v', s3, t3. split; [|auto]. cbn [cclient cobyla_get_status q_status CbRc.mkq q_v cv0 c_status]. unfold bind at 1. rewrite A1.
  unfold bind at 1. change (mkcc _ _ _ _ _ _ _) with (mkq cv0). rewrite iter_first. unfold bind at 1. rewrite A4. unfold bind at 1.
  change (if maximize then nopp f else f) with (csgn f). rewrite B1. exact B2.
Qed.

Lemma bwd_top F k q' s3 : (forall j e, optimize j cut <> Undef e) -> client F k (mkq cv0) s = Ret q' s3 ->
  exists fuel t3, optimize fuel cut = fin (q_v q') t3 /\ eqv s3 t3.
Proof.
  intros HU E. destruct k as [|k]; [discriminate E|].
  destruct first_ok as (f & s1 & t' & u' & sR & A1 & A2 & A3 & A4 & A5).
  cbn [cclient cobyla_get_status q_status CbRc.mkq q_v cv0 c_status] in E. unfold bind at 1 in E. rewrite A1 in E.
  unfold bind at 1 in E. change (mkcc _ _ _ _ _ _ _) with (mkq cv0) in E. change (if maximize then nopp f else f) with (csgn f) in E.
  destruct (cobyla_iterate (mkq cv0) (csgn f) (Some x) (Some c) fi F s1) as [q1 s4|s4|s4|s4] eqn:E1; try discriminate E.
  destruct F as [|[|F]]; try (exfalso; eapply iter_short; [|exact E1]; lia).
  rewrite iter_first in E1. unfold bind at 1 in E1. rewrite A4 in E1. unfold bind at 1 in E1.
  destruct (machine F stepR (Cnew, p_f (csgn f) (vst cv0)) sR) as [v1 s5|s5|s5|s5] eqn:E2; try discriminate E1. injection E1 as <- <-.
  assert (K : forall j, optimize (S (S j)) cut = machine j stepO (Cnew, p_f (csgn f) (vst cv0)) u').
  { intros j. rewrite opt_first. unfold bind at 1. rewrite A2. unfold bind at 1. rewrite A3. reflexivity. }
  destruct (bwd n m maximize fn cn x rhobeg rhoend maxfun work c fi Hn Hm Cx Cw (S (S F)) k (p_f (csgn f) (vst cv0)) sR u' F v1 s5 q' s3)
    as (j & t3 & B1 & B2); [reflexivity|cbn; lia|exact A5| |exact E2|exact E|].
  { intros j e He. apply (HU (S (S j)) e). rewrite K. exact He. }
  exists (S (S j)), t3. rewrite K. auto.
Qed.
Lemma never_undef j e : (nle rhoend zero || nlt rhobeg rhoend)%bool = false -> optimize j cut <> Undef e.
Proof.
  intros Hr E. destruct (C61_memory_safe N n m maximize fn cn x None rhobeg rhoend maxfun work fi j cut HN cut_layout) as (s' & A & _).
  unfold cobyla_optimize in A. destruct (Z.ltb_spec n 1); [lia|]. destruct (Z.ltb_spec m 0); [lia|]. rewrite Hr in A. unfold bind in A. rewrite E in A.
  discriminate A.
Qed.

(** cobyla_optimize does the same without the array of the client *)
Lemma lowp_run j : lowp inC needed (optimize j).
Proof.
  assert (LE : lowp inC needed (fun s : mst => Ret (evs s) s)).
  { intros t t' E. cbn. split; [symmetry; apply E|exact E]. }
  assert (LF : forall h p, lowp inC needed (fun s : mst => Ret (fn h p) (mkmst (mm s) ((p, fn h p) :: evs s)))).
  { intros h p t t' (E1 & E2 & E3). cbn. split; [reflexivity|]. split; [exact E1|]. split; [cbn; rewrite E2; reflexivity|exact E3]. }
  assert (LR := lowp_readn (N := N) inC needed). assert (LT := lowp_trstlp (N := N) inC needed).
  unfold cb_optimize, cb_begin, co_start, cb_run. lw. unfold co_step. lt1.
  - unfold co_call, cfail, cgoto. lw.
  - unfold cb_call, calcfc. lw.
  - unfold co_new, co_initial, co_resmax, cgoto. lw.
  - unfold co_140, co_best, co_pole, co_error, co_linear, co_sigma, co_drop, co_vertex, co_replace, cfail, cgoto. lw.
  - unfold co_370, co_altered, cgoto. lw.
  - unfold co_440, co_choose, co_replace, cgoto. lw.
  - unfold co_550, co_parmu, cgoto. lw.
  - unfold co_600, cgoto. lw.
  - unfold cb_end. lw.
Qed.
End Top.
