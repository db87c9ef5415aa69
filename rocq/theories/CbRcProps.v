(** * C64: cobyla_optimize and the reverse communication version do the same

    cobyla.c is compiled twice: cobyla_optimize calls the functions itself, cobyla_iterate returns to its caller each time the
    values of the functions are needed, saves the local variables in the context and copies the constraints from the array of
    its caller.  [cclient] (CbRcSpec.v) is the use of the reverse communication version as documented.  The theorems compare the
    two from the memory [s] left by cobyla_create, with the workspace of the context, for any functions, the values of which
    may depend on the previous calls. *)
From Coq Require Import ZArith Reals List Bool Lia.
From Verif Require Import Num NumFacts BqLang BqModel BqWp BqSpec CbModel CbSpec CbNum CbTop CbProps CbRcSpec CbRc CbRcTop.
Import ListNotations.
Local Open Scope Z_scope.

Section Ends.
Context {N : Num}.
Lemma end_eq n maximize x w (v : cvars (N := N)) s r s' : cb_end n maximize x w None v s = Ret r s' ->
  r = (c_status v, c_nfvals v) /\ evs s' = evs s /\ mm s' w = Some (if maximize then nopp (c_f v) else c_f v) /\
  mm s' (w + 1) = Some (c_resmax v) /\ forall a, a <> w -> a <> w + 1 -> mm s' a = mm s a.
Proof.
  unfold cb_end, bind, assign, ret, bind, sto. destruct (mm s w); [|discriminate]. cbn [mm evs].
  destruct (Z.eqb_spec (w + 1) w); [lia|]. destruct (mm s (w + 1)); [|discriminate]. intros [= <- <-]. cbn [mm evs].
  split; [reflexivity|]. split; [reflexivity|]. split; [|split].
  - destruct (Z.eqb_spec w (w + 1)); [lia|]. rewrite Z.eqb_refl. reflexivity.
  - rewrite Z.eqb_refl. reflexivity.
  - intros a H1 H2. destruct (Z.eqb_spec a (w + 1)); [contradiction|]. destruct (Z.eqb_spec a w); [contradiction|reflexivity].
Qed.
Lemma ccreate_eq n m (rhobeg rhoend : N) maxfun w s0 q s : cobyla_create n m rhobeg rhoend maxfun (Some w) s0 = Ret (Some q) s ->
  q = mkq n m rhobeg rhoend maxfun w cv0 /\ 1 <= n /\ 0 <= m /\ (nle rhoend zero || nlt rhobeg rhoend)%bool = false.
Proof.
  unfold cobyla_create. destruct ((n <? 1) || (m <? 0) || nlt rhobeg rhoend || nle rhoend zero || (maxfun <? 1))%bool eqn:E; [discriminate|].
  unfold bind. destruct (loop _ _ _ _ s0) as [u t|t|t|t]; try discriminate. intros [= <- <-]. rewrite !orb_false_iff, !Z.ltb_ge in E.
  destruct E as ((((E1 & E2) & E3) & E4) & E5). rewrite E3, E4. auto.
Qed.
Lemma coptimize_eq n m maximize fn cn x (rhobeg rhoend : N) maxfun w fi fuel s : 1 <= n -> 0 <= m -> (nle rhoend zero || nlt rhobeg rhoend)%bool = false ->
  cobyla_optimize n m maximize fn cn x None rhobeg rhoend maxfun w fi fuel s =
  bind (cb_optimize n m maximize fn cn x rhobeg rhoend maxfun w None fi fuel) (fun r => ret (fst r, Some (snd r))) s.
Proof.
  intros H1 H2 H3. unfold cobyla_optimize. destruct (Z.ltb_spec n 1); [lia|]. destruct (Z.ltb_spec m 0); [lia|]. rewrite H3. reflexivity.
Qed.
(** The memory after cobyla_create: only the workspace is modified *)
Lemma ccreate_mem n m (rhobeg rhoend : N) maxfun x w c s0 q s : cobyla_create n m rhobeg rhoend maxfun (Some w) s0 = Ret (Some q) s ->
  clayout n m x None w s0 -> cells s0 c m -> apart c m w (cdoc_size n m) -> clayout n m x None w s /\ cells s c m.
Proof.
  intros E HL Hc Hcw. destruct (C61_create N n m rhobeg rhoend maxfun w s0 (cl_w _ _ _ _ _ _ HL)) as (r & t & E1 & _ & E2 & _ & _ & E3).
  rewrite E in E1. injection E1 as <- <-. destruct (E3 q eq_refl) as (_ & _ & _ & E4). destruct HL as [H1 H2 H3 H4 H5]. split.
  - constructor; auto.
    + intros i Hi. rewrite E2; [apply H1, Hi|]. unfold apart in H4. lia.
    + intros i Hi. rewrite E4 by lia. eauto.
  - intros i Hi. rewrite E2; [apply Hc, Hi|]. unfold apart in Hcw. lia.
Qed.
End Ends.

(** If cobyla_optimize ends with the status [st] and the number of evaluations [i] in the memory [s2] then the client ends; its
    context has the same status and the same number of evaluations; it has called the functions with the same variables in the same
    order; the last value of the context is the one that cobyla_optimize stores in work[0]; and the memory is the same, in
    particular the variables in x, but the array of the constraints of the client and work[0], work[1]. *)
Theorem C64_client (N : Num) n m maximize fn cn x c (rhobeg rhoend : N) maxfun w s0 q s fi fuel st i s2 F k :
  CbLaws N -> cobyla_create n m rhobeg rhoend maxfun (Some w) s0 = Ret (Some q) s ->
  clayout n m x None w s0 -> cells s0 c m -> apart c m x n -> apart c m w (cdoc_size n m) ->
  cobyla_optimize n m maximize fn cn x None rhobeg rhoend maxfun w fi fuel s = Ret (st, i) s2 ->
  (fuel < F)%nat -> (fuel < k)%nat ->
  exists q' s3, cclient n m maximize fn cn x c fi F k q s = Ret q' s3 /\
    cobyla_get_status (Some q') = st /\ Some (cobyla_get_nevals (Some q')) = i /\ evs s3 = evs s2 /\
    mm s2 w = Some (if maximize then nopp (cobyla_get_last_f (Some q')) else cobyla_get_last_f (Some q')) /\
    forall a, ~ (c <= a < c + m) -> a <> w -> a <> w + 1 -> mm s3 a = mm s2 a.
Proof.
  intros HN Hcr HL0 Hc0 Hcx Hcw E HF Hk. destruct (ccreate_eq _ _ _ _ _ _ _ _ _ Hcr) as (-> & Hn & Hm & Hr).
  destruct (ccreate_mem _ _ _ _ _ _ _ _ _ _ _ Hcr HL0 Hc0 Hcw) as (HL & Hc).
  rewrite coptimize_eq in E by auto. unfold bind in E.
  destruct (cb_optimize n m maximize fn cn x rhobeg rhoend maxfun w None fi fuel s) as [[st' i'] t|t|t|t] eqn:E1; try discriminate E.
  injection E as -> <- ->. cbn [fst snd].
  assert (L := lowp_run n m maximize fn cn x rhobeg rhoend maxfun w c fi fuel s (cut m c s) (cut_eqv n m x w c s HL Hc Hn Hm)).
  rewrite E1 in L. unfold lowo in L.
  destruct (cb_optimize n m maximize fn cn x rhobeg rhoend maxfun w None fi fuel (cut m c s)) as [r t'|t'|t'|t'] eqn:E2; try contradiction.
  2:{ exfalso. eapply never_undef; eauto. }
  destruct L as [<- (L1 & L2 & L3)].
  destruct (fwd_top n m maximize fn cn x rhobeg rhoend maxfun w c fi s HL Hc Hcx Hcw Hn Hm fuel (st, i') t' F k E2 HF Hk) as (v' & s3 & t3 & A1 & (A2 & A3 & A4) & A5).
  destruct (end_eq _ _ _ _ _ _ _ _ A5) as (B1 & B2 & B3 & B4 & B5). injection B1 as B1 B1'.
  assert (Nw : ~ (c <= w < c + m)) by (apply (Cw' n m w c Hcw); unfold cdoc_size; nia).
  exists (mkq n m rhobeg rhoend maxfun w v'), s3. split; [exact A1|]. split; [symmetry; exact B1|]. split; [cbn; f_equal; symmetry; exact B1'|].
  split; [congruence|]. split.
  - rewrite L1, inC_false in B3 by exact Nw. exact B3.
  - intros a H1 H2 H3. specialize (B5 a H2 H3). rewrite L1, A2, inC_false in B5 by exact H1. symmetry. exact B5.
Qed.
Print Assumptions C64_client.

(** Conversely, if the client ends then so does cobyla_optimize, with the same status, the same calls of the functions and the same
    memory (with the same exceptions). *)
Theorem C64_optimize (N : Num) n m maximize fn cn x c (rhobeg rhoend : N) maxfun w s0 q s fi F k q' s3 :
  CbLaws N -> cobyla_create n m rhobeg rhoend maxfun (Some w) s0 = Ret (Some q) s ->
  clayout n m x None w s0 -> cells s0 c m -> apart c m x n -> apart c m w (cdoc_size n m) ->
  cclient n m maximize fn cn x c fi F k q s = Ret q' s3 ->
  exists fuel st i s2, cobyla_optimize n m maximize fn cn x None rhobeg rhoend maxfun w fi fuel s = Ret (st, i) s2 /\
    cobyla_get_status (Some q') = st /\ Some (cobyla_get_nevals (Some q')) = i /\ evs s3 = evs s2 /\
    forall a, ~ (c <= a < c + m) -> a <> w -> a <> w + 1 -> mm s3 a = mm s2 a.
Proof.
  intros HN Hcr HL0 Hc0 Hcx Hcw E. destruct (ccreate_eq _ _ _ _ _ _ _ _ _ Hcr) as (-> & Hn & Hm & Hr).
  destruct (ccreate_mem _ _ _ _ _ _ _ _ _ _ _ Hcr HL0 Hc0 Hcw) as (HL & Hc).
  assert (HU : forall j e, cb_optimize n m maximize fn cn x rhobeg rhoend maxfun w None fi j (cut m c s) <> Undef e) by (intros; eapply never_undef; eauto).
  destruct (bwd_top n m maximize fn cn x rhobeg rhoend maxfun w c fi s HL Hc Hcx Hcw Hn Hm F k q' s3 HU E) as (fuel & t3 & A1 & (A2 & A3 & A4)).
  assert (L := lowp_run n m maximize fn cn x rhobeg rhoend maxfun w c fi fuel s (cut m c s) (cut_eqv n m x w c s HL Hc Hn Hm)).
  specialize (HU fuel). rewrite A1 in L, HU. destruct (cb_end n maximize x w None (q_v q') t3) as [r t'|t'|t'|t'] eqn:E1.
  - unfold lowo in L. destruct (cb_optimize n m maximize fn cn x rhobeg rhoend maxfun w None fi fuel s) as [r2 s2|s2|s2|s2] eqn:E2; try contradiction.
    destruct L as [-> (L1 & L2 & L3)]. destruct (end_eq _ _ _ _ _ _ _ _ E1) as (B1 & B2 & B3 & B4 & B5).
    exists fuel, (fst r), (Some (snd r)), s2. rewrite coptimize_eq by auto. unfold bind. rewrite E2. split; [reflexivity|]. subst r. cbn [fst snd].
    split; [reflexivity|]. split; [reflexivity|]. split; [congruence|]. intros a H1 H2 H3. specialize (B5 a H2 H3). rewrite L1, A2, inC_false in B5 by exact H1. symmetry. exact B5.
  - exfalso. eapply HU. reflexivity.
  - exfalso. revert E1. unfold cb_end, bind, assign, ret, bind, sto. destruct (mm t3 w); [|discriminate]. cbn [mm]. destruct (w + 1 =? w); [discriminate|].
    destruct (mm t3 (w + 1)); discriminate.
  - exfalso. revert E1. unfold cb_end, bind, assign, ret, bind, sto. destruct (mm t3 w); [|discriminate]. cbn [mm]. destruct (w + 1 =? w); [discriminate|].
    destruct (mm t3 (w + 1)); discriminate.
Qed.
Print Assumptions C64_optimize.

(** ** Example

    The hypotheses are met by [cex_mem] with the constraints of the client at the address 20, and both ways end with COBYLA_SUCCESS for
    the functions of CbProps.v, after the same calls (double precision, computed). *)
Definition cex_both : bool :=
  match cobyla_create 2 1 (nQ 1 2) (nQ 1 2 : NumD) 100 (Some 100) (cex_mem (nZ 1) (nZ 1) (nZ 2) (nZ 1)) with
  | Ret (Some q) s =>
      match cobyla_optimize 2 1 true cex_fn cex_cn 0 None (nQ 1 2) (nQ 1 2) 100 100 50 200 s, cclient 2 1 true cex_fn cex_cn 0 20 50 201 201 q s with
      | Ret (CB_SUCCESS, Some i) s2, Ret q' s3 =>
          (Nat.eqb (length (evs s2)) (length (evs s3)) && Z.eqb (q_nevals q') i && (3 <? i) &&
           forallb (fun ee => match fst (fst ee), fst (snd ee) with [a; b], [c; d] => neq a c && neq b d && neq (snd (fst ee)) (snd (snd ee)) | _, _ => false end)
             (combine (evs s2) (evs s3)) &&
           match cobyla_get_status (Some q') with CB_SUCCESS => true | _ => false end &&
           match mm s2 0, mm s3 0, mm s2 1, mm s3 1 with Some a, Some b, Some c, Some d => neq a b && neq c d | _, _, _, _ => false end)%bool
      | _, _ => false
      end
  | _ => false
  end.
Example C64_ex : CbLaws NumD /\ clayout 2 1 0 None 100 (cex_mem (nZ 1 : NumD) (nZ 1) (nZ 2) (nZ 1)) /\
  cells (cex_mem (nZ 1 : NumD) (nZ 1) (nZ 2) (nZ 1)) 20 1 /\ apart 20 1 0 2 /\ apart 20 1 100 (cdoc_size 2 1) /\ cex_both = true.
Proof.
  split; [exact CbLawsD|]. split; [apply cex_layout; auto|]. split; [apply cex_cells; lia|]. split; [unfold apart; lia|].
  split; [unfold apart; lia|]. vm_compute. reflexivity.
Qed.
