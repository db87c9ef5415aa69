(** * Properties of the line searches (C13, C14, C15, C16, C17, C18, C19, C47, C49) *)
From Coq Require Import List ZArith Bool Arith Lia Reals Lra.
From Flocq Require Import Core BinarySingleNaN.
From Verif Require Import Num NumFacts OrdFacts Base LsModel LsSpec ListFacts LsProofs LsOrd LsFloat LsReal.
Import ListNotations.

(** ** Example objects *)
Definition ex_bt : option (ls NumD) := new_backtrack true (nQ 1 10000) (nQ 1 10).
Definition ex_nm : option (ls NumD) := new_nonmonotone true 2 (nQ 1 10000) (nQ 1 10) (nQ 9 10).
Definition ex_cs : option (ls NumD) := new_csrch true (nQ 1 1000) (nQ 9 10) (nQ 1 10).
Definition unwrap {A} (d : A) (o : option A) : A := match o with Some a => a | None => d end.
Definition dflt : ls NumD := allocate_line_search (Backtrack (nZ 0) (nZ 0)).
Definition bt0 := unwrap dflt ex_bt.
Definition nm0 := unwrap dflt ex_nm.
Definition cs0 := unwrap dflt ex_cs.
Lemma bt0_created : created bt0.
Proof. left. exists (nQ 1 10000), (nQ 1 10). reflexivity. Qed.
Lemma nm0_created : created nm0.
Proof. right; left. exists 2%Z, (nQ 1 10000), (nQ 1 10), (nQ 9 10). split; [lia|]. reflexivity. Qed.
Lemma cs0_created : created cs0.
Proof. right; right. exists (nQ 1 1000), (nQ 9 10), (nQ 1 10). reflexivity. Qed.
Definition nanD : NumD := B754_nan.

(** The sequence of calls ends with this task, this status and a step for which [p] holds. *)
Definition ends (l0 : ls NumD) cs (t : lstask) (st : status) (p : NumD -> bool) : Prop :=
  exists l rs, run l0 cs = Some (l, rs) /\ last_task rs = t /\ ls_get_status (Some l) = st /\ p (last_step rs) = true.
Lemma ends_check (l0 : ls NumD) cs t st p :
  match run l0 cs with
  | Some (l, rs) => lstask_eqb (last_task rs) t && (status_code (ls_get_status (Some l)) =? status_code st)%Z && p (last_step rs)
  | None => false
  end = true -> ends l0 cs t st p.
Proof.
  intros E. unfold ends. destruct (run l0 cs) as [[l rs]|]; [|discriminate]. apply andb_prop in E. destruct E as [E P]. apply andb_prop in E. destruct E as [T E].
  exists l, rs. split; [reflexivity|]. split; [destruct (lstask_eqb_spec (last_task rs) t); congruence|]. split; [|exact P].
  apply Z.eqb_eq in E. destruct (ls_get_status (Some l)), st; try reflexivity; discriminate E.
Qed.
Ltac ends := apply ends_check; vm_compute; reflexivity.

(** ** C13: start-up

    Whatever has been done with the object before ([cs]).  The arguments are not NaN: see the refutation. *)
Theorem C13_start_partial (N : Num) (O : OrdLaws N) (l0 l : ls N) cs rs f0 g0 s smin smax :
  isnum (nZ 0 : N) -> created l0 -> run l0 cs = Some (l, rs) -> isnum s -> isnum smin -> isnum smax -> isnum g0 ->
  exists l' code, lnsrch_start (Some l) f0 g0 s smin smax = Some (code, Some l') /\
    let bad := ((smin <? nZ 0) || (smax <? smin) || (s <? smin) || (smax <? s) || (nZ 0 <=? g0))%num in
    (* good arguments *)
    (((nZ 0 <=? smin) = true /\ (smin <=? s) = true /\ (s <=? smax) = true /\ (g0 <? nZ 0) = true)%num -> code = lstask_code LS_SEARCH) /\
    (* an error otherwise, with the status of the first violated condition *)
    (bad = true -> code = lstask_code LS_ERROR /\
       ls_get_status (Some l') =
         (if smin <? nZ 0 then STPMIN_LT_ZERO else if smax <? smin then STPMIN_GT_STPMAX else
          if s <? smin then STEP_LT_STPMIN else if smax <? s then STEP_GT_STPMAX else NOT_A_DESCENT)%num /\
       forall s' f g, exists l'', lnsrch_iterate (Some l') (Some s') f g = (lstask_code LS_ERROR, Some l'', Some s') /\
          ls_get_status (Some l'') = NOT_STARTED) /\
    (code = lstask_code LS_SEARCH ->
      ((nZ 0 <=? smin) = true /\ (smin <=? s) = true /\ (s <=? smax) = true /\ (g0 <? nZ 0) = true)%num).
Proof.
  intros Z Hc R Ns N1 N2 Ng. destruct (created_inv l0 Hc) as [Hi Ht0].
  destruct (run_inv l0 cs Hi) as (l1 & rs1 & R1 & Hi1 & _). rewrite R in R1. injection R1 as <- <-.
  destruct (start_cases l f0 g0 s smin smax Hi1) as (l' & S & _ & C).
  exists l', (lstask_code (l_task l')). split; [unfold lnsrch_start; rewrite S; reflexivity|]. cbv zeta.
  assert (Err : forall st, l' = failure l st -> forall s' f g, exists l'', lnsrch_iterate (Some l') (Some s') f g = (lstask_code LS_ERROR, Some l'', Some s') /\ ls_get_status (Some l'') = NOT_STARTED).
  { intros st -> s' f g. exists (failure (failure l st) NOT_STARTED). split; reflexivity. }
  destruct (nlt smin (nZ 0)) eqn:T1.
  { subst l'. split; [intros (X & _); rewrite (le_not_lt O _ _ X) in T1; discriminate|]. split; [intros _; split; [reflexivity|]; split; [reflexivity|]; eapply Err; reflexivity|discriminate]. }
  destruct (nlt smax smin) eqn:T2.
  { subst l'. split; [intros (_ & X & Y & _); rewrite (le_not_lt O _ _ (nle_trans O _ _ _ X Y)) in T2; discriminate|]. split; [intros _; split; [reflexivity|]; split; [reflexivity|]; eapply Err; reflexivity|discriminate]. }
  destruct (nlt s smin) eqn:T3.
  { subst l'. split; [intros (_ & X & Y & _); rewrite (le_not_lt O _ _ X) in T3; discriminate|]. split; [intros _; split; [reflexivity|]; split; [reflexivity|]; eapply Err; reflexivity|discriminate]. }
  destruct (nlt smax s) eqn:T4.
  { subst l'. split; [intros (_ & X & Y & _); rewrite (le_not_lt O _ _ Y) in T4; discriminate|]. split; [intros _; split; [reflexivity|]; split; [reflexivity|]; eapply Err; reflexivity|discriminate]. }
  destruct (nle (nZ 0) g0) eqn:T5.
  { subst l'. split; [intros (_ & X & Y & W); rewrite (lt_not_le O _ _ W) in T5; discriminate|]. split; [intros _; split; [reflexivity|]; split; [reflexivity|]; eapply Err; reflexivity|discriminate]. }
  destruct C as (-> & _). split; [reflexivity|]. split; [discriminate|]. intros _.
  repeat split; [apply (not_lt_le O)|apply (not_lt_le O)|apply (not_lt_le O)|apply (not_le_lt O)]; auto.
Qed.
Print Assumptions C13_start_partial.

(** In any arithmetic (NaN included): a search is started exactly when none of the five tests of the code is true. *)
Theorem C13_start_any (N : Num) (l0 l : ls N) cs rs f0 g0 s smin smax :
  created l0 -> run l0 cs = Some (l, rs) ->
  exists l' code, lnsrch_start (Some l) f0 g0 s smin smax = Some (code, Some l') /\
    (code = lstask_code LS_SEARCH <-> ((smin <? nZ 0) || (smax <? smin) || (s <? smin) || (smax <? s) || (nZ 0 <=? g0))%num = false) /\
    (code = lstask_code LS_SEARCH \/ code = lstask_code LS_ERROR).
Proof.
  intros Hc R. destruct (created_inv l0 Hc) as [Hi Ht0].
  destruct (run_inv l0 cs Hi) as (l1 & rs1 & R1 & Hi1 & _). rewrite R in R1. injection R1 as <- <-.
  destruct (start_cases l f0 g0 s smin smax Hi1) as (l' & S & _ & C).
  exists l', (lstask_code (l_task l')). split; [unfold lnsrch_start; rewrite S; reflexivity|].
  destruct (nlt smin (nZ 0)); [subst l'; split; [split; discriminate|right; reflexivity]|].
  destruct (nlt smax smin); [subst l'; split; [split; discriminate|right; reflexivity]|].
  destruct (nlt s smin); [subst l'; split; [split; discriminate|right; reflexivity]|].
  destruct (nlt smax s); [subst l'; split; [split; discriminate|right; reflexivity]|].
  destruct (nle (nZ 0) g0); [subst l'; split; [split; discriminate|right; reflexivity]|].
  destruct C as (-> & _). split; [split; reflexivity|left; reflexivity].
Qed.
Print Assumptions C13_start_any.

(** NaN arguments pass the tests: the search is started although 0 <= stpmin <= stp <= stpmax, g0 < 0 does not hold. *)
Theorem C13_nan_refuted : exists l0 l' : ls NumD, created l0 /\
  lnsrch_start (Some l0) (nZ 0) nanD nanD nanD nanD = Some (lstask_code LS_SEARCH, Some l').
Proof. exists bt0. eexists. split; [exact bt0_created|]. reflexivity. Qed.
Print Assumptions C13_nan_refuted.

(** For a NULL object the returned value is 3 (a status): not the code of any task, in particular not that of an error. *)
Theorem C13_null_refuted (N : Num) (f0 g0 s smin smax : N) : exists code,
  lnsrch_start None f0 g0 s smin smax = Some (code, None) /\ (forall t, code <> lstask_code t).
Proof. exists 3%Z. split; [reflexivity|]. intros []; discriminate. Qed.
Print Assumptions C13_null_refuted.

Example C13_example :
  ends bt0 [Start (nZ 1) (nZ (-2)) (nZ 1) (nZ 0) (nZ 5)] LS_SEARCH SUCCESS (neq (nZ 1)) /\
  ends bt0 [Start (nZ 1) (nZ (-2)) (nZ 7) (nZ 0) (nZ 5)] LS_ERROR STEP_GT_STPMAX (neq (nZ 7)).
Proof. split; ends. Qed.
Example C13_example_hyps : isnum (nZ 0 : NumD) /\ created bt0 /\ run bt0 [] = Some (bt0, []) /\ isnum (nZ 1 : NumD) /\ isnum (nZ 5 : NumD).
Proof. repeat split. exact bt0_created. Qed.

(** ** C14: protocol, for every sequence of calls with arbitrary values (any arithmetic) *)
Theorem C14_protocol (N : Num) (l0 : ls N) cs : created l0 ->
  exists l rs, run l0 cs = Some (l, rs) /\ length rs = length cs /\
  (* the accessors agree with the last returned task and step *)
  ls_get_task (Some l) = last_task rs /\
  (ls_converged (Some l) = true <-> last_task rs = LS_CONVERGENCE) /\
  (ls_has_errors (Some l) = true <-> last_task rs = LS_ERROR) /\
  (ls_has_warnings (Some l) = true <-> last_task rs = LS_WARNING) /\
  (ls_finished (Some l) = true <-> last_task rs <> LS_SEARCH) /\
  (last_task rs = LS_SEARCH -> ls_get_step (Some l) = last_step rs) /\
  (last_task rs <> LS_SEARCH -> ls_get_step (Some l) = nZ (-1)) /\
  (* one more iteration *)
  forall s f g, let '(l', s') := ls_iterate l s f g in
    (last_task rs <> LS_SEARCH -> ls_get_task (Some l') = LS_ERROR /\ ls_get_status (Some l') = NOT_STARTED /\ s' = s) /\
    (last_task rs = LS_SEARCH -> (s =? last_step rs)%num = false ->
       ls_get_task (Some l') = LS_ERROR /\ ls_get_status (Some l') = STEP_CHANGED /\ s' = s) /\
    (last_task rs = LS_SEARCH -> (s =? last_step rs)%num = true ->
       ls_get_status (Some l') <> NOT_STARTED /\ ls_get_status (Some l') <> STEP_CHANGED).
Proof.
  intros Hc. destruct (created_inv l0 Hc) as [Hi Ht0]. destruct (run_inv l0 cs Hi) as (l & rs & R & Hi1 & L).
  destruct (run_state l0 cs l rs Ht0 R) as (T & St). exists l, rs. rewrite <- T.
  split; [exact R|]. split; [exact L|]. split; [reflexivity|].
  split; [unfold ls_converged; simpl; destruct (lstask_eqb_spec (l_task l) LS_CONVERGENCE); split; congruence|].
  split; [unfold ls_has_errors; simpl; destruct (lstask_eqb_spec (l_task l) LS_ERROR); split; congruence|].
  split; [unfold ls_has_warnings; simpl; destruct (lstask_eqb_spec (l_task l) LS_WARNING); split; congruence|].
  split; [unfold ls_finished; simpl; destruct (lstask_eqb_spec (l_task l) LS_SEARCH); simpl; split; congruence|].
  split; [intros Hs; unfold ls_get_step; rewrite Hs; simpl; apply St, Hs|].
  split; [intros Hs; unfold ls_get_step; destruct (lstask_eqb_spec (l_task l) LS_SEARCH); congruence|].
  intros s f g. pose proof (iterate_status l s f g) as IS. pose proof (iterate_cases l s f g) as C. destruct (ls_iterate l s f g) as [l' s'].
  split; [|split].
  - intros Hs. destruct C as [(_ & -> & ->)|[(X & _)|(X & _)]]; try congruence. auto.
  - intros Hs Es. destruct (St Hs) as (<- & _) in Es. destruct C as [(X & _)|[(_ & _ & -> & ->)|(_ & X & _)]]; try congruence. auto.
  - intros Hs Es. destruct (St Hs) as (<- & _) in Es. apply IS; auto.
Qed.
Print Assumptions C14_protocol.

Example C14_example :
  ends cs0 [Start (nZ 1) (nZ (-2)) (nZ 1) (nZ 0) (nZ 5); Iterate (nZ 1) (nZ 4) (nZ 3)] LS_SEARCH SUCCESS (nlt (nZ 0)) /\
  ends cs0 [Start (nZ 1) (nZ (-2)) (nZ 1) (nZ 0) (nZ 5); Iterate (nZ 1) (nZ 4) (nZ 3); Iterate (nZ 1) (nZ 4) (nZ 3)] LS_ERROR STEP_CHANGED (neq (nZ 1)) /\
  ends cs0 [Iterate (nZ 1) (nZ 4) (nZ 3)] LS_ERROR NOT_STARTED (neq (nZ 1)).
Proof. repeat split; ends. Qed.

(** ** C15: the proposed steps are inside the bounds *)

(** Nonmonotone search and search of More & Thuente: whatever is fed back, infinities and NaN included. *)
Theorem C15_bounds (N : Num) (O : OrdLaws N) (l0 l : ls N) cs rs f0 g0 s0 smin smax :
  isnum (nZ 0 : N) -> created l0 -> (forall ftol amin, new_backtrack true ftol amin <> Some l0) ->
  run l0 cs = Some (l, rs) -> last_task rs = LS_SEARCH -> last_start cs = Some (f0, g0, s0, smin, smax) ->
  isnum s0 -> isnum smin -> isnum smax ->
  (smin <=? last_step rs)%num = true /\ (last_step rs <=? smax)%num = true.
Proof.
  intros Z Hc Hb R Ht Hs N0 N1 N2. destruct (created_inv l0 Hc) as [_ Ht0]. destruct (run_state l0 cs l rs Ht0 R) as (T & St).
  assert (Hm : match l_method l0 with Backtrack _ _ => False | _ => True end).
  { destruct Hc as [(ft & am & X)|[(m & ft & s1 & s2 & Hm & X)|(ft & gt & xt & X)]]; [exfalso; eapply Hb; eauto| |].
    - unfold new_nonmonotone in X. destruct (_ || _); [discriminate|]. injection X as <-. exact I.
    - unfold new_csrch in X. destruct (_ || _); [discriminate|]. injection X as <-. exact I. }
  rewrite <- T in Ht. destruct (run_bounds O l0 cs l rs f0 g0 s0 smin smax Z Ht0 Hm R Ht Hs N0 N1 N2) as (_ & _ & B1 & B2).
  destruct (St Ht) as (<- & _). auto.
Qed.
Print Assumptions C15_bounds.

(** Backtracking, any arithmetic with IEEE comparisons: inside the bounds, or a NaN. *)
Theorem C15_backtrack_partial (N : Num) (O : OrdLaws N) (l0 l : ls N) cs rs f0 g0 s0 smin smax :
  created l0 -> run l0 cs = Some (l, rs) -> last_task rs = LS_SEARCH -> last_start cs = Some (f0, g0, s0, smin, smax) ->
  isnum s0 -> isnum smin -> isnum smax ->
  ((last_step rs =? last_step rs) = false \/ ((smin <=? last_step rs) = true /\ (last_step rs <=? smax) = true))%num.
Proof.
  intros Hc R Ht Hs N0 N1 N2. destruct (created_inv l0 Hc) as [_ Ht0]. destruct (run_state l0 cs l rs Ht0 R) as (T & St).
  rewrite <- T in Ht. destruct (run_bounds_nan O l0 cs l rs f0 g0 s0 smin smax Ht0 R Ht Hs N0 N1 N2) as (_ & B).
  destruct (St Ht) as (<- & _). destruct (neq (l_stp l) (l_stp l)) eqn:E; [right; exact (B E)|left; reflexivity].
Qed.
Print Assumptions C15_backtrack_partial.

(** In binary64 it is a NaN only if some function value is one (or an initial value is not finite). *)
Theorem C15_backtrack_double_partial (ftol amin : NumD) (l0 l : ls NumD) cs rs f0 g0 s0 smin smax :
  new_backtrack true ftol amin = Some l0 -> isnum ftol -> isnum amin ->
  (forall c, In c cs -> match c with Start f0 g0 _ _ _ => nfin f0 = true /\ nfin g0 = true | Iterate _ f _ => isnum f end) ->
  run l0 cs = Some (l, rs) -> last_task rs = LS_SEARCH -> last_start cs = Some (f0, g0, s0, smin, smax) ->
  isnum s0 -> isnum smin -> isnum smax ->
  (smin <=? last_step rs)%num = true /\ (last_step rs <=? smax)%num = true.
Proof.
  intros Hc Nf Na Hcs R Ht Hs N0 N1 N2.
  assert (Hc' : created l0) by (left; eauto). destruct (created_inv l0 Hc') as [_ Ht0]. destruct (run_state l0 cs l rs Ht0 R) as (T & St).
  rewrite <- T in Ht. assert (Hcs' : Forall tame cs) by (apply Forall_forall; exact Hcs).
  destruct (run_bounds_backtrack ftol amin l0 cs l rs f0 g0 s0 smin smax Hc Nf Na Hcs' R Ht Hs N0 N1 N2) as (_ & B1 & B2).
  destruct (St Ht) as (<- & _). auto.
Qed.
Print Assumptions C15_backtrack_double_partial.

(** With a NaN function value the backtracking search proposes a NaN step. *)
Theorem C15_backtrack_nan_refuted : created bt0 /\
  ends bt0 [Start (nZ 1) (nZ (-2)) (nZ 1) (nZ 0) (nZ 5); Iterate (nZ 1) nanD (nZ 0)] LS_SEARCH SUCCESS
    (fun s => negb (nZ 0 <=? s)%num && negb (s <=? nZ 5)%num).
Proof. split; [exact bt0_created|ends]. Qed.
Print Assumptions C15_backtrack_nan_refuted.

Example C15_example :
  ends nm0 [Start (nZ 1) (nZ (-2)) (nZ 1) (nZ 0) (nZ 5); Iterate (nZ 1) nanD nanD; Iterate (nQ 1 2) ninf (nZ 1)] LS_SEARCH SUCCESS (neq (nQ 1 4)).
Proof. ends. Qed.
Example C15_example_backtrack :
  ends bt0 [Start (nZ 1) (nZ (-2)) (nZ 1) (nZ 0) (nZ 5); Iterate (nZ 1) ninf (nZ 0)] LS_SEARCH SUCCESS (neq (nQ 1 10)).
Proof. ends. Qed.

(** ** C16: convergence means that the acceptance test holds, at the returned step *)
Theorem C16_backtrack (N : Num) (O : OrdLaws N) ftol amin (l0 l : ls N) cs s f g rs f0 g0 s0 smin smax :
  new_backtrack true ftol amin = Some l0 -> last_start cs = Some (f0, g0, s0, smin, smax) ->
  run l0 (cs ++ [Iterate s f g]) = Some (l, rs) -> last_task rs = LS_CONVERGENCE ->
  (f <=? f0 + ftol * s * g0)%num = true /\ last_step rs = s.
Proof.
  intros Hn Hs R Ht. assert (Hc : created l0) by (left; eauto). destruct (created_inv l0 Hc) as [_ Ht0].
  destruct (converged_state O l0 cs s f g l rs Ht0 R Ht) as (l1 & rs1 & R1 & Ht1 & A & E). split; [|exact E].
  destruct (run_state l0 cs l1 rs1 Ht0 R1) as (_ & St). destruct (St Ht1) as (_ & f0' & g0' & s' & X & Ef & Eg).
  rewrite Hs in X. injection X as -> -> -> _ _.
  assert (P := run_params _ _ _ _ R1). unfold new_backtrack in Hn. destruct (_ || _); [discriminate|]. injection Hn as <-.
  unfold params in P. unfold accepts in A. simpl in P. destruct (l_method l1); try discriminate. injection P as -> ->. subst. exact A.
Qed.
Print Assumptions C16_backtrack.

(** Nonmonotone search; the reference value is the maximum of the last [m] initial values (C18). *)
Theorem C16_nonmonotone (N : Num) (O : OrdLaws N) m ftol sigma1 sigma2 (l0 l : ls N) cs s f g rs f0 g0 s0 smin smax :
  new_nonmonotone true m ftol sigma1 sigma2 = Some l0 -> (m < 2 ^ 60)%Z -> last_start cs = Some (f0, g0, s0, smin, smax) ->
  run l0 (cs ++ [Iterate s f g]) = Some (l, rs) -> last_task rs = LS_CONVERGENCE ->
  (forall v, In v (started (cs ++ [Iterate s f g]) rs) -> isnum v) ->
  exists fmax, is_max fmax (firstn (Z.to_nat m) (started (cs ++ [Iterate s f g]) rs)) /\
  (f <=? fmax + ftol * s * g0)%num = true /\ last_step rs = s.
Proof.
  intros Hn Hm Hs R Ht Hv. assert (Hc : created l0) by (right; left; eauto 10). destruct (created_inv l0 Hc) as [_ Ht0].
  destruct (converged_state O l0 cs s f g l rs Ht0 R Ht) as (l1 & rs1 & R1 & Ht1 & A & E).
  destruct (run_state l0 cs l1 rs1 Ht0 R1) as (_ & St). destruct (St Ht1) as (_ & f0' & g0' & s' & X & Ef & Eg).
  rewrite Hs in X. injection X as -> -> -> _ _.
  assert (Es : started (cs ++ [Iterate s f g]) rs = started cs rs1).
  { destruct (run_app _ _ _ _ _ R) as (l2 & rs2 & r & R2 & D & ->). rewrite R1 in R2. injection R2 as <- <-.
    rewrite started_snoc by (eapply run_length; eauto). reflexivity. }
  rewrite Es in *. destruct (nonmonotone_fmax O m ftol sigma1 sigma2 l0 cs l1 rs1 Hn Hm R1 Ht1) as (fmax & fs & mp & Em & Hmax).
  { apply Forall_forall. exact Hv. }
  exists fmax. split; [exact Hmax|]. split; [|exact E]. unfold accepts in A. rewrite Em in A. rewrite <- Eg. exact A.
Qed.
Print Assumptions C16_nonmonotone.

Theorem C16_csrch (N : Num) (O : OrdLaws N) ftol gtol xtol (l0 l : ls N) cs s f g rs f0 g0 s0 smin smax :
  new_csrch true ftol gtol xtol = Some l0 -> last_start cs = Some (f0, g0, s0, smin, smax) ->
  run l0 (cs ++ [Iterate s f g]) = Some (l, rs) -> last_task rs = LS_CONVERGENCE ->
  (f <=? f0 + s * (ftol * g0))%num = true /\ (nabs g <=? - gtol * g0)%num = true /\ last_step rs = s.
Proof.
  intros Hn Hs R Ht. assert (Hc : created l0) by (right; right; eauto). destruct (created_inv l0 Hc) as [_ Ht0].
  destruct (converged_state O l0 cs s f g l rs Ht0 R Ht) as (l1 & rs1 & R1 & Ht1 & A & E).
  destruct (run_state l0 cs l1 rs1 Ht0 R1) as (_ & St). destruct (St Ht1) as (_ & f0' & g0' & s' & X & Ef & Eg).
  rewrite Hs in X. injection X as -> -> -> _ _.
  assert (P := run_params _ _ _ _ R1). unfold new_csrch in Hn. destruct (_ || _); [discriminate|]. injection Hn as <-.
  assert (G := run_gtest _ _ _ _ Ht0 R1 Ht1). unfold params in P. unfold accepts in A. simpl in P. destruct (l_method l1) as [a b|t1 t2 ft fm fs m mp|c]; try discriminate.
  injection P as P1 P2 P3. apply andb_prop in A. destruct A as [A1 A2]. rewrite G, P1, Ef, Eg in A1. rewrite P2, Eg in A2. auto.
Qed.
Print Assumptions C16_csrch.

(** In exact arithmetic the second condition is |g| <= gtol |g0| and the first f <= f0 + ftol s g0. *)
Theorem C16_csrch_exact (H I : R) ftol gtol xtol (l0 l : ls (NumR H I)) cs (s f g : R) rs (f0 g0 s0 smin smax : R) :
  new_csrch (N := NumR H I) true ftol gtol xtol = Some l0 -> last_start (N := NumR H I) cs = Some (f0, g0, s0, smin, smax) ->
  run l0 (cs ++ [Iterate (N := NumR H I) s f g]) = Some (l, rs) -> last_task rs = LS_CONVERGENCE ->
  (f <= f0 + ftol * s * g0 /\ Rabs g <= gtol * Rabs g0)%R.
Proof.
  intros Hn Hs Rn Ht. destruct (C16_csrch _ (OrdR H I) ftol gtol xtol l0 l cs s f g rs f0 g0 s0 smin smax Hn Hs Rn Ht) as (A1 & A2 & _).
  apply Rle_bool_true_iff in A1. apply Rle_bool_true_iff in A2. simpl in A1, A2. change (num (NumR H I)) with R in *.
  split; [lra|]. assert (0 <= gtol)%R.
  { unfold new_csrch in Hn. simpl in Hn. destruct (Rlt_bool_spec ftol 0); [discriminate|]. destruct (Rlt_bool_spec gtol 0); [discriminate|]. lra. }
  assert (gtol * - g0 <= gtol * Rabs g0)%R; [|lra].
  apply Rmult_le_compat_l; auto. rewrite <- Rabs_Ropp. apply Rle_abs.
Qed.
Print Assumptions C16_csrch_exact.

Example C16_example :
  ends cs0 ([Start (nZ 1) (nZ (-2)) (nZ 1) (nZ 0) (nZ 5)] ++ [Iterate (nZ 1) (nZ 0) (nZ 1)]) LS_CONVERGENCE SUCCESS (neq (nZ 1)).
Proof. ends. Qed.
Example C16_example_bt :
  ends bt0 ([Start (nZ 1) (nZ (-2)) (nZ 1) (nZ 0) (nZ 5)] ++ [Iterate (nZ 1) (nZ 0) (nZ 1)]) LS_CONVERGENCE SUCCESS (neq (nZ 1)).
Proof. ends. Qed.
Example C16_example_nm :
  ends nm0 ([Start (nZ 7) (nZ (-2)) (nZ 1) (nZ 0) (nZ 5); Start (nZ 1) (nZ (-2)) (nZ 1) (nZ 0) (nZ 5)] ++ [Iterate (nZ 1) (nZ 6) (nZ 1)]) LS_CONVERGENCE SUCCESS (neq (nZ 1)).
Proof. ends. Qed.

(** ** C49: an acceptable step strictly inside the bounds is accepted *)
Theorem C49_backtrack_partial (N : Num) (O : OrdLaws N) ftol amin (l0 l : ls N) cs rs f g f0 g0 s0 smin smax :
  new_backtrack true ftol amin = Some l0 -> run l0 cs = Some (l, rs) -> last_task rs = LS_SEARCH ->
  last_start cs = Some (f0, g0, s0, smin, smax) ->
  let s := last_step rs in (smin <? s)%num = true -> (s <? smax)%num = true -> (f <=? f0 + ftol * s * g0)%num = true ->
  exists l', run l0 (cs ++ [Iterate s f g]) = Some (l', rs ++ [(LS_CONVERGENCE, s)]) /\ ls_get_status (Some l') = SUCCESS.
Proof.
  intros Hn R Ht Hs s B1 B2 A. assert (Hc : created l0) by (left; eauto). destruct (created_inv l0 Hc) as [_ Ht0].
  apply (accepted_state O l0 cs l rs f g _ _ _ _ _ Ht0 R Ht Hs B1 B2).
  destruct (run_state l0 cs l rs Ht0 R) as (T & St). rewrite <- T in Ht. destruct (St Ht) as (_ & f0' & g0' & s' & X & Ef & Eg).
  rewrite Hs in X. injection X as -> -> -> _ _.
  assert (P := run_params _ _ _ _ R). unfold new_backtrack in Hn. destruct (_ || _); [discriminate|]. injection Hn as <-.
  unfold params in P. unfold accepts. simpl in P. destruct (l_method l); try discriminate. injection P as -> ->. rewrite Ef, Eg. exact A.
Qed.
Print Assumptions C49_backtrack_partial.

Theorem C49_csrch_partial (N : Num) (O : OrdLaws N) ftol gtol xtol (l0 l : ls N) cs rs f g f0 g0 s0 smin smax :
  new_csrch true ftol gtol xtol = Some l0 -> run l0 cs = Some (l, rs) -> last_task rs = LS_SEARCH ->
  last_start cs = Some (f0, g0, s0, smin, smax) ->
  let s := last_step rs in (smin <? s)%num = true -> (s <? smax)%num = true ->
  (f <=? f0 + s * (ftol * g0))%num = true -> (nabs g <=? - gtol * g0)%num = true ->
  exists l', run l0 (cs ++ [Iterate s f g]) = Some (l', rs ++ [(LS_CONVERGENCE, s)]) /\ ls_get_status (Some l') = SUCCESS.
Proof.
  intros Hn R Ht Hs s B1 B2 A1 A2. assert (Hc : created l0) by (right; right; eauto). destruct (created_inv l0 Hc) as [_ Ht0].
  apply (accepted_state O l0 cs l rs f g _ _ _ _ _ Ht0 R Ht Hs B1 B2).
  destruct (run_state l0 cs l rs Ht0 R) as (T & St). rewrite <- T in Ht. destruct (St Ht) as (_ & f0' & g0' & s' & X & Ef & Eg).
  rewrite Hs in X. injection X as -> -> -> _ _.
  assert (G := run_gtest _ _ _ _ Ht0 R Ht). 
  assert (P := run_params _ _ _ _ R). unfold new_csrch in Hn. destruct (_ || _); [discriminate|]. injection Hn as <-.
  unfold params in P. unfold accepts. simpl in P. destruct (l_method l); try discriminate. injection P as P1 P2 P3. rewrite G, P1, P2, Ef, Eg. fold s. rewrite A1, A2. reflexivity.
Qed.
Print Assumptions C49_csrch_partial.

(** At a bound it is not: the step is stpmax, the sufficient decrease holds, and the search ends with a warning. *)
Theorem C49_bound_refuted : new_backtrack true (nQ 1 10000) (nQ 1 10) = Some bt0 /\
  ends bt0 [Start (nZ 1) (nZ (-2)) (nZ 5) (nZ 0) (nZ 5); Iterate (nZ 5) (nZ 0) (nZ 0)] LS_WARNING STEP_EQ_STPMAX (neq (nZ 5)) /\
  ((nZ 0 : NumD) <=? nZ 1 + nQ 1 10000 * nZ 5 * nZ (-2))%num = true.
Proof. split; [reflexivity|]. split; [ends|]. vm_compute. reflexivity. Qed.
Print Assumptions C49_bound_refuted.

(** ** C18: the reference value of the nonmonotone search *)
Theorem C18_reference (N : Num) (O : OrdLaws N) m ftol sigma1 sigma2 (l0 l : ls N) cs rs f0 g0 s0 smin smax :
  new_nonmonotone true m ftol sigma1 sigma2 = Some l0 -> (m < 2 ^ 60)%Z ->
  run l0 cs = Some (l, rs) -> last_task rs = LS_SEARCH -> last_start cs = Some (f0, g0, s0, smin, smax) ->
  (forall v, In v (started cs rs) -> isnum v) ->
  exists fmax, is_max fmax (firstn (Z.to_nat m) (started cs rs)) /\
    (* [fmax] is the value used by the test: *)
    let s := last_step rs in (smin <? s)%num = true -> (s <? smax)%num = true -> forall f g,
    exists l' t s', run l0 (cs ++ [Iterate s f g]) = Some (l', rs ++ [(t, s')]) /\
      (t = LS_CONVERGENCE <-> (f <=? fmax + ftol * s * g0)%num = true).
Proof.
  intros Hn Hm R Ht Hs Hv. assert (Hc : created l0) by (right; left; eauto 10). destruct (created_inv l0 Hc) as [_ Ht0].
  destruct (run_state l0 cs l rs Ht0 R) as (T & St). pose proof Ht as Ht1. rewrite <- T in Ht1. destruct (St Ht1) as (E0 & f0' & g0' & s' & X & Ef & Eg).
  rewrite Hs in X. injection X as -> -> -> E1 E2.
  destruct (nonmonotone_fmax O m ftol sigma1 sigma2 l0 cs l rs Hn Hm R Ht1) as (fmax & fs & mp & Em & Hmax).
  { apply Forall_forall. exact Hv. }
  exists fmax. split; [exact Hmax|]. cbv zeta. intros B1 B2 f g.
  destruct (nle f (fmax + ftol * last_step rs * g0')%num) eqn:A.
  - destruct (accepted_state O l0 cs l rs f g _ _ _ _ _ Ht0 R Ht Hs B1 B2) as (l' & R' & _).
    { unfold accepts. rewrite Em, Eg. exact A. }
    exists l', LS_CONVERGENCE, (last_step rs). split; [exact R'|]. split; auto.
  - destruct (ls_iterate l (last_step rs) f g) as [l' s2] eqn:El.
    exists l', (l_task l'), s2. split; [eapply app_run; [exact R|]; simpl; rewrite El; reflexivity|].
    split; [|discriminate]. intros Hconv. pose proof (iterate_converges l (last_step rs) f g) as IC. rewrite El in IC.
    destruct (IC Hconv) as (_ & _ & Ac). unfold accepts in Ac. rewrite Em, Eg in Ac. congruence.
Qed.
Print Assumptions C18_reference.

Example C18_example :
  ends nm0 [Start (nZ 9) (nZ (-2)) (nZ 1) (nZ 0) (nZ 5); Start (nZ 3) (nZ (-2)) (nZ 1) (nZ 0) (nZ 5); Start (nZ 4) (nZ (-2)) (nZ 1) (nZ 0) (nZ 5)] LS_SEARCH SUCCESS (neq (nZ 1)) /\
  is_max (nZ 4 : NumD) (firstn 2 [nZ 4; nZ 3; nZ 9]).
Proof. split; [ends|]. split; [left; reflexivity|]. intros w [<-|[<-|[]]]; reflexivity. Qed.

(** With m >= 2^61 the size of the object wraps around and the array is too small: undefined behaviour. *)
Theorem C18_overflow_refuted : exists (m : Z) (l0 : ls NumD), (1 <= m < 2 ^ 63)%Z /\
  new_nonmonotone true m (nQ 1 10000) (nQ 1 10) (nQ 9 10) = Some l0 /\
  run l0 [Start (nZ 1) (nZ (-2)) (nZ 1) (nZ 0) (nZ 5)] = None.
Proof.
  exists (2 ^ 61)%Z. destruct (overflow_start (N := NumD) (2 ^ 61) (nQ 1 10000) (nQ 1 10) (nQ 9 10) (nZ 1) (nZ (-2)) (nZ 1) (nZ 0) (nZ 5)) as (l0 & E1 & E2);
    try reflexivity. exists l0. split; [lia|]. split; assumption.
Qed.
Print Assumptions C18_overflow_refuted.

(** ** C17: backtracking in exact arithmetic *)
Section C17.
Variables H I : R.
Notation NR := (NumR H I).
Local Open Scope R_scope.

(** Each unsuccessful iteration multiplies the step by a factor in [min(amin,1/2), rho_max], unless stpmin is reached. *)
Theorem C17_factor (ftol amin : R) (l0 l : ls NR) cs rs (f g : R) l' s' :
  new_backtrack (N := NR) true ftol amin = Some l0 -> run l0 cs = Some (l, rs) -> last_task rs = LS_SEARCH ->
  ls_iterate l (last_step rs) f g = (l', s') -> ls_get_task (Some l') = LS_SEARCH ->
  exists f0 g0 s0 smin smax rho, last_start (N := NR) cs = Some (f0, g0, s0, smin, smax) /\
    Rmin amin (1/2) <= rho <= (if Rle_bool (1/2) amin then 1/2 else 1 / (2 * (1 - ftol))) /\ rho < 1 /\
    s' = Rmax smin (rho * last_step rs).
Proof.
  intros Hn Rn Ht El Ht'. assert (Hc : created l0) by (left; eauto). destruct (created_inv l0 Hc) as [_ Ht0].
  destruct (run_state l0 cs l rs Ht0 Rn) as (T & St). rewrite <- T in Ht. destruct (St Ht) as (E0 & f0 & g0 & s0 & X & _ & _).
  destruct (backtrack_run H I ftol amin l0 cs l rs Hn Rn Ht) as (P1 & P2 & Hi).
  exists f0, g0, s0, (l_stpmin l), (l_stpmax l). rewrite <- E0 in *.
  destruct Hi as (Em & Hg & Hmin & Hs). pose proof (backtrack_one H I l ftol amin f g Em P1 P2 Ht Hg Hmin Hs) as B. cbv zeta in B.
  change (R * R)%type with (num NR * num NR)%type in *. rewrite El in B. simpl in B, Ht'.
  destruct (Rle_bool f _); [destruct B as [(_ & B & _)|(_ & B)]; congruence|].
  destruct B as [(_ & B)|(_ & _ & rho & R1 & R2 & R3 & _)]; [congruence|]. exists rho. split; [exact X|]. split; [exact R1|]. split; [exact R2|].
  rewrite <- R3. pose proof (iterate_cases l (l_stp l) f g) as C. rewrite El in C.
  destruct C as [(Y & _)|[(_ & _ & -> & _)|(_ & _ & Y & _)]]; [congruence|discriminate|congruence].
Qed.

(** Number of iterations: [k] such that rho_max^k stp <= stpmin is enough, whatever the function values. *)
Theorem C17_terminates (ftol amin : R) (l0 l : ls NR) (f0 g0 s smin smax : R) rs k fgs :
  new_backtrack (N := NR) true ftol amin = Some l0 -> run l0 [Start (N := NR) f0 g0 s smin smax] = Some (l, rs) -> last_task rs = LS_SEARCH ->
  (if Rle_bool (1/2) amin then 1/2 else 1 / (2 * (1 - ftol))) ^ k * s <= smin -> length fgs = S k ->
  ls_finished (Some (feed l fgs)) = true.
Proof.
  intros Hn R Ht Hk L. assert (Hc : created l0) by (left; eauto). destruct (created_inv l0 Hc) as [_ Ht0].
  destruct (run_state l0 _ l rs Ht0 R) as (T & St). rewrite <- T in Ht. destruct (St Ht) as (E0 & f0' & g0' & s0' & X & _ & _).
  destruct (backtrack_run H I ftol amin l0 _ l rs Hn R Ht) as (P1 & P2 & Hi).
  simpl in X. injection X as <- <- <- X1 X2.
  assert (E1 : l_stp l = s). { rewrite E0. simpl in R. destruct (ls_start l0 f0 g0 s smin smax); [|discriminate]. injection R as <- <-. reflexivity. }
  pose proof (bt_terminates H I ftol amin k P1 P2 l fgs Hi) as B. rewrite E1, <- X1 in B. specialize (B Hk L).
  unfold ls_finished. simpl. destruct (lstask_eqb_spec (l_task (feed l fgs)) LS_SEARCH); [contradiction|reflexivity].
Qed.

(** There is such a [k] as soon as stpmin > 0 and ftol < 1/2. *)
Theorem C17_bound (ftol amin s smin : R) : 0 < ftol < 1/2 \/ 0 < ftol <= 1/2 /\ 1/2 <= amin -> 0 < smin -> 0 <= s ->
  exists k, (if Rle_bool (1/2) amin then 1/2 else 1 / (2 * (1 - ftol))) ^ k * s <= smin.
Proof.
  intros Hf Hs H0. pose proof (rho_max_lt ftol amin Hf) as Rm. unfold rho_max in Rm. set (r := if Rle_bool (1/2) amin then _ else _) in *.
  destruct (pow_lt_1_zero r ltac:(rewrite Rabs_pos_eq; lra) (smin / (s + 1))) as [k Hk]; [apply Rdiv_lt_0_compat; lra|].
  exists k. specialize (Hk k (le_n k)). rewrite Rabs_pos_eq in Hk by (apply pow_le; lra).
  apply Rmult_lt_compat_r with (r := s + 1) in Hk; [|lra]. unfold Rdiv in Hk. rewrite Rmult_assoc, Rinv_l in Hk by lra.
  pose proof (pow_le r k ltac:(lra)). nra.
Qed.

(** For a differentiable function the search (with stpmin = 0, and strictly below stpmax) ends with an acceptable step. *)
Theorem C17_converges (ftol amin : R) (phi dphi : R -> R) (l0 l : ls NR) (g0 s smax : R) rs :
  new_backtrack (N := NR) true ftol amin = Some l0 -> ftol < 1/2 \/ 1/2 <= amin ->
  derivable_pt_lim phi 0 g0 -> 0 < s < smax ->
  run l0 [Start (N := NR) (phi 0) g0 s 0 smax] = Some (l, rs) -> last_task rs = LS_SEARCH ->
  exists n, (forall k, (k < n)%nat -> ls_get_task (Some (search (N := NR) phi dphi k l)) = LS_SEARCH) /\
    let l' := search (N := NR) phi dphi n l in
    ls_get_task (Some l') = LS_CONVERGENCE /\ 0 < l_stp l' /\ phi (l_stp l') <= phi 0 + ftol * l_stp l' * g0.
Proof.
  intros Hn Hf D Hs R Ht. assert (Hc : created l0) by (left; eauto). destruct (created_inv l0 Hc) as [_ Ht0].
  destruct (run_state l0 _ l rs Ht0 R) as (T & St). rewrite <- T in Ht. destruct (St Ht) as (E0 & f0' & g0' & s0' & X & Ef & Eg).
  destruct (backtrack_run H I ftol amin l0 _ l rs Hn R Ht) as (P1 & P2 & Hi).
  simpl in X. injection X as X3 X4 X5 X1 X2. 
  assert (E1 : l_stp l = s). { rewrite E0. simpl in R. destruct (ls_start l0 (phi 0) g0 s 0 smax); [|discriminate]. injection R as <- <-. reflexivity. }
  assert (Hg : g0 < 0) by (destruct Hi as (_ & Y & _); rewrite X4, <- Eg; exact Y).
  destruct (descent_property phi g0 ftol D Hg) as (eps & He & Hd); [lra|].
  assert (Hf' : 0 < ftol < 1/2 \/ 0 < ftol <= 1/2 /\ 1/2 <= amin) by lra.
  destruct (C17_bound ftol amin s (eps/2) Hf') as (k & Hk); [lra|lra|]. fold (rho_max ftol amin) in Hk.
  destruct (bt_converges H I ftol amin phi dphi k eps Hf' P2 l Hi Ht) as (m & _ & M1 & M2).
  - symmetry; exact X1.
  - rewrite E1, <- X2. exact Hs.
  - rewrite Ef, Eg, <- X3, <- X4. exact Hd.
  - rewrite E1. lra.
  - exists (S m). split; [intros j Hj; apply M1; lia|]. cbv zeta in *. rewrite Ef, Eg, <- X3, <- X4 in M2. exact M2.
Qed.

(** ftol = 1/2 is accepted by the constructor and then the number of iterations is not bounded in terms of stp/stpmin. *)
Theorem C17_half_refuted : exists (l0 l : ls NR) rs, new_backtrack (N := NR) true (1/2) (1/10) = Some l0 /\
  run l0 [Start (N := NR) 0 (-1) 1 (1/2) 2] = Some (l, rs) /\
  forall n, exists fgs, length fgs = n /\ ls_get_task (Some (feed l fgs)) = LS_SEARCH.
Proof. exact (half_slow H I). Qed.
End C17.
Print Assumptions C17_factor.
Print Assumptions C17_terminates.
Print Assumptions C17_bound.
Print Assumptions C17_converges.
Print Assumptions C17_half_refuted.

Local Open Scope R_scope.
Example C17_example : exists (l0 l : ls (NumR 0 0)) rs, new_backtrack (N := NumR 0 0) true (1/4) (1/10) = Some l0 /\
  run l0 [Start (N := NumR 0 0) 0 (-1)%R 1%R 0 2%R] = Some (l, rs) /\ last_task rs = LS_SEARCH.
Proof. exact (bt_real_example 0 0 (1/4) (1/10) 1 0 2 ltac:(lra) ltac:(lra) ltac:(lra) ltac:(lra)). Qed.
Local Close Scope R_scope.

(** ** C19: the step update of More & Thuente, exact arithmetic *)
Section C19.
Variables H I : R.
Notation NR := (NumR H I).
Local Open Scope R_scope.

(** Which arguments are accepted. *)
Theorem C19_accepts (b : bracket NR) (fp dp s1 s2 : R) :
  fst (opk_cstep (N := NR) b fp dp s1 s2) = SUCCESS <->
  (brackt b = true -> stx b < stp_ b < sty b \/ sty b < stp_ b < stx b) /\ dx b * (stp_ b - stx b) < 0 /\ s1 <= s2.
Proof. rewrite <- (cstep_accepts H I b s1 s2). unfold opk_cstep. destruct (cstep_check b s1 s2); simpl; split; congruence. Qed.

(** Missing from the full statement: when the derivative at the new best point is exactly zero the new step may not be
    strictly inside the bracket, see the refutation; and the interval must bracket a minimizer ([bracketing], which [opk_cstep]
    maintains) and be inside the bounds. *)
Theorem C19_cstep_partial (b : bracket NR) (fp dp s1 s2 : R) b' : opk_cstep (N := NR) b fp dp s1 s2 = (SUCCESS, b') ->
  (* the lowest function value *)
  (fx b' = Rmin (fx b) fp) /\
  (* one endpoint is replaced by the current step, and the best one is kept *)
  ((stx b', fx b', dx b') = (stp_ b, fp, dp) /\
     ((sty b', fy b', dy b') = (stx b, fx b, dx b) \/ (sty b', fy b', dy b') = (sty b, fy b, dy b)) \/
   (stx b', fx b', dx b') = (stx b, fx b, dx b) /\ (sty b', fy b', dy b') = (stp_ b, fp, dp)) /\
  (* once bracketed, bracketed *)
  (brackt b = true -> brackt b' = true) /\
  (fp > fx b \/ dp * dx b < 0 -> brackt b' = true) /\
  (* the derivative at the best endpoint points to the other one *)
  (brackt b' = true -> dp <> 0 \/ fp > fx b -> dx b' * (sty b' - stx b') < 0) /\
  (* the function value or the derivative at the other endpoint shows that there is a minimizer in between *)
  ((brackt b = true -> fx b <= fy b \/ dy b * (sty b - stx b) > 0) ->
   (brackt b' = true -> fx b' <= fy b' \/ dy b' * (sty b' - stx b') > 0)) /\
  (* the proposed step *)
  (brackt b' = false -> s1 <= stp_ b' <= s2) /\
  (brackt b' = true -> (brackt b = true -> fx b <= fy b \/ dy b * (sty b - stx b) > 0) -> dp <> 0 \/ fp > fx b ->
     (brackt b = true -> s1 <= Rmin (stx b) (sty b) /\ Rmax (stx b) (sty b) <= s2) ->
     stx b' < stp_ b' < sty b' \/ sty b' < stp_ b' < stx b').
Proof.
  intros E. destruct (cstep_main H I b fp dp s1 s2 b' E) as (M1 & M2 & M3 & M4 & M5 & M6 & M7).
  split; [exact M1|]. split; [exact M2|]. split; [exact M3|]. split; [exact (cstep_brackets H I b fp dp s1 s2 b' E)|].
  split; [exact M4|]. split; [exact M5|]. split; [exact M6|exact M7].
Qed.

(** Zero derivative at the current step inside a bracket: the proposed step is the best endpoint itself. *)
Theorem C19_zero_derivative_refuted : exists (b b' : bracket NR), opk_cstep (N := NR) b (-1) 0 0 2 = (SUCCESS, b') /\
  (brackt b = true /\ fx b <= fy b /\ stx b = 0 /\ sty b = 2) /\ brackt b' = true /\ stp_ b' = stx b'.
Proof. exact (cstep_zero H I). Qed.
End C19.
Print Assumptions C19_accepts.
Print Assumptions C19_cstep_partial.
Print Assumptions C19_zero_derivative_refuted.

Local Open Scope R_scope.
Example C19_example : fst (opk_cstep (N := NumR 0 0) (mkBracket (N := NumR 0 0) 0 0 (-1) 4 5 3 1 true) (-1/2) (-1/4) 0 4) = SUCCESS.
Proof. apply C19_accepts. simpl. repeat split; intros; lra. Qed.
Local Close Scope R_scope.

(** ** C47: constructors *)

(** For parameters which are not NaN: an object is returned exactly in the documented ranges, apart from ftol = 1/2. *)
Theorem C47_constructors_partial (N : Num) (O : OrdLaws N) (m : Z) (ftol amin gtol xtol sigma1 sigma2 : N) :
  isnum (nZ 0 : N) -> isnum (nZ 1 : N) -> isnum (nQ 1 2 : N) ->
  isnum ftol -> isnum amin -> isnum gtol -> isnum xtol -> isnum sigma1 -> isnum sigma2 ->
  ((exists l, new_backtrack true ftol amin = Some l) <->
     ((nZ 0 <? ftol) && (ftol <=? nQ 1 2) && (nZ 0 <? amin) && (amin <? nZ 1) = true)%num) /\
  ((exists l, new_nonmonotone true m ftol sigma1 sigma2 = Some l) <->
     (nfin ftol && nfin sigma1 && (nZ 0 <? ftol) && (nZ 0 <? sigma1) && (sigma1 <? sigma2) && (sigma2 <? nZ 1) = true)%num /\ (1 <= m)%Z) /\
  ((exists l, new_csrch true ftol gtol xtol = Some l) <-> ((nZ 0 <=? ftol) && (nZ 0 <=? gtol) && (nZ 0 <=? xtol) = true)%num) /\
  (* no memory, no object *)
  new_backtrack false ftol amin = None /\ new_nonmonotone false m ftol sigma1 sigma2 = None /\ new_csrch false ftol gtol xtol = None.
Proof.
  intros Z U Hh Nf Na Ng Nx N1 N2.
  assert (LE : forall a b : N, isnum a -> isnum b -> nle a b = negb (nlt b a)).
  { intros a b A B. destruct (nlt b a) eqn:E; simpl; [|apply (not_lt_le O); auto]. apply (lt_not_le O); auto. }
  split; [|split; [|split]].
  - unfold new_backtrack. rewrite !LE by auto. destruct (nlt (nZ 0) ftol), (nlt (nQ 1 2) ftol), (nlt (nZ 0) amin), (nlt amin (nZ 1)); simpl;
      (split; [intros [l E]; try discriminate E; reflexivity|intros E; try discriminate E; eauto]).
  - unfold new_nonmonotone, non_finite. rewrite !LE by auto.
    destruct (nfin ftol), (nfin sigma1), (nlt (nZ 0) ftol), (nlt (nZ 0) sigma1), (nlt sigma1 sigma2), (nlt sigma2 (nZ 1)); simpl;
     try (split; [intros [l E]; discriminate E|intros [E _]; discriminate E]).
    destruct (Z.ltb_spec m 1); (split; [intros [l E]; first [discriminate E|split; [reflexivity|lia]]|intros [_ E]; first [lia|eauto]]).
  - unfold new_csrch. rewrite !LE by auto. destruct (nlt ftol (nZ 0)), (nlt gtol (nZ 0)), (nlt xtol (nZ 0)); simpl;
      (split; [intros [l E]; try discriminate E; reflexivity|intros E; try discriminate E; eauto]).
  - repeat split; [unfold new_backtrack|unfold new_nonmonotone|unfold new_csrch]; destruct (_ || _); reflexivity.
Qed.
Print Assumptions C47_constructors_partial.

(** NaN parameters are accepted (backtracking, More & Thuente; sigma2 of the nonmonotone search), and so is ftol = 1/2. *)
Theorem C47_nan_refuted :
  (exists l, new_backtrack true nanD nanD = Some l) /\ (exists l, new_csrch true nanD nanD nanD = Some l) /\
  (exists l, new_nonmonotone true 1 (nQ 1 10) (nQ 1 10) nanD = Some l) /\ (exists l, new_backtrack true (nQ 1 2 : NumD) (nQ 1 10) = Some l).
Proof. repeat split; eexists; reflexivity. Qed.
Print Assumptions C47_nan_refuted.

Example C47_example : isnum (nZ 0 : NumD) /\ isnum (nZ 1 : NumD) /\ isnum (nQ 1 2 : NumD) /\ isnum (nQ 1 1000 : NumD) /\ isnum (ninf : NumD).
Proof. repeat split. Qed.
