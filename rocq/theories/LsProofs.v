(** * Line searches: lemmas valid in any arithmetic *)
From Coq Require Import List ZArith Bool Arith Lia.
From Verif Require Import Num NumFacts OrdFacts Base LsModel LsSpec ListFacts.
Import ListNotations.
Local Open Scope num_scope.

Lemma lstask_eqb_spec a b : reflect (a = b) (lstask_eqb a b).
Proof. destruct a, b; constructor; congruence. Qed.

Section Any.
Context {N : Num}.
Notation ls := (ls N).
Implicit Types l : ls.

(** The array of the nonmonotone search has [m] elements. *)
Definition ls_inv (l : ls) : Prop :=
  match l_method l with Nonmonotone _ _ _ _ fsav m mp => length fsav = m /\ (1 <= m)%nat | _ => True end.

Lemma store_ok (fs : list N) i v : (i < length fs)%nat -> exists fs', store fs i v = Some fs' /\ length fs' = length fs /\
  forall j, nth_error fs' j = if (j =? i)%nat then Some v else nth_error fs j.
Proof.
  revert i; induction fs as [|a fs IH]; intros [|i] Hi; simpl in *; try lia.
  - eexists; split; [reflexivity|]. split; [reflexivity|]. intros [|j]; reflexivity.
  - destruct (IH i) as (fs' & -> & L & Hn); [lia|]. eexists; split; [reflexivity|]. split; [simpl; congruence|].
    intros [|j]; simpl; auto.
Qed.

Lemma max_loop_ok (fs : list N) k j v : (j + k <= length fs)%nat -> exists r, max_loop fs k j v = Some r.
Proof.
  revert j v; induction k as [|k IH]; intros j v Hk; simpl; [eauto|].
  destruct (nth_error_Some_ex fs j) as [a ->]; [lia|]. apply IH. lia.
Qed.

Lemma nonmonotone_start_ok l s1 s2 ft fsav m mp : length fsav = m -> (1 <= m)%nat ->
  exists fsav' fmax, nonmonotone_start l s1 s2 ft fsav m mp =
     Some (success (set_method l (Nonmonotone s1 s2 ft fmax fsav' m (S mp))) LS_SEARCH) /\ length fsav' = m /\
     (forall j, nth_error fsav' j = if (j =? mp mod m)%nat then Some (l_finit l) else nth_error fsav j) /\
     exists f0, nth_error fsav' 0 = Some f0 /\ max_loop fsav' ((if (S mp <=? m)%nat then S mp else m) - 1) 1 f0 = Some fmax.
Proof.
  intros Hl Hm. unfold nonmonotone_start.
  destruct (store_ok fsav (mp mod m) (l_finit l)) as (fs' & -> & L & Hn).
  { rewrite Hl. apply Nat.mod_upper_bound. lia. }
  destruct (nth_error_Some_ex fs' 0) as [f0 E0]; [lia|]. rewrite E0.
  destruct (max_loop_ok fs' ((if (S mp <=? m)%nat then S mp else m) - 1) 1 f0) as [r Hr].
  { destruct (Nat.leb_spec (S mp) m); lia. }
  rewrite Hr. exists fs', r. split; [reflexivity|]. split; [congruence|]. split; [exact Hn|]. exists f0; auto.
Qed.

Lemma start_cases l f0 g0 stp stpmin stpmax : ls_inv l ->
  exists l', ls_start l f0 g0 stp stpmin stpmax = Some l' /\ ls_inv l' /\
    if stpmin <? nZ 0 then l' = failure l STPMIN_LT_ZERO
    else if stpmin >? stpmax then l' = failure l STPMIN_GT_STPMAX
    else if stp <? stpmin then l' = failure l STEP_LT_STPMIN
    else if stp >? stpmax then l' = failure l STEP_GT_STPMAX
    else if g0 >=? nZ 0 then l' = failure l NOT_A_DESCENT
    else l_task l' = LS_SEARCH /\ l_status l' = SUCCESS /\ l_stp l' = stp /\ l_stpmin l' = stpmin /\ l_stpmax l' = stpmax /\
         l_finit l' = f0 /\ l_ginit l' = g0.
Proof.
  intros Hi. unfold ls_start.
  destruct (stpmin <? nZ 0); [eexists; split; [reflexivity|]; split; [exact Hi|reflexivity]|].
  destruct (stpmin >? stpmax); [eexists; split; [reflexivity|]; split; [exact Hi|reflexivity]|].
  destruct (stp <? stpmin); [eexists; split; [reflexivity|]; split; [exact Hi|reflexivity]|].
  destruct (stp >? stpmax); [eexists; split; [reflexivity|]; split; [exact Hi|reflexivity]|].
  destruct (g0 >=? nZ 0); [eexists; split; [reflexivity|]; split; [exact Hi|reflexivity]|].
  unfold ls_inv in Hi. cbn [l_method]. destruct (l_method l) as [ft am|s1 s2 ft fm fs m mp|cs] eqn:Em.
  - eexists; split; [reflexivity|]. split; [exact I|]. repeat split.
  - destruct Hi as [H1 H2].
    destruct (nonmonotone_start_ok (mkLs stp stpmin stpmax f0 g0 (l_status l) (l_task l) (Nonmonotone s1 s2 ft fm fs m mp)) s1 s2 ft fs m mp H1 H2)
      as (fs' & fmax & -> & L & _). eexists; split; [reflexivity|]. split; [split; auto|]. repeat split.
  - eexists; split; [reflexivity|]. split; [exact I|]. repeat split.
Qed.

(** What no iteration of a method changes. *)
Definition same_base (l l' : ls) : Prop :=
  l_stpmin l' = l_stpmin l /\ l_stpmax l' = l_stpmax l /\ l_finit l' = l_finit l /\ l_ginit l' = l_ginit l.

Definition same_params (l l' : ls) : Prop :=
  match l_method l, l_method l' with
  | Csrch c, Csrch c' => cs_ftol c' = cs_ftol c /\ cs_gtol c' = cs_gtol c /\ cs_xtol c' = cs_xtol c /\ cs_gtest c' = cs_gtest c
  | Csrch _, _ => False
  | m, m' => m' = m
  end.

Lemma method_iterate_base l stp f g : let '(l', stp') := method_iterate l stp f g in
  same_base l l' /\ same_params l l' /\ l_stp l' = l_stp l.
Proof.
  unfold method_iterate. destruct (l_method l) as [ft am|s1 s2 ft fm fs m mp|cs] eqn:Em.
  - unfold backtrack_iterate.
    destruct (f <=? _); [|destruct (stp <=? _)]; (split; [repeat split|split; [unfold same_params; rewrite ?Em; simpl; rewrite ?Em; reflexivity|reflexivity]]).
  - unfold nonmonotone_iterate. 
    destruct (f <=? _); [|destruct (stp <=? _); [|destruct (OPK_MAX _ _ <=? _)]];
     (split; [repeat split|split; [unfold same_params; rewrite ?Em; simpl; rewrite ?Em; reflexivity|reflexivity]]).
  - unfold csrch_iterate. 
    repeat match goal with |- context[if ?b then (warning _ _, _) else _] => destruct b end.
    all: try (destruct (_ && _); [split; [repeat split|split; [unfold same_params; rewrite ?Em; simpl; rewrite ?Em; repeat split|reflexivity]]|]).
    all: try (split; [repeat split|split; [unfold same_params; rewrite ?Em; simpl; rewrite ?Em; repeat split|reflexivity]]).
    match goal with |- let '(_, _) := (let '(_, _) := ?X in _) in _ => destruct X as [res b] end.
    destruct res; (split; [repeat split|split; [unfold same_params; rewrite ?Em; simpl; rewrite ?Em; repeat split|reflexivity]]).
Qed.

Lemma same_params_inv l l' : same_params l l' -> ls_inv l -> ls_inv l'.
Proof. unfold same_params, ls_inv. destruct (l_method l), (l_method l'); try congruence; try tauto. Qed.

(** The wrapper, in terms of the method. *)
Lemma iterate_cases l stp f g :
  let '(l', stp') := ls_iterate l stp f g in
  (l_task l <> LS_SEARCH /\ l' = failure l NOT_STARTED /\ stp' = stp) \/
  (l_task l = LS_SEARCH /\ (stp =? l_stp l) = false /\ l' = failure l STEP_CHANGED /\ stp' = stp) \/
  (l_task l = LS_SEARCH /\ (stp =? l_stp l) = true /\ l_stp l' = stp' /\ same_base l l' /\ same_params l l' /\
   let '(l1, s1) := method_iterate l stp f g in
   l_method l' = l_method l1 /\
   ((s1 <=? l_stpmin l) = true /\ stp' = l_stpmin l /\
      ((l_stp l <=? l_stpmin l) = true /\ l_task l' = LS_WARNING /\ l_status l' = STEP_EQ_STPMIN \/
       (l_stp l <=? l_stpmin l) = false /\ l_task l' = l_task l1 /\ l_status l' = l_status l1) \/
    (s1 <=? l_stpmin l) = false /\ (s1 >=? l_stpmax l) = true /\ stp' = l_stpmax l /\
      ((l_stp l <=? l_stpmin l) = false /\ (l_stp l >=? l_stpmax l) = true /\ l_task l' = LS_WARNING /\ l_status l' = STEP_EQ_STPMAX \/
       ((l_stp l <=? l_stpmin l) = true \/ (l_stp l >=? l_stpmax l) = false) /\ l_task l' = l_task l1 /\ l_status l' = l_status l1) \/
    (s1 <=? l_stpmin l) = false /\ (s1 >=? l_stpmax l) = false /\ stp' = s1 /\ l_task l' = l_task l1 /\ l_status l' = l_status l1)).
Proof.
  unfold ls_iterate. destruct (lstask_eqb_spec (l_task l) LS_SEARCH) as [Ht|Ht]; cbn [negb]; [|left; auto].
  destruct (stp =? l_stp l) eqn:Es; cbn [negb]; [|right; left; auto].
  pose proof (method_iterate_base l stp f g) as B. destruct (method_iterate l stp f g) as [l1 s1].
  destruct B as ((B1 & B2 & B3 & B4) & P & B5).
  rewrite B1, B2.
  assert (SP : forall l2, l_method l2 = l_method l1 -> same_params l l2) by (intros l2 E; unfold same_params in *; rewrite E; exact P).
  destruct (s1 <=? l_stpmin l) eqn:C1; [|destruct (s1 >=? l_stpmax l) eqn:C2];
    (right; right; split; [exact Ht|]; split; [reflexivity|]).
  - destruct (l_stp l <=? l_stpmin l) eqn:D1; [|destruct (l_stp l >=? l_stpmax l) eqn:D2]; cbn [Z.ltb Z.gtb];
      (split; [reflexivity|]; split; [repeat split; auto|]; split; [apply SP; reflexivity|]; split; [reflexivity|];
       left; split; [reflexivity|]; split; [reflexivity|]); [left|right|right]; auto.
  - destruct (l_stp l <=? l_stpmin l) eqn:D1; [|destruct (l_stp l >=? l_stpmax l) eqn:D2]; cbn [Z.ltb Z.gtb];
      (split; [reflexivity|]; split; [repeat split; auto|]; split; [apply SP; reflexivity|]; split; [reflexivity|];
       right; left; split; [reflexivity|]; split; [reflexivity|]; split; [reflexivity|]); [right|left|right]; auto.
  - split; [reflexivity|]. split; [repeat split; auto|]. split; [apply SP; reflexivity|]. split; [reflexivity|].
    right. right. auto.
Qed.

Lemma iterate_inv l stp f g : ls_inv l -> ls_inv (fst (ls_iterate l stp f g)).
Proof.
  intros Hi. pose proof (iterate_cases l stp f g) as C. destruct (ls_iterate l stp f g) as [l' s']. simpl.
  destruct C as [(_ & -> & _)|[(_ & _ & -> & _)|(_ & _ & _ & _ & P & _)]]; auto. eapply same_params_inv; eauto.
Qed.

Lemma created_inv l : created l -> ls_inv l /\ l_task l = LS_ERROR.
Proof.
  intros [(ft & am & H)|[(m & ft & s1 & s2 & Hm & H)|(ft & gt & xt & H)]].
  - unfold new_backtrack in H. destruct (_ || _); [discriminate|]. injection H as <-. split; [exact I|reflexivity].
  - unfold new_nonmonotone in H. destruct (_ || _) eqn:E; [discriminate|]. injection H as <-. split; [|reflexivity].
    unfold ls_inv. simpl. rewrite repeat_length.
    apply orb_false_elim in E. destruct E as [_ E]. apply Z.ltb_ge in E.
    assert (nm_capacity m = m) as ->.
    { unfold nm_capacity, nm_offset. rewrite Z.mod_small by lia. replace (136 + m * 8 - 136)%Z with (m * 8)%Z by lia. apply Z.div_mul. lia. }
    lia.
  - unfold new_csrch in H. destruct (_ || _); [discriminate|]. injection H as <-. split; [exact I|reflexivity].
Qed.

Lemma do_call_inv l c : ls_inv l -> exists l' r, do_call l c = Some (l', r) /\ ls_inv l'.
Proof.
  intros Hi. destruct c as [f0 g0 s s1 s2|s f g]; simpl.
  - destruct (start_cases l f0 g0 s s1 s2 Hi) as (l' & -> & Hi' & _). eauto.
  - pose proof (iterate_inv l s f g Hi) as Hi'. destruct (ls_iterate l s f g) as [l' s']. eauto.
Qed.

Lemma run_inv l cs : ls_inv l -> exists l' rs, run l cs = Some (l', rs) /\ ls_inv l' /\ length rs = length cs.
Proof.
  revert l; induction cs as [|c cs IH]; intros l Hi; simpl; [eauto|].
  destruct (do_call_inv l c Hi) as (l1 & r & -> & Hi1). destruct (IH l1 Hi1) as (l2 & rs & -> & Hi2 & L).
  exists l2, (r :: rs). repeat split; auto. simpl; congruence.
Qed.

Lemma run_app l cs c l2 rs : run l (cs ++ [c]) = Some (l2, rs) ->
  exists l1 rs1 r, run l cs = Some (l1, rs1) /\ do_call l1 c = Some (l2, r) /\ rs = rs1 ++ [r].
Proof.
  revert l rs; induction cs as [|c' cs IH]; intros l rs; simpl.
  - destruct (do_call l c) as [[l' r]|] eqn:E; [|discriminate]. intros [= <- <-]. exists l, [], r. auto.
  - destruct (do_call l c') as [[l' r]|] eqn:E; [|discriminate].
    destruct (run l' (cs ++ [c])) as [[l'' rs']|] eqn:R; [|discriminate]. intros [= <- <-].
    destruct (IH l' rs' R) as (l1 & rs1 & r1 & R1 & D1 & ->). rewrite R1. exists l1, (r :: rs1), r1. auto.
Qed.

Lemma app_run l cs c l1 rs1 l2 r : run l cs = Some (l1, rs1) -> do_call l1 c = Some (l2, r) -> run l (cs ++ [c]) = Some (l2, rs1 ++ [r]).
Proof.
  revert l rs1; induction cs as [|c' cs IH]; intros l rs1; simpl.
  - intros [= <- <-] ->. reflexivity.
  - destruct (do_call l c') as [[l' r']|] eqn:E; [|discriminate].
    destruct (run l' cs) as [[l'' rs']|] eqn:R; [|discriminate]. intros [= <- <-] D.
    rewrite (IH l' rs' R D). reflexivity.
Qed.

(** Induction on the calls, last call first. *)
Lemma run_rect (P : list (call N) -> ls -> list (reply N) -> Prop) l0 :
  P [] l0 [] ->
  (forall cs c l1 rs1 l2 r, run l0 cs = Some (l1, rs1) -> P cs l1 rs1 -> do_call l1 c = Some (l2, r) -> P (cs ++ [c]) l2 (rs1 ++ [r])) ->
  forall cs l rs, run l0 cs = Some (l, rs) -> P cs l rs.
Proof.
  intros H0 HS. induction cs as [|c cs IH] using rev_ind; intros l rs R.
  - injection R as <- <-. exact H0.
  - destruct (run_app _ _ _ _ _ R) as (l1 & rs1 & r & R1 & D & ->). eapply HS; eauto.
Qed.

Lemma last_snoc {A} (l : list A) a d : last (l ++ [a]) d = a.
Proof. induction l as [|b l IH]; simpl; auto. destruct (l ++ [a]) eqn:E; auto. destruct l; discriminate. Qed.

Lemma last_start_snoc (cs : list (call N)) c : last_start (cs ++ [c]) =
  match c with Start f0 g0 s s1 s2 => Some (f0, g0, s, s1, s2) | _ => last_start cs end.
Proof.
  induction cs as [|c' cs IH]; simpl; [destruct c; reflexivity|]. rewrite IH.
  destruct c; [reflexivity|]. destruct (last_start cs); reflexivity.
Qed.

(** *** The state agrees with the replies *)
Lemma run_state l0 cs l rs : l_task l0 = LS_ERROR -> run l0 cs = Some (l, rs) ->
  l_task l = last_task rs /\
  (l_task l = LS_SEARCH -> l_stp l = last_step rs /\ exists f0 g0 s, last_start cs = Some (f0, g0, s, l_stpmin l, l_stpmax l) /\ l_finit l = f0 /\ l_ginit l = g0).
Proof.
  intros H0 R. revert cs l rs R. apply run_rect.
  - split; [exact H0|congruence].
  - intros cs c l1 rs1 l2 r R1 (I1 & I2) D. unfold last_task, last_step. rewrite last_snoc, last_start_snoc.
    destruct c as [f0 g0 s s1 s2|s f g]; simpl in D.
    + destruct (ls_start l1 f0 g0 s s1 s2) as [l'|] eqn:S; [|discriminate]. injection D as <- <-.
      split; [reflexivity|]. intros Ht. unfold ls_start in S.
      repeat match type of S with context[if ?b then Some (failure _ _) else _] => destruct b; [injection S as <-; discriminate|] end.
      assert (Q : l_stp l' = s /\ l_stpmin l' = s1 /\ l_stpmax l' = s2 /\ l_finit l' = f0 /\ l_ginit l' = g0).
      { cbn [l_method] in S. destruct (l_method l1).
        - injection S as <-. repeat split.
        - unfold nonmonotone_start in S. destruct (store _ _ _); [|discriminate]. destruct (nth_error l _); [|discriminate].
          destruct (max_loop _ _ _ _); [|discriminate]. injection S as <-. repeat split.
        - injection S as <-. repeat split. }
      destruct Q as (-> & -> & -> & -> & ->). split; [reflexivity|]. eauto 10.
    + pose proof (iterate_cases l1 s f g) as C. destruct (ls_iterate l1 s f g) as [l' s']. injection D as <- <-.
      split; [reflexivity|]. intros Ht. 
      destruct C as [(_ & -> & _)|[(_ & _ & -> & _)|(Ht1 & _ & Es & (B1 & B2 & B3 & B4) & _)]]; try discriminate.
      split; [exact Es|]. destruct (I2 Ht1) as (_ & f0 & g0 & s0 & E0 & E1 & E2).
      rewrite B1, B2, B3, B4. eauto 10.
Qed.

(** The parameters of the method never change. *)
Definition params (l : ls) : method N :=
  match l_method l with
  | Backtrack a b => Backtrack a b
  | Nonmonotone s1 s2 ft _ _ m _ => Nonmonotone s1 s2 ft (nZ 0) [] m 0
  | Csrch c => let z := nZ 0 in Csrch (mkCsrch (cs_ftol c) (cs_gtol c) (cs_xtol c) z z z z z z z z z z z false 0)
  end.

Lemma same_params_params l l' : same_params l l' -> params l' = params l.
Proof.
  unfold same_params, params. destruct (l_method l) as [a b|s1 s2 ft fm fs m mp|c]; [intros ->; reflexivity| intros ->; reflexivity|].
  destruct (l_method l') as [a b|s1 s2 ft fm fs m mp|c']; try tauto. intros (-> & -> & -> & _). reflexivity.
Qed.

Lemma start_params l f0 g0 s s1 s2 l' : ls_start l f0 g0 s s1 s2 = Some l' -> params l' = params l.
Proof.
  unfold ls_start. intros S.
  repeat match type of S with context[if ?b then Some (failure _ _) else _] => destruct b; [injection S as <-; reflexivity|] end.
  cbn [l_method] in S. unfold params. destruct (l_method l) as [a b|t1 t2 ft fm fs m mp|c].
  - injection S as <-. reflexivity.
  - unfold nonmonotone_start in S. destruct (store _ _ _) as [fs'|]; [|discriminate]. destruct (nth_error fs' _); [|discriminate].
    destruct (max_loop _ _ _ _); [|discriminate]. injection S as <-. reflexivity.
  - injection S as <-. reflexivity.
Qed.

Lemma iterate_params l s f g : params (fst (ls_iterate l s f g)) = params l.
Proof.
  pose proof (iterate_cases l s f g) as C. destruct (ls_iterate l s f g) as [l' s']. simpl.
  destruct C as [(_ & -> & _)|[(_ & _ & -> & _)|(_ & _ & _ & _ & P & _)]]; auto. apply same_params_params; exact P.
Qed.

Lemma run_params l0 cs l rs : run l0 cs = Some (l, rs) -> params l = params l0.
Proof.
  intros R. revert cs l rs R. apply run_rect; [reflexivity|].
  intros cs c l1 rs1 l2 r R1 IH D. rewrite <- IH. destruct c as [f0 g0 s s1 s2|s f g]; simpl in D.
  - destruct (ls_start l1 f0 g0 s s1 s2) as [l'|] eqn:S; [|discriminate]. injection D as <- <-. eapply start_params; eauto.
  - pose proof (iterate_params l1 s f g) as P. destruct (ls_iterate l1 s f g) as [l' s']. injection D as <- <-. exact P.
Qed.

(** The test of More & Thuente uses ftol times the initial derivative. *)
Lemma run_gtest l0 cs l rs : l_task l0 = LS_ERROR -> run l0 cs = Some (l, rs) -> l_task l = LS_SEARCH ->
  match l_method l with Csrch c => cs_gtest c = cs_ftol c * l_ginit l | _ => True end.
Proof.
  intros H0 R. revert cs l rs R.
  apply (run_rect (fun _ l _ => l_task l = LS_SEARCH -> match l_method l with Csrch c => cs_gtest c = cs_ftol c * l_ginit l | _ => True end)); [congruence|].
  intros cs c l1 rs1 l2 r R1 IH D Ht. destruct c as [f0 g0 s s1 s2|s f g]; simpl in D.
  - destruct (ls_start l1 f0 g0 s s1 s2) as [l'|] eqn:S; [|discriminate]. injection D as <- <-.
    unfold ls_start in S.
    repeat match type of S with context[if ?b then Some (failure _ _) else _] => destruct b; [injection S as <-; discriminate|] end.
    cbn [l_method] in S. destruct (l_method l1) as [a b|t1 t2 ft fm fs m mp|cc].
    + injection S as <-. exact I.
    + unfold nonmonotone_start in S. destruct (store _ _ _) as [fs'|]; [|discriminate]. destruct (nth_error fs' _); [|discriminate].
      destruct (max_loop _ _ _ _); [|discriminate]. injection S as <-. exact I.
    + injection S as <-. reflexivity.
  - pose proof (iterate_cases l1 s f g) as C. destruct (ls_iterate l1 s f g) as [l' s']. injection D as <- <-.
    destruct C as [(_ & -> & _)|[(_ & _ & -> & _)|(Ht1 & _ & _ & (B1 & B2 & B3 & B4) & P & _)]]; try discriminate.
    specialize (IH Ht1). unfold same_params in P. destruct (l_method l1) as [a b|t1 t2 ft fm fs m mp|cc].
    + rewrite P. exact I. + rewrite P. exact I.
    + destruct (l_method l') as [a b|t1 t2 ft fm fs m mp|cc']; try tauto. destruct P as (-> & _ & _ & ->). rewrite B4. exact IH.
Qed.

(** *** Acceptance tests of the methods *)
Definition accepts (l : ls) (s f g : N) : bool :=
  match l_method l with
  | Backtrack ft _ => f <=? l_finit l + ft * s * l_ginit l
  | Nonmonotone _ _ ft fmax _ _ _ => f <=? fmax + ft * s * l_ginit l
  | Csrch c => (f <=? l_finit l + s * cs_gtest c) && (nabs g <=? - cs_gtol c * l_ginit l)
  end.

Lemma method_iterate_accepts l s f g :
  if accepts l s f g then method_iterate l s f g = (success l LS_CONVERGENCE, s)
  else l_task (fst (method_iterate l s f g)) <> LS_CONVERGENCE.
Proof.
  unfold accepts, method_iterate. destruct (l_method l) as [ft am|s1 s2 ft fm fs m mp|cs].
  - unfold backtrack_iterate. destruct (f <=? _); [reflexivity|]. destruct (s <=? _); discriminate.
  - unfold nonmonotone_iterate. destruct (f <=? _); [reflexivity|]. destruct (s <=? _); [discriminate|]. destruct (OPK_MAX _ _ <=? _); discriminate.
  - unfold csrch_iterate. destruct (_ && _) eqn:E; [reflexivity|].
    repeat match goal with |- context[if ?b then (warning _ _, _) else _] => destruct b; [discriminate|] end.
    match goal with |- context[let '(_, _) := ?X in _] => destruct X as [res b] end.
    destruct res; discriminate.
Qed.

Lemma iterate_converges l s f g : let '(l', s') := ls_iterate l s f g in
  l_task l' = LS_CONVERGENCE -> l_task l = LS_SEARCH /\ (s =? l_stp l) = true /\ accepts l s f g = true.
Proof.
  pose proof (iterate_cases l s f g) as C. destruct (ls_iterate l s f g) as [l' s'].
  intros Ht. destruct C as [(_ & -> & _)|[(_ & _ & -> & _)|(Ht1 & Es & _ & _ & _ & C)]]; try discriminate.
  split; [exact Ht1|]. split; [exact Es|]. pose proof (method_iterate_accepts l s f g) as A.
  destruct (accepts l s f g); [reflexivity|]. exfalso. destruct (method_iterate l s f g) as [l1 s1]. simpl in A.
  destruct C as (_ & [(_ & _ & [(_ & X & _)|(_ & X & _)])|[(_ & _ & _ & [(_ & _ & X & _)|(_ & X & _)])|(_ & _ & _ & X & _)]]); congruence.
Qed.

Lemma iterate_accepts l s f g : l_task l = LS_SEARCH -> (s =? l_stp l) = true -> accepts l s f g = true ->
  (s <=? l_stpmin l) = false -> (s >=? l_stpmax l) = false ->
  let '(l', s') := ls_iterate l s f g in l_task l' = LS_CONVERGENCE /\ l_status l' = SUCCESS /\ s' = s.
Proof.
  intros Ht Es Ha C1 C2. pose proof (iterate_cases l s f g) as C. pose proof (method_iterate_accepts l s f g) as A. rewrite Ha in A.
  destruct (ls_iterate l s f g) as [l' s']. rewrite A in C.
  destruct C as [(? & _)|[(_ & ? & _)|(_ & _ & _ & _ & _ & C)]]; try congruence.
  destruct C as (_ & [(X & _)|[(_ & X & _)|(_ & _ & -> & -> & ->)]]); try congruence. auto.
Qed.
End Any.

Section More.
Context {N : Num}.

Lemma cstep_status (b : bracket N) fp dp s1 s2 : let st := fst (opk_cstep b fp dp s1 s2) in st <> NOT_STARTED /\ st <> STEP_CHANGED.
Proof.
  unfold opk_cstep, cstep_check. destruct (_ && _); [split; discriminate|]. destruct (nle _ _); [split; discriminate|].
  destruct (nlt _ _); split; discriminate.
Qed.

(** The status of an effective iteration. *)
Lemma method_status (l : ls N) s f g : let st := l_status (fst (method_iterate l s f g)) in st <> NOT_STARTED /\ st <> STEP_CHANGED.
Proof.
  unfold method_iterate. destruct (l_method l) as [ft am|s1 s2 ft fm fs m mp|cs].
  - unfold backtrack_iterate. destruct (nle f _); [split; discriminate|]. destruct (nle s _); split; discriminate.
  - unfold nonmonotone_iterate. destruct (nle f _); [split; discriminate|]. destruct (nle s _); [split; discriminate|]. destruct (nle (OPK_MAX _ _) _); split; discriminate.
  - unfold csrch_iterate. 
    repeat match goal with |- context[if ?b then (success _ _, _) else _] => destruct b; [split; discriminate|] end.
    repeat match goal with |- context[if ?b then (warning _ _, _) else _] => destruct b; [split; discriminate|] end.
    match goal with |- context[let '(_, _) := ?X in _] => assert (B : fst X <> NOT_STARTED /\ fst X <> STEP_CHANGED); [|destruct X as [res b]] end.
    { match goal with |- context[if ?b then _ else _] => destruct b end.
      - match goal with |- context[opk_cstep ?b0 ?x ?y ?z ?w] => pose proof (cstep_status b0 x y z w) as C; destruct (opk_cstep b0 x y z w) as [st b'] end. exact C.
      - apply cstep_status. }
    simpl in B. destruct res; simpl; try exact B; split; discriminate.
Qed.

Lemma iterate_status (l : ls N) s f g : let '(l', s') := ls_iterate l s f g in
  l_task l = LS_SEARCH -> (s =? l_stp l) = true -> l_status l' <> NOT_STARTED /\ l_status l' <> STEP_CHANGED.
Proof.
  pose proof (iterate_cases l s f g) as C. pose proof (method_status l s f g) as M. destruct (ls_iterate l s f g) as [l' s'].
  intros Ht Es. destruct C as [(X & _)|[(_ & X & _)|(_ & _ & _ & _ & _ & C)]]; try congruence.
  destruct (method_iterate l s f g) as [l1 s1]. simpl in M.
  destruct C as (_ & [(_ & _ & [(_ & _ & ->)|(_ & _ & ->)])|[(_ & _ & _ & [(_ & _ & _ & ->)|(_ & _ & ->)])|(_ & _ & _ & _ & ->)]]); auto; split; discriminate.
Qed.

Lemma overflow_start m (ftol sigma1 sigma2 f0 g0 s smin smax : N) : nm_capacity m = 0%Z ->
  non_finite ftol || non_finite sigma1 || non_finite sigma1 ||
     (ftol <=? nZ 0) || (sigma1 <=? nZ 0) || (sigma1 >=? sigma2) || (sigma2 >=? nZ 1) || (m <? 1)%Z = false ->
  (smin <? nZ 0) || (smin >? smax) || (s <? smin) || (s >? smax) || (g0 >=? nZ 0) = false ->
  exists l0, new_nonmonotone true m ftol sigma1 sigma2 = Some l0 /\ run l0 [Start f0 g0 s smin smax] = None.
Proof.
  intros C T1 T2. unfold new_nonmonotone. rewrite T1, C. eexists. split; [reflexivity|].
  cbn [run do_call]. unfold ls_start, allocate_line_search. cbn [l_method Z.to_nat repeat].
  destruct (nlt smin (nZ 0)); [discriminate|]. destruct (nlt smax smin); [discriminate|]. destruct (nlt s smin); [discriminate|].
  destruct (nlt smax s); [discriminate|]. destruct (nle (nZ 0) g0); [discriminate|].
  unfold nonmonotone_start, store. cbn [l_finit length].
  destruct (0 mod Z.to_nat m); reflexivity.
Qed.
End More.
