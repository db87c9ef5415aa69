(** * Line searches: lemmas which use the order of the numbers *)
From Coq Require Import List ZArith Bool Arith Lia Reals Lra.
From Flocq Require Import Core.
From Verif Require Import Num NumFacts OrdFacts Base LsModel LsSpec ListFacts LsProofs.
Import ListNotations.
Local Open Scope num_scope.

Section Ord.
Context {N : Num} (O : OrdLaws N).
Notation ls := (ls N).
Implicit Types l : ls.

Lemma eq_le_l (a b c : N) : (a =? b) = true -> (a <=? c) = (b <=? c).
Proof. keys O. destruct (key O a), (key O b), (key O c); intros; try discriminate; try reflexivity; rbool. Qed.
Lemma eq_le_r (a b c : N) : (a =? b) = true -> (c <=? a) = (c <=? b).
Proof. keys O. destruct (key O a), (key O b), (key O c); intros; try discriminate; try reflexivity; rbool. Qed.

(** When the search converges the step is left unchanged. *)
Lemma iterate_converges_step l s f g : let '(l', s') := ls_iterate l s f g in l_task l' = LS_CONVERGENCE -> s' = s.
Proof.
  pose proof (iterate_cases l s f g) as C. pose proof (iterate_converges l s f g) as A. destruct (ls_iterate l s f g) as [l' s'].
  intros Ht. destruct (A Ht) as (Hs & Es & Ha). pose proof (method_iterate_accepts l s f g) as M. rewrite Ha in M.
  destruct C as [(? & _)|[(_ & ? & _)|(_ & _ & _ & _ & _ & C)]]; try congruence. rewrite M in C.
  destruct C as (_ & [(X & _ & Y)|[(X & Y & _ & Z)|(_ & _ & -> & _)]]); [| |reflexivity].
  - rewrite (eq_le_l _ _ _ Es) in X. destruct Y as [(_ & Y & _)|(Y & _)]; congruence.
  - rewrite (eq_le_l _ _ _ Es) in X. rewrite (eq_le_r _ _ _ Es) in Y.
    destruct Z as [(_ & _ & Z & _)|([Z|Z] & _)]; congruence.
Qed.

(** *** Bounds *)
Lemma isnum_not_le_lt (a b : N) : isnum a -> isnum b -> (a <=? b) = false -> (b <=? a) = true.
Proof. unfold isnum. intros A B H. apply (nlt_nle O). apply (not_le_lt O); auto. Qed.

(** The step returned by the wrapper is inside the bounds unless it is a NaN. *)
Lemma iterate_bounds l s f g : isnum (l_stpmin l) -> isnum (l_stpmax l) -> (l_stpmin l <=? l_stpmax l) = true ->
  let '(l', s') := ls_iterate l s f g in l_task l' = LS_SEARCH -> isnum s' \/ isnum (snd (method_iterate l s f g)) ->
  (l_stpmin l <=? s') = true /\ (s' <=? l_stpmax l) = true /\ isnum s'.
Proof.
  intros H1 H2 H12. pose proof (iterate_cases l s f g) as C. destruct (ls_iterate l s f g) as [l' s']. intros Ht.
  destruct C as [(_ & -> & _)|[(_ & _ & -> & _)|(_ & _ & _ & _ & _ & C)]]; try discriminate.
  destruct (method_iterate l s f g) as [l1 s1]. simpl. 
  destruct C as (_ & [(X & -> & Y)|[(X & Y & -> & Z)|(X & Y & -> & _)]]); intros Hs.
  - split; [apply (nle_refl O); auto|]. auto.
  - split; [auto|]. split; [apply (nle_refl O); auto|auto].
  - assert (isnum s1) by (destruct Hs; auto). split; [apply isnum_not_le_lt; auto|]. split; [apply isnum_not_le_lt; auto|auto].
Qed.

Lemma isnum_MAX (a b : N) : isnum b -> isnum (OPK_MAX a b).
Proof. unfold OPK_MAX. intros H. destruct (b <=? a) eqn:E; [apply (le_num_r O _ _ E)|exact H]. Qed.
Lemma isnum_MIN (a b : N) : isnum b -> isnum (OPK_MIN a b).
Proof. unfold OPK_MIN. intros H. destruct (a <=? b) eqn:E; [apply (le_num_l O _ _ E)|exact H]. Qed.

Lemma cstep_stx (b : bracket N) fp dp s1 s2 : let '(st, b') := opk_cstep b fp dp s1 s2 in stx b' = stx b \/ stx b' = stp_ b.
Proof.
  unfold opk_cstep. destruct (cstep_check b s1 s2); try (left; reflexivity).
  destruct (fp >? fx b); [left; reflexivity|]. destruct (cstep_opposite _ _); right; reflexivity.
Qed.

(** The invariant of the searches other than backtracking: numbers stay numbers. *)
Definition num_inv (l : ls) : Prop :=
  match l_method l with Backtrack _ _ => True | Nonmonotone _ _ _ _ _ _ _ => True | Csrch c => isnum (cs_stx c) end.

Lemma method_num l s f g : isnum s -> isnum (l_stpmin l) -> isnum (l_stpmax l) -> num_inv l ->
  match l_method l with Backtrack _ _ => False | _ => True end ->
  isnum (snd (method_iterate l s f g)) /\ num_inv (fst (method_iterate l s f g)).
Proof.
  intros Hs H1 H2 Hi Hm. unfold method_iterate, num_inv in *. destruct (l_method l) as [ft am|s1 s2 ft fm fs m mp|c] eqn:Em; [tauto| |].
  - unfold nonmonotone_iterate. destruct (f <=? _); [simpl; rewrite Em; auto|]. destruct (s <=? _); [simpl; rewrite Em; auto|].
    destruct (OPK_MAX _ _ <=? _); simpl; rewrite Em; (split; [apply isnum_MAX; auto|auto]).
  - unfold csrch_iterate.
    repeat match goal with |- context[if ?b then (success _ _, _) else _] => destruct b; [simpl; rewrite Em; auto|] end.
    repeat match goal with |- context[if ?b then (warning _ _, _) else _] => destruct b; [simpl; rewrite Em; auto|] end.
    match goal with |- context[let '(_, _) := ?X in _] => assert (B : isnum (stx (snd X))); [|destruct X as [res b]] end.
    { match goal with |- context[if ?b then _ else _] => destruct b end.
      - match goal with |- context[opk_cstep ?b0 ?x ?y ?z ?w] => pose proof (cstep_stx b0 x y z w) as C; destruct (opk_cstep b0 x y z w) as [st b'] end.
        simpl in *. destruct C as [->| ->]; auto.
      - match goal with |- context[opk_cstep ?b0 ?x ?y ?z ?w] => pose proof (cstep_stx b0 x y z w) as C; destruct (opk_cstep b0 x y z w) as [st b'] end.
        simpl in *. destruct C as [->| ->]; auto. }
    simpl in B. destruct res; simpl; try (split; [exact Hs|exact Hi]). split; [|exact B].
    match goal with |- isnum (if ?b then _ else _) => destruct b; [exact B|] end. apply isnum_MIN. auto.
Qed.

(** The bounds of the search in progress. *)
Definition step_inv (l : ls) : Prop :=
  l_task l = LS_SEARCH -> isnum (l_stpmin l) -> isnum (l_stpmax l) -> isnum (l_stp l) ->
  (l_stpmin l <=? l_stp l) = true /\ (l_stp l <=? l_stpmax l) = true.

Lemma start_values l f0 g0 s s1 s2 l' : ls_start l f0 g0 s s1 s2 = Some l' -> l_task l' = LS_SEARCH ->
  ((s1 <? nZ 0) = false /\ (s2 <? s1) = false /\ (s <? s1) = false /\ (s2 <? s) = false /\ (nZ 0 <=? g0) = false) /\
  (l_status l' = SUCCESS /\ l_stp l' = s /\ l_stpmin l' = s1 /\ l_stpmax l' = s2 /\ l_finit l' = f0 /\ l_ginit l' = g0) /\
  match l_method l' with Csrch c => cs_stx c = nZ 0 | _ => True end.
Proof.
  unfold ls_start. intros S Ht.
  destruct (s1 <? nZ 0); [injection S as <-; discriminate|].
  destruct (s2 <? s1); [injection S as <-; discriminate|].
  destruct (s <? s1); [injection S as <-; discriminate|].
  destruct (s2 <? s); [injection S as <-; discriminate|].
  destruct (nZ 0 <=? g0); [injection S as <-; discriminate|].
  split; [repeat split|]. cbn [l_method] in S. destruct (l_method l) as [a b|t1 t2 ft fm fs m mp|c].
  - injection S as <-. repeat split.
  - unfold nonmonotone_start in S. destruct (store _ _ _) as [fs'|]; [|discriminate]. destruct (nth_error fs' _); [|discriminate].
    destruct (max_loop _ _ _ _); [|discriminate]. injection S as <-. repeat split.
  - injection S as <-. repeat split.
Qed.

(** The class of the method never changes. *)
Lemma params_backtrack l l' : params l = params l' ->
  match l_method l with Backtrack _ _ => False | _ => True end -> match l_method l' with Backtrack _ _ => False | _ => True end.
Proof. unfold params. destruct (l_method l), (l_method l'); try discriminate; tauto. Qed.

(** In the bounds and still a number while the search is in progress, for the nonmonotone search and that of More and Thuente. *)
Lemma run_bounds l0 cs l rs f0 g0 s0 s1 s2 :
  isnum (nZ 0 : N) -> l_task l0 = LS_ERROR -> match l_method l0 with Backtrack _ _ => False | _ => True end ->
  run l0 cs = Some (l, rs) -> l_task l = LS_SEARCH -> last_start cs = Some (f0, g0, s0, s1, s2) ->
  isnum s0 -> isnum s1 -> isnum s2 ->
  num_inv l /\ isnum (l_stp l) /\ (s1 <=? l_stp l) = true /\ (l_stp l <=? s2) = true.
Proof.
  intros Z H0 Hm R. revert R f0 g0 s0 s1 s2. revert cs l rs.
  apply (run_rect (fun cs l rs => forall f0 g0 s0 s1 s2, l_task l = LS_SEARCH -> last_start cs = Some (f0, g0, s0, s1, s2) ->
     isnum s0 -> isnum s1 -> isnum s2 -> num_inv l /\ isnum (l_stp l) /\ (s1 <=? l_stp l) = true /\ (l_stp l <=? s2) = true)); [congruence|].
  intros cs c l1 rs1 l2 r R1 IH D f0 g0 s0 s1 s2 Ht. rewrite last_start_snoc. 
  pose proof (params_backtrack l0 l1 (eq_sym (run_params _ _ _ _ R1)) Hm) as Hm1.
  destruct c as [f0' g0' s s1' s2'|s f g]; simpl in D.
  - destruct (ls_start l1 f0' g0' s s1' s2') as [l'|] eqn:S; [|discriminate]. injection D as <- <-. intros [= -> -> -> -> ->] N0 N1 N2.
    destruct (start_values _ _ _ _ _ _ _ S Ht) as ((T1 & T2 & T3 & T4 & T5) & (_ & -> & E1 & E2 & _ & _) & X).
    split; [unfold num_inv; destruct (l_method l'); auto; rewrite X; exact Z|]. split; [exact N0|]. 
    split; apply (not_lt_le O); auto.
  - destruct (run_state l0 cs l1 rs1 H0 R1) as (_ & St).
    pose proof (iterate_cases l1 s f g) as C. pose proof (iterate_bounds l1 s f g) as B.
    destruct (ls_iterate l1 s f g) as [l' s']. injection D as <- <-. intros Hs N0 N1 N2.
    destruct C as [(_ & -> & _)|[(_ & _ & -> & _)|(Ht1 & Es & E1 & _ & _ & C)]]; try discriminate.
    destruct (IH f0 g0 s0 s1 s2 Ht1 Hs N0 N1 N2) as (I1 & I2 & I3 & I4).
    destruct (St Ht1) as (_ & f0' & g0' & s0' & E & _ & _). rewrite Hs in E. injection E as -> -> -> -> ->.
    assert (Ns : isnum s) by (unfold isnum; revert Es; keys O; destruct (key O s), (key O (l_stp l1)); intros; try discriminate; rbool).
    destruct (method_num l1 s f g Ns N1 N2 I1 Hm1) as [M1 M2].
    destruct (B N1 N2 (nle_trans O _ _ _ I3 I4) Ht (or_intror M1)) as (B1 & B2 & B3).
    subst s'. split; [|auto]. unfold num_inv in *. destruct (method_iterate l1 s f g) as [lm sm]. simpl in M2. destruct C as (Em & _). rewrite Em. exact M2.
Qed.

(** Backtracking: the bounds hold unless the step is a NaN. *)
Lemma run_bounds_nan l0 cs l rs f0 g0 s0 s1 s2 :
  l_task l0 = LS_ERROR -> run l0 cs = Some (l, rs) -> l_task l = LS_SEARCH -> last_start cs = Some (f0, g0, s0, s1, s2) ->
  isnum s0 -> isnum s1 -> isnum s2 ->
  (s1 <=? s2) = true /\ (isnum (l_stp l) -> (s1 <=? l_stp l) = true /\ (l_stp l <=? s2) = true).
Proof.
  intros H0 R. revert R f0 g0 s0 s1 s2. revert cs l rs.
  apply (run_rect (fun cs l rs => forall f0 g0 s0 s1 s2, l_task l = LS_SEARCH -> last_start cs = Some (f0, g0, s0, s1, s2) ->
     isnum s0 -> isnum s1 -> isnum s2 -> (s1 <=? s2) = true /\ (isnum (l_stp l) -> (s1 <=? l_stp l) = true /\ (l_stp l <=? s2) = true))); [congruence|].
  intros cs c l1 rs1 l2 r R1 IH D f0 g0 s0 s1 s2 Ht. rewrite last_start_snoc. 
  destruct c as [f0' g0' s s1' s2'|s f g]; simpl in D.
  - destruct (ls_start l1 f0' g0' s s1' s2') as [l'|] eqn:S; [|discriminate]. injection D as <- <-. intros [= -> -> -> -> ->] N0 N1 N2.
    destruct (start_values _ _ _ _ _ _ _ S Ht) as ((T1 & T2 & T3 & T4 & T5) & (_ & -> & E1 & E2 & _ & _) & X).
    split; [apply (not_lt_le O); auto|]. intros _. split; apply (not_lt_le O); auto.
  - destruct (run_state l0 cs l1 rs1 H0 R1) as (_ & St).
    pose proof (iterate_cases l1 s f g) as C. pose proof (iterate_bounds l1 s f g) as B.
    destruct (ls_iterate l1 s f g) as [l' s']. injection D as <- <-. intros Hs N0 N1 N2.
    destruct C as [(_ & -> & _)|[(_ & _ & -> & _)|(Ht1 & Es & E1 & _ & _ & C)]]; try discriminate.
    destruct (IH f0 g0 s0 s1 s2 Ht1 Hs N0 N1 N2) as (I1 & _).
    destruct (St Ht1) as (_ & f0' & g0' & s0' & E & _ & _). rewrite Hs in E. injection E as -> -> -> -> ->.
    split; [exact I1|]. intros Ns. subst s'. destruct (B N1 N2 I1 Ht (or_introl Ns)) as (B1 & B2 & B3). auto.
Qed.

(** *** The history of the nonmonotone search *)
Lemma max_loop_spec (fs : list N) k j v r : max_loop fs k j v = Some r -> isnum v ->
  (forall i w, (j <= i < j + k)%nat -> nth_error fs i = Some w -> isnum w) ->
  isnum r /\ (v <=? r) = true /\ (r = v \/ exists i, (j <= i < j + k)%nat /\ nth_error fs i = Some r) /\
  (forall i w, (j <= i < j + k)%nat -> nth_error fs i = Some w -> (w <=? r) = true).
Proof.
  revert j v; induction k as [|k IH]; intros j v; simpl.
  - intros [= <-] Hv _. repeat split; auto; [apply (nle_refl O); auto|]. intros; lia.
  - destruct (nth_error fs j) as [a|] eqn:Ej; [|discriminate]. intros H Hv Hn.
    assert (Ha : isnum a) by (apply (Hn j a); [lia|auto]).
    destruct (IH _ _ H) as (R1 & R2 & R3 & R4).
    { destruct (v <? a); auto. }
    { intros i w Hi. apply Hn. lia. }
    assert (Hva : (v <=? r) = true /\ (a <=? r) = true).
    { destruct (v <? a) eqn:E.
      - split; [|exact R2]. eapply (nle_trans O); [apply (nlt_nle O); exact E|exact R2].
      - split; [exact R2|]. eapply (nle_trans O); [|exact R2]. apply (not_lt_le O); auto. }
    split; [exact R1|]. split; [tauto|]. split.
    + destruct R3 as [->|(i & Hi & Ei)].
      * destruct (v <? a); [right; exists j; split; [lia|auto]|left; reflexivity].
      * right; exists i; split; [lia|auto].
    + intros i w Hi Ew. destruct (Nat.eq_dec i j) as [->|]; [replace w with a by congruence; tauto|]. apply (R4 i w); [lia|auto].
Qed.

(** The ring buffer contains the most recent values. *)
Definition ring (fs : list N) (m mp : nat) (h : list N) : Prop :=
  length h = mp /\ forall k, (k < m)%nat -> (k < mp)%nat -> nth_error fs ((mp - 1 - k) mod m) = nth_error h k.

Lemma ring_push fs fs' m mp h v : (1 <= m)%nat -> ring fs m mp h ->
  (forall j, nth_error fs' j = if (j =? mp mod m)%nat then Some v else nth_error fs j) -> ring fs' m (S mp) (v :: h).
Proof.
  intros Hm (L & H) Hs. split; [simpl; congruence|]. intros k Hk Hk'. rewrite Hs.
  replace (S mp - 1 - k)%nat with (mp - k)%nat by lia. destruct k as [|k]; simpl.
  - rewrite Nat.sub_0_r, Nat.eqb_refl. reflexivity.
  - replace (mp - S k)%nat with (mp - 1 - k)%nat by lia. rewrite <- H by lia.
    destruct (Nat.eqb_spec ((mp - 1 - k) mod m) (mp mod m)) as [E|]; [|reflexivity].
    exfalso. assert (mp = (mp - 1 - k) + S k)%nat as Emp by lia. remember (mp - 1 - k)%nat as u. rewrite Emp in E.
    pose proof (Nat.div_mod u m ltac:(lia)) as Du. pose proof (Nat.div_mod (u + S k) m ltac:(lia)) as Dv. rewrite <- E in Dv.
    pose proof (Nat.mod_upper_bound u m ltac:(lia)).
    set (q1 := (u / m)%nat) in *. set (q2 := ((u + S k) / m)%nat) in *. clearbody q1 q2.
    destruct (Nat.le_gt_cases q2 q1) as [Hq|Hq].
    + pose proof (Nat.mul_le_mono_l _ _ m Hq). lia.
    + pose proof (Nat.mul_le_mono_l (S q1) q2 m Hq) as X. rewrite Nat.mul_succ_r in X. lia.
Qed.

Lemma ring_cover (fs : list N) m mp h j : (1 <= m)%nat -> ring fs m mp h -> (j < m)%nat -> (j < mp)%nat ->
  exists k, (k < m)%nat /\ (k < mp)%nat /\ nth_error fs j = nth_error h k.
Proof.
  intros Hm (L & H) Hj Hj'. exists ((mp - 1 - j) mod m)%nat.
  pose proof (Nat.mod_upper_bound (mp - 1 - j) m ltac:(lia)). pose proof (Nat.mod_le (mp - 1 - j) m ltac:(lia)).
  split; [lia|]. split; [lia|]. rewrite <- H by lia. f_equal.
  pose proof (Nat.div_mod (mp - 1 - j) m ltac:(lia)) as D.
  replace (mp - 1 - (mp - 1 - j) mod m)%nat with (j + ((mp - 1 - j) / m) * m)%nat by nia.
  rewrite Nat.mod_add by lia. symmetry. apply Nat.mod_small. lia.
Qed.

Lemma In_firstn_nth {A} (a : A) n (l : list A) : In a (firstn n l) <-> exists k, (k < n)%nat /\ nth_error l k = Some a.
Proof.
  revert n; induction l as [|b l IH]; intros [|n]; simpl; split.
  - tauto. - intros (k & ? & ?); lia. - tauto. - intros (k & _ & E). destruct k; discriminate.
  - tauto. - intros (k & ? & ?); lia.
  - intros [->|Hin]; [exists 0%nat; split; [lia|reflexivity]|]. apply IH in Hin. destruct Hin as (k & Hk & E). exists (S k); split; [lia|exact E].
  - intros (k & Hk & E). destruct k as [|k]; simpl in E; [left; congruence|]. right. apply IH. exists k; split; [lia|exact E].
Qed.

Definition hist_inv (l : ls) (h : list N) : Prop :=
  match l_method l with
  | Nonmonotone _ _ _ fmax fsav m mp =>
    length fsav = m /\ (1 <= m)%nat /\ ring fsav m mp h /\ (Forall isnum h -> h <> [] -> is_max fmax (firstn m h))
  | _ => True
  end.

Lemma start_hist l f0 g0 s s1 s2 l' h : hist_inv l h -> ls_start l f0 g0 s s1 s2 = Some l' ->
  hist_inv l' (match l_task l' with LS_SEARCH => f0 :: h | _ => h end).
Proof.
  unfold ls_start. intros Hi S.
  repeat match type of S with context[if ?b then Some (failure _ _) else _] => destruct b; [injection S as <-; exact Hi|] end.
  cbn [l_method] in S. unfold hist_inv in *. destruct (l_method l) as [a b|t1 t2 ft fm fs m mp|c].
  - injection S as <-. exact I.
  - destruct Hi as (H1 & H2 & Hr & _).
    match type of S with nonmonotone_start ?l0 _ _ _ _ _ _ = _ => 
      destruct (nonmonotone_start_ok l0 t1 t2 ft fs m mp H1 H2) as (fs' & fmax & E & L & Hn & w0 & Ew & Em) end.
    rewrite E in S. injection S as <-. simpl in Hn. cbn [l_task l_method success set_task set_method].
    pose proof (ring_push _ _ _ _ _ _ H2 Hr Hn) as Hr'. split; [exact L|]. split; [exact H2|]. split; [exact Hr'|].
    intros Hh _. rewrite Forall_forall in Hh.
    set (n := (if (S mp <=? m)%nat then S mp else m)) in *.
    assert (Hn1 : (1 <= n <= m)%nat /\ (n <= S mp)%nat /\ (n = m \/ n = S mp)) by (unfold n; destruct (Nat.leb_spec (S mp) m); lia).
    assert (Cov : forall j w, (j < n)%nat -> nth_error fs' j = Some w -> In w (firstn m (f0 :: h))).
    { intros j w Hj E'. destruct (ring_cover fs' m (S mp) (f0 :: h) j H2 Hr') as (k & K1 & K2 & K3); [lia|lia|].
      apply In_firstn_nth. exists k. split; [exact K1|]. congruence. }
    assert (Num : forall j w, (j < n)%nat -> nth_error fs' j = Some w -> isnum w).
    { intros j w Hj E'. apply Hh. specialize (Cov j w Hj E'). rewrite <- (firstn_skipn m (f0 :: h)). apply in_or_app. auto. }
    destruct (max_loop_spec _ _ _ _ _ Em) as (R1 & R2 & R3 & R4).
    { apply (Num 0%nat); auto; lia. }
    { intros i w Hi. apply Num. lia. }
    split.
    + destruct R3 as [->|(i & Hi & Ei)]; [apply (Cov 0%nat); auto; lia|apply (Cov i); auto; lia].
    + intros w Hw. apply In_firstn_nth in Hw. destruct Hw as (k & Hk & Ek).
      assert (Hk' : (k < S mp)%nat). { destruct Hr' as (Lr & _). rewrite <- Lr. apply nth_error_Some. congruence. }
      destruct Hr' as (_ & Hr'). rewrite <- Hr' in Ek by auto. set (j := ((S mp - 1 - k) mod m)%nat) in *.
      assert (Hj : (j < n)%nat).
      { pose proof (Nat.mod_upper_bound (S mp - 1 - k) m ltac:(lia)). fold j in H.
        pose proof (Nat.mod_le (S mp - 1 - k) m ltac:(lia)). fold j in H0. lia. }
      destruct (Nat.eq_dec j 0) as [E0|E0].
      * rewrite E0 in Ek. replace w with w0 by congruence. exact R2.
      * apply (R4 j w); [lia|exact Ek].
  - injection S as <-. exact I.
Qed.

Lemma started_snoc (cs : list (call N)) rs c (r : reply N) : length cs = length rs ->
  started (cs ++ [c]) (rs ++ [r]) = match c, fst r with Start f0 _ _ _ _, LS_SEARCH => [f0] | _, _ => [] end ++ started cs rs.
Proof.
  revert rs; induction cs as [|c' cs IH]; intros [|[t' s'] rs]; try discriminate; intros L; simpl.
  - destruct r as [t s]. simpl. rewrite app_nil_r. reflexivity.
  - rewrite IH by (simpl in L; lia). rewrite <- app_assoc. reflexivity.
Qed.

Lemma run_length l0 cs l (rs : list (reply N)) : run l0 cs = Some (l, rs) -> length cs = length rs.
Proof.
  intros R. revert cs l rs R. apply run_rect; [reflexivity|]. intros. rewrite !app_length. simpl. lia.
Qed.

Lemma run_hist l0 cs l rs : hist_inv l0 [] -> run l0 cs = Some (l, rs) -> hist_inv l (started cs rs).
Proof.
  intros H0 R. revert cs l rs R. apply run_rect; [exact H0|].
  intros cs c l1 rs1 l2 r R1 IH D. rewrite (started_snoc _ _ _ _ (run_length _ _ _ _ R1)).
  destruct c as [f0 g0 s s1 s2|s f g]; simpl in D.
  - destruct (ls_start l1 f0 g0 s s1 s2) as [l'|] eqn:S; [|discriminate]. injection D as <- <-.
    pose proof (start_hist _ _ _ _ _ _ _ _ IH S) as H. simpl. destruct (l_task l'); exact H.
  - pose proof (iterate_cases l1 s f g) as C. destruct (ls_iterate l1 s f g) as [l' s']. injection D as <- <-. simpl.
    destruct C as [(_ & -> & _)|[(_ & _ & -> & _)|(_ & _ & _ & _ & P & _)]]; try exact IH.
    unfold hist_inv, same_params in *. destruct (l_method l1) as [a b|t1 t2 ft fm fs m mp|c]; [rewrite P; exact I|rewrite P; exact IH|].
    destruct (l_method l'); tauto.
Qed.
End Ord.

Section More.
Context {N : Num} (O : OrdLaws N).

Lemma converged_state (l0 : ls N) cs s f g l rs : l_task l0 = LS_ERROR -> run l0 (cs ++ [Iterate s f g]) = Some (l, rs) -> last_task rs = LS_CONVERGENCE ->
  exists l1 rs1, run l0 cs = Some (l1, rs1) /\ l_task l1 = LS_SEARCH /\ accepts l1 s f g = true /\ last_step rs = s.
Proof.
  intros Ht0 R Ht. destruct (run_app _ _ _ _ _ R) as (l1 & rs1 & r & R1 & D & ->). exists l1, rs1. split; [exact R1|].
  unfold last_task, last_step in *. rewrite last_snoc in *. simpl in D.
  pose proof (iterate_converges l1 s f g) as C1. pose proof (iterate_converges_step O l1 s f g) as C2.
  destruct (ls_iterate l1 s f g) as [l' s']. injection D as <- <-. simpl in *. destruct (C1 Ht) as (X & _ & Y). auto.
Qed.

Lemma accepted_state (l0 : ls N) cs l rs f g f0 g0 s0 smin smax : l_task l0 = LS_ERROR -> run l0 cs = Some (l, rs) -> last_task rs = LS_SEARCH ->
  last_start cs = Some (f0, g0, s0, smin, smax) ->
  (smin <? last_step rs) = true -> (last_step rs <? smax) = true -> accepts l (last_step rs) f g = true ->
  exists l', run l0 (cs ++ [Iterate (last_step rs) f g]) = Some (l', rs ++ [(LS_CONVERGENCE, last_step rs)]) /\ ls_get_status (Some l') = SUCCESS.
Proof.
  intros Ht0 R Ht Hs B1 B2 A. destruct (run_state l0 cs l rs Ht0 R) as (T & St). rewrite <- T in Ht.
  destruct (St Ht) as (E0 & f0' & g0' & s' & X & _ & _). rewrite Hs in X. injection X as -> -> -> -> ->.
  assert (Ns : isnum (last_step rs)) by (eapply (le_num_r O); apply (nlt_nle O); exact B1).
  pose proof (iterate_accepts l (last_step rs) f g Ht) as IA. rewrite E0 in IA.
  specialize (IA Ns A (lt_not_le O _ _ B1) (lt_not_le O _ _ B2)).
  destruct (ls_iterate l (last_step rs) f g) as [l' s2] eqn:El. destruct IA as (I1 & I2 & ->).
  exists l'. split; [|exact I2]. eapply app_run; [exact R|]. simpl. rewrite El, I1. reflexivity.
Qed.

Lemma nonmonotone_fmax m ftol sigma1 sigma2 (l0 : ls N) cs l rs : new_nonmonotone true m ftol sigma1 sigma2 = Some l0 -> (m < 2 ^ 60)%Z ->
  run l0 cs = Some (l, rs) -> l_task l = LS_SEARCH -> Forall isnum (started cs rs) ->
  exists fmax fs mp, l_method l = Nonmonotone sigma1 sigma2 ftol fmax fs (Z.to_nat m) mp /\ is_max fmax (firstn (Z.to_nat m) (started cs rs)).
Proof.
  intros Hn Hm R Ht Hv. assert (Hc : created l0) by (right; left; eauto 10). destruct (created_inv l0 Hc) as [Hi Ht0].
  assert (H0 : hist_inv l0 []).
  { unfold hist_inv. unfold ls_inv in Hi. destruct (l_method l0) as [a b|t1 t2 ft fm fs k mp|c] eqn:Em; auto. destruct Hi as [H1 H2].
    split; [exact H1|]. split; [exact H2|]. split; [|congruence]. unfold new_nonmonotone in Hn. destruct (_ || _); [discriminate|]. injection Hn as <-.
    simpl in Em. injection Em as <- <- <- <- <- <- <-. split; [reflexivity|]. intros; lia. }
  pose proof (run_hist O l0 cs l rs H0 R) as Hh. pose proof (run_params _ _ _ _ R) as P.
  unfold hist_inv in Hh. unfold params in P. unfold new_nonmonotone in Hn. destruct (_ || _); [discriminate|]. injection Hn as <-. simpl in P.
  destruct (l_method l) as [a b|t1 t2 ft fm fs k mp|c]; try discriminate. injection P as -> -> -> ->.
  destruct Hh as (_ & _ & Hr & Hx). exists fm, fs, mp. split; [reflexivity|]. apply Hx; auto.
  (* a search has been started *)
  assert (Ne : forall cs l rs, run (allocate_line_search (Nonmonotone sigma1 sigma2 ftol (nZ 0) (repeat (nZ 0) (Z.to_nat (nm_capacity m))) (Z.to_nat m) 0)) cs = Some (l, rs) -> l_task l = LS_SEARCH -> started cs rs <> []).
  { clear. apply (run_rect (fun cs l rs => l_task l = LS_SEARCH -> started cs rs <> [])); [discriminate|].
    intros cs c l1 rs1 l2 r R1 IH D Ht. rewrite (started_snoc _ _ _ _ (run_length _ _ _ _ R1)).
    destruct c as [f0 g0 s s1 s2|s f g]; simpl in D.
    - destruct (ls_start l1 f0 g0 s s1 s2) as [l'|] eqn:S; [|discriminate]. injection D as <- <-. simpl. rewrite Ht. discriminate.
    - pose proof (iterate_cases l1 s f g) as C. destruct (ls_iterate l1 s f g) as [l' s']. injection D as <- <-. simpl.
      destruct C as [(_ & -> & _)|[(_ & _ & -> & _)|(X & _)]]; try discriminate. auto. }
  eapply Ne; eauto.
Qed.
End More.
