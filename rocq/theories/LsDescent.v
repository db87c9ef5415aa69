(** * The line searches decrease the objective function along the search path: exact arithmetic *)
From Coq Require Import List ZArith Bool Arith Lia Reals Lra Psatz.
From Flocq Require Import Core.
From Verif Require Import Num NumFacts OrdFacts Base LsModel LsSpec ListFacts LsProofs LsOrd LsReal.
Import ListNotations.
Local Open Scope R_scope.

Section Descent.
Variables H I : R.
Notation NR := (NumR H I).

(** The tolerance of the sufficient decrease, for the monotone line searches. *)
Definition monotone (l : ls NR) : Prop :=
  match l_method l with Backtrack ft _ => 0 < ft | Csrch c => 0 <= cs_ftol c | Nonmonotone _ _ _ _ _ _ _ => False end.
Definition armijo_tol (l : ls NR) : R :=
  match l_method l with Backtrack ft _ => ft | Csrch c => cs_ftol c | Nonmonotone _ _ ft _ _ _ _ => ft end.

Lemma params_monotone (l l' : ls NR) : params l' = params l -> monotone l -> monotone l' /\ armijo_tol l' = armijo_tol l.
Proof.
  unfold params, monotone, armijo_tol. destruct (l_method l) as [a b|s1 s2 ft fm fs m mp|c], (l_method l') as [a' b'|s1' s2' ft' fm' fs' m' mp'|c']; intros E; try discriminate.
  - injection E as -> ->. auto.
  - tauto.
  - injection E as -> _ _. auto.
Qed.

(** The objective function along the path is [phi]; the best step so far is [cs_stx]. *)
Definition cs_good (phi : R -> R) (l : ls NR) (c : csrch NR) : Prop :=
  cs_gtest c = (cs_ftol c * l_ginit l)%R /\ cs_fx c = phi (cs_stx c) /\ cs_fx c <= l_finit l /\ 0 <= cs_stx c <= l_stpmax l /\
  (0 < cs_ftol c -> cs_stx c = 0 \/ cs_fx c < l_finit l) /\ (0 < cs_ftol c -> cs_stage c = 1%Z \/ 0 < cs_stx c).

Definition ls_good (phi : R -> R) (l : ls NR) : Prop :=
  monotone l /\ phi 0 = l_finit l /\ l_ginit l < 0 /\ 0 <= l_stpmin l /\ l_stpmin l <= l_stp l <= l_stpmax l /\
  match l_method l with
  | Csrch c => cs_good phi l c /\
      (cs_brackt c = true -> l_stp l <= cs_stmin c \/ cs_stmax c <= l_stp l -> l_stp l = cs_stx c \/ l_stp l = l_stpmin l)
  | _ => True
  end.

Lemma good_start phi (l l' : ls NR) (f0 g0 s s1 s2 : R) : monotone l -> phi 0 = f0 -> ls_start l f0 g0 s s1 s2 = Some l' -> l_task l' = LS_SEARCH -> ls_good phi l'.
Proof.
  intros Hm Hp S Ht. assert (Hp' := start_params _ _ _ _ _ _ _ S).
  destruct (start_values _ _ _ _ _ _ _ S Ht) as ((T1 & T2 & T3 & T4 & T5) & (_ & E1 & E2 & E3 & E4 & E5) & _).
  simpl in T1, T2, T3, T4, T5. rb. change (IZR 0) with 0 in *.
  unfold ls_good. split; [apply (params_monotone _ _ Hp' Hm)|].
  change (num NR) with R in *. rewrite E1, E2, E3, E4, E5. split; [exact Hp|]. split; [lra|]. split; [lra|]. split; [lra|].
  unfold ls_start in S.
  repeat match type of S with context[if ?b then Some (failure _ _) else _] => destruct b; [injection S as <-; discriminate|] end.
  cbn [l_method] in S. destruct (l_method l) as [a b|t1 t2 ft fm fs m mp|c] eqn:Em.
  - injection S as <-. exact Logic.I.
  - unfold monotone in Hm. rewrite Em in Hm. contradiction.
  - injection S as <-. simpl in *. split; [|discriminate]. unfold cs_good. simpl.
    repeat split; auto; try lra.
Qed.

Lemma csrch_good phi (l : ls NR) (c : csrch NR) (stp g : R) : l_method l = Csrch c -> 0 <= cs_ftol c ->
  phi 0 = l_finit l -> l_ginit l < 0 -> 0 <= l_stpmin l -> l_stpmin l <= stp <= l_stpmax l -> cs_good phi l c ->
  let '(l1, s1) := csrch_iterate l c stp (phi stp) g in
  (l_task l1 = LS_SEARCH -> exists c', l_method l1 = Csrch c' /\ cs_ftol c' = cs_ftol c /\ cs_good phi l c' /\ s1 <= l_stpmax l /\
      (cs_brackt c' = true -> s1 <= cs_stmin c' \/ cs_stmax c' <= s1 -> s1 = cs_stx c') /\ (l_stpmin l <= s1 \/ s1 = cs_stx c')) /\
  (l_task l1 = LS_WARNING -> l_status l1 = ROUNDING_ERRORS_PREVENT_PROGRESS ->
     s1 = stp /\ cs_brackt c = true /\ (stp <= cs_stmin c \/ cs_stmax c <= stp)).
Proof.
  intros Em Hft H0 Hg Hmin Hs (G1 & G2 & G3 & G4 & G5 & G6). unfold csrch_iterate. 
  match goal with |- context[if ?b then (success _ _, _) else _] => destruct b eqn:A1 end; [split; discriminate|].
  match goal with |- context[if ?b then (warning _ _, _) else _] => destruct b eqn:A2 end; [split; [discriminate|intros _ Q; discriminate Q]|].
  match goal with |- context[if ?b then (warning _ _, _) else _] => destruct b eqn:A3 end; [split; [discriminate|intros _ Q; discriminate Q]|].
  match goal with |- context[if ?b then (warning _ _, _) else _] => destruct b eqn:A4 end; [split; [discriminate|intros _ Q; discriminate Q]|].
  match goal with |- context[if ?b then (warning _ _, _) else _] => destruct b eqn:A5 end.
  { split; [discriminate|]. intros _ _. apply andb_prop in A5. destruct A5 as [A5 A6]. split; [reflexivity|]. split; [exact A5|].
    apply orb_prop in A6. simpl in A6. destruct A6; rb; auto. }
  clear A1 A3 A4 A5.
  change (num NR) with R in *.
  set (ftest := nadd (n := NR) (l_finit l) (nmul (n := NR) stp (cs_gtest c))) in *.
  set (stage := if _ : bool then 2%Z else cs_stage c).
  assert (St : 0 < cs_ftol c -> stage = 1%Z \/ 0 < cs_stx c \/ (phi stp <= l_finit l + stp * cs_gtest c /\ 0 < stp)).
  { intros Hp. unfold stage. destruct (_ && _ && _) eqn:B.
    - apply andb_prop in B. destruct B as [B B3]. apply andb_prop in B. destruct B as [B1 B2]. simpl in B2, B3. rb. change (IZR 0) with 0 in B3.
      right. right. split; [exact B2|]. destruct (Rle_lt_or_eq_dec 0 stp) as [?|E0]; [lra|assumption|]. exfalso.
      assert (l_stpmin l = 0) by lra. apply andb_false_iff in A2. simpl in A2. destruct A2 as [A2|A2].
      + rb. apply A2. lra.
      + apply orb_false_elim in A2. destruct A2 as [_ A2]. rb. assert (cs_ftol c * l_ginit l < 0) by nra. lra.
    - destruct (G6 Hp); auto. }
  clear A2.
  assert (Gt : cs_gtest c <= 0) by (rewrite G1; nra).
  assert (Gts : 0 < cs_ftol c -> cs_gtest c < 0) by (intros; rewrite G1; nra).
  match goal with |- context[let '(_, _) := ?X in _] => assert (B : fst X = SUCCESS ->
    (stx (snd X), fx (snd X)) = (stp, phi stp) /\ phi stp <= cs_fx c /\ stp <> cs_stx c /\
      ((stage <> 1%Z \/ phi stp <= ftest) \/ phi stp - stp * cs_gtest c <= cs_fx c - cs_stx c * cs_gtest c) \/
    (stx (snd X), fx (snd X)) = (cs_stx c, cs_fx c) /\ (stage = 1%Z \/ cs_fx c <= phi stp)); [|destruct X as [res b]; cbn [fst snd] in B] end.
  { destruct ((stage =? 1)%Z && _ && _) eqn:B.
    - destruct (opk_cstep _ _ _ _ _) as [res b] eqn:C. cbn [fst snd stx fx]. intros ->.
      assert (C' := C). apply cstep_main in C. destruct C as (C1 & C2 & _). cbn [stx fx dx sty fy dy stp_ brackt] in C1, C2.
      unfold opk_cstep in C'. destruct (cstep_check _ _ _) eqn:K; try discriminate. apply cstep_accepts in K. destruct K as (_ & K & _). cbn [stx dx stp_] in K.
      apply andb_prop in B. destruct B as [B B2]. apply andb_prop in B. destruct B as [B0 B1]. simpl in B1. rb.
      destruct C2 as [(C2 & _)|(C2 & _)]; injection C2 as E1 E2 _; simpl in *.
      + left. split; [f_equal; [exact E1|rewrite E1, E2; ring]|]. split; [exact B1|]. split; [intros E; rewrite E in K; lra|]. right.
        rewrite E2 in C1. pose proof (Rmin_l (cs_fx c - cs_stx c * cs_gtest c) (phi stp - stp * cs_gtest c)). lra.
      + right. split; [f_equal; [exact E1|rewrite E1, E2; ring]|]. left. apply Z.eqb_eq. exact B0.
    - destruct (opk_cstep _ _ _ _ _) as [res b] eqn:C. cbn [fst snd stx fx]. intros ->.
      assert (C' := C). apply cstep_main in C. destruct C as (C1 & C2 & _). cbn [stx fx dx sty fy dy stp_ brackt] in C1, C2.
      unfold opk_cstep in C'. destruct (cstep_check _ _ _) eqn:K; try discriminate. apply cstep_accepts in K. destruct K as (_ & K & _). cbn [stx dx stp_] in K.
      destruct C2 as [(C2 & _)|(C2 & _)]; injection C2 as E1 E2 _; simpl in *.
      + left. rewrite E1, E2. split; [reflexivity|]. 
        assert (F : phi stp <= cs_fx c) by (rewrite E2 in C1; pose proof (Rmin_l (cs_fx c) (phi stp)); lra).
        split; [exact F|]. split; [intros E; rewrite E in K; lra|]. left.
        destruct (Z.eqb_spec stage 1); [|left; assumption]. right.
        cbn [andb] in B. apply andb_false_iff in B. destruct B as [B|B]; rb; [exfalso; lra|exact B].
      + right. split; [f_equal; assumption|]. right. rewrite E2 in C1. pose proof (Rmin_r (cs_fx c) (phi stp)). lra. }
  destruct res; try (split; discriminate).
  split; [|discriminate]. intros _. specialize (B eq_refl).
  eexists. split; [reflexivity|]. cbn [cs_ftol cs_gtol cs_xtol cs_gtest cs_stx cs_fx cs_stmin cs_stmax cs_brackt cs_stage].
  split; [reflexivity|].
  assert (X : 0 <= stx b <= l_stpmax l /\ cs_gtest c = cs_ftol c * l_ginit l /\ fx b = phi (stx b) /\ fx b <= l_finit l /\
    (0 < cs_ftol c -> stx b = 0 \/ fx b < l_finit l) /\ (0 < cs_ftol c -> stage = 1%Z \/ 0 < stx b)).
  { destruct B as [(E & F1 & F2 & F3)|[E E3]]; injection E as E1 E2; rewrite E1, E2.
    - split; [lra|]. split; [exact G1|]. split; [reflexivity|]. split; [lra|].
      assert (P : 0 < cs_ftol c -> phi stp < l_finit l /\ 0 < stp).
      { intros Hp. destruct (Rle_lt_or_eq_dec 0 stp) as [Ps|Ps]; [lra| |].
        - split; [|exact Ps]. destruct (G5 Hp) as [Z0|L]; [|lra]. 
          assert (cs_fx c = l_finit l) by (rewrite G2, Z0; exact H0).
          specialize (Gts Hp). destruct F3 as [[F3|F3]|F3].
          + destruct (St Hp) as [?|[?|[? _]]]; [contradiction|lra|nra].
          + unfold ftest in F3. simpl in F3. nra.
          + rewrite Z0 in F3. nra.
        - exfalso. rewrite <- Ps in F1, F2. destruct (G5 Hp) as [Z0|L]; [congruence|]. lra. }
      split; intros Hp; destruct (P Hp); auto.
    - split; [lra|]. split; [exact G1|]. split; [exact G2|]. split; [exact G3|]. split; [exact G5|].
      intros Hp. destruct (St Hp) as [?|[?|[F Ps]]]; auto. destruct (G6 Hp); auto.
      destruct E3 as [?|E3]; [auto|]. right. destruct (Rle_lt_or_eq_dec 0 (cs_stx c)) as [?|Z0]; [lra|assumption|]. exfalso.
      specialize (Gts Hp). assert (cs_fx c = l_finit l) by (rewrite G2, <- Z0; exact H0). nra. }
  destruct X as (X1 & X2 & X3 & X4 & X5 & X6).
  split; [exact (conj X2 (conj X3 (conj X4 (conj X1 (conj X5 X6)))))|].
  match goal with |- context[OPK_MAX ?x (l_stpmin l)] => set (s0 := x); clearbody s0 end.
  match goal with |- context[if brackt b then OPK_MIN ?x ?y else ?z] => set (stmin := if brackt b then OPK_MIN x y else z); clearbody stmin end.
  match goal with |- context[if brackt b then OPK_MAX ?x ?y else ?z] => set (stmax := if brackt b then OPK_MAX x y else z); clearbody stmax end.
  set (s2 := OPK_MIN _ _).
  assert (S2 : l_stpmin l <= s2 <= l_stpmax l).
  { unfold s2, OPK_MIN, OPK_MAX. simpl. 
    repeat match goal with |- context[Rlt_bool ?x ?y] => destruct (Rlt_bool_spec x y) | |- context[Rle_bool ?x ?y] => destruct (Rle_bool_spec x y) end; lra. }
  clearbody s2. destruct (brackt b); cbn [andb].
  - destruct (_ || _) eqn:O.
    + split; [lra|]. auto.
    + split; [lra|]. split; [|left; lra]. intros _ Q. exfalso. apply orb_false_elim in O. destruct O as [O _]. apply orb_false_elim in O.
      simpl in O. destruct O. rb. simpl in *. lra.
  - split; [lra|]. split; [discriminate|left; lra].
Qed.

Lemma good_iterate phi (l l' : ls NR) (g s' : R) : ls_good phi l -> l_task l = LS_SEARCH -> ls_iterate l (l_stp l) (phi (l_stp l)) g = (l', s') ->
  (l_task l' = LS_SEARCH -> ls_good phi l') /\ l_finit l' = l_finit l /\ l_ginit l' = l_ginit l /\ monotone l' /\ armijo_tol l' = armijo_tol l /\
  (l_task l' = LS_CONVERGENCE -> 0 < l_stp l /\ phi (l_stp l) <= l_finit l + armijo_tol l * l_stp l * l_ginit l) /\
  (l_task l' = LS_WARNING -> l_status l' = ROUNDING_ERRORS_PREVENT_PROGRESS ->
     phi (l_stp l) <= l_finit l /\ (0 < armijo_tol l -> phi (l_stp l) < l_finit l)).
Proof.
  intros (Hm & H0 & Hg & Hmin & Hs & Hc) Ht E.
  assert (P := iterate_params l (l_stp l) (phi (l_stp l)) g). rewrite E in P. cbn [fst] in P. destruct (params_monotone _ _ P Hm) as [Hm' Ha].
  pose proof (iterate_cases l (l_stp l) (phi (l_stp l)) g) as C. pose proof (iterate_converges l (l_stp l) (phi (l_stp l)) g) as V.
  rewrite E in C, V. destruct C as [(? & _)|[(_ & Es & _)|(_ & _ & El & (B1 & B2 & B3 & B4) & SP & C)]]; [contradiction| |].
  { simpl in Es. rb. congruence. }
  split; [|split; [exact B3|split; [exact B4|split; [exact Hm'|split; [exact Ha|split]]]]].
  - (* the search goes on *)
    intros Ht'. unfold ls_good. change (num NR) with R in *. rewrite B1, B2, B3, B4, El. split; [exact Hm'|]. split; [exact H0|]. split; [exact Hg|]. split; [exact Hmin|].
    destruct (method_iterate l (l_stp l) (phi (l_stp l)) g) as [l1 s1] eqn:M. destruct C as (Em & C).
    assert (R : l_stpmin l <= s' <= l_stpmax l /\ l_task l1 = LS_SEARCH /\ (s' = s1 \/ s1 <= l_stpmin l /\ s' = l_stpmin l \/ l_stpmax l <= s1 /\ s' = l_stpmax l)).
    { destruct C as [(X & -> & [(_ & Y & _)|(_ & Y & _)])|[(X & X' & -> & [(_ & _ & Y & _)|(_ & Y & _)])|(X & X' & -> & Y & _)]]; try congruence; simpl in *; rb; (split; [lra|]; split; [congruence|]); auto. }
    destruct R as (R1 & R2 & R3). split; [exact R1|].
    unfold monotone in Hm, Hm'. rewrite Em in *. unfold method_iterate in M. destruct (l_method l) as [ft am|t1 t2 ft fm fs m mp|c] eqn:El0; [| |].
    + destruct (l_method l1) eqn:E1; auto. unfold same_params in SP. rewrite El0, Em in SP. discriminate.
    + contradiction.
    + pose proof (csrch_good phi l c (l_stp l) g El0 Hm H0 Hg Hmin Hs (proj1 Hc)) as G. rewrite M in G. destruct G as [G _].
      destruct (G R2) as (c' & E1 & _ & G1 & G2 & G3 & G4). rewrite E1.
      assert (R4 : s' = s1 \/ s' = l_stpmin l) by (destruct R3 as [?|[[? ?]|[? ?]]]; auto; left; lra).
      split.
      * unfold cs_good in *. rewrite B2, B3, B4. exact G1.
      * intros Hb Hx. destruct R4 as [-> | ->]; auto.
  - (* convergence *)
    intros Ht'. destruct (V Ht') as (_ & _ & A). 
    assert (Ps : 0 < l_stp l).
    { destruct (method_iterate l (l_stp l) (phi (l_stp l)) g) as [l1 s1] eqn:M. destruct C as (Em & C).
      pose proof (method_iterate_accepts l (l_stp l) (phi (l_stp l)) g) as MA. rewrite A, M in MA. injection MA as -> ->.
      destruct C as [(X & _ & [(_ & Y & _)|(Y & _)])|[(X & X' & _ & _)|(X & X' & _ & Y & _)]]; try congruence; simpl in X; rb; simpl in *; lra. }
    split; [exact Ps|]. unfold accepts in A. unfold armijo_tol. destruct (l_method l) as [ft am|t1 t2 ft fm fs m mp|c] eqn:El0.
    + simpl in A. rb. exact A.
    + unfold monotone in Hm. rewrite El0 in Hm. contradiction.
    + apply andb_prop in A. destruct A as [A _]. simpl in A. rb. destruct Hc as ((G1 & _) & _). simpl in A. change (num NR) with R in *. rewrite G1 in A. lra.
  - (* rounding errors *)
    intros Ht' Hst. destruct (method_iterate l (l_stp l) (phi (l_stp l)) g) as [l1 s1] eqn:M. destruct C as (Em & C).
    assert (R : l_task l1 = LS_WARNING /\ l_status l1 = ROUNDING_ERRORS_PREVENT_PROGRESS).
    { destruct C as [(X & -> & [(_ & _ & Y)|(_ & Y & Y')])|[(X & X' & -> & [(_ & _ & _ & Y)|(_ & Y & Y')])|(X & X' & -> & Y & Y')]]; simpl in *; split; congruence. }
    destruct R as [R1 R2]. unfold method_iterate in M. unfold monotone in Hm. unfold armijo_tol. destruct (l_method l) as [ft am|t1 t2 ft fm fs m mp|c] eqn:El0.
    + unfold backtrack_iterate in M. destruct (nle _ _); [injection M as <- <-; discriminate|]. destruct (nle _ _); injection M as <- <-; discriminate.
    + contradiction.
    + destruct Hc as [Hc Hb]. pose proof (csrch_good phi l c (l_stp l) g El0 Hm H0 Hg Hmin Hs Hc) as G. rewrite M in G. destruct G as [_ G].
      destruct (G R1 R2) as (-> & G1 & G2).
      assert (Lt : l_stpmin l < l_stp l).
      { destruct C as [(X & _ & [(_ & _ & Y)|(Y & _)])|[(X & X' & _ & _)|(X & X' & _ & _)]]; [congruence|congruence| |]; simpl in X; rb; simpl in *; lra. }
      destruct (Hb G1 G2) as [Es|Es]; [|rewrite Es in Lt; lra].
      destruct Hc as (_ & F1 & F2 & F3 & F4 & _). rewrite Es in *. rewrite <- F1. split; [exact F2|]. intros Hp. destruct (F4 Hp); [lra|assumption].
Qed.
End Descent.
