(** * Properties of BOBYQA (bobyqa.c)

    The theorems are about [bobyqa_optimize] (BqModel.v); the specification is in BqSpec.v: [layout] describes the arrays of
    the caller, [outputs] the cells of x and of the workspace, [final] the state at the end of an execution.  The number of
    steps [fuel] is arbitrary, so that the theorems hold at any moment of an execution that does not end. *)
From Coq Require Import ZArith Reals List Bool Lia Lra.
From Flocq Require Import Core BinarySingleNaN.
From Verif Require Import Num NumFacts BqLang BqModel BqWp BqSafe BqEval BqRun BqSpec BqTop BqCast BqStart.
Import ListNotations.
Local Open Scope Z_scope.

(** ** C43: the workspace *)

(** The arrays given by bobyqa_optimize to bobyqb: offset in w and number of elements, in the order of the arguments of bobyqb
    (xbase, xpt, fval, xopt, gopt, hq, pq, bmat, zmat, sl, su, xnew, xalt, d, vlag, w) *)
Definition arrays (n npt : Z) : list (Z * Z) :=
  [(ixb, n); (ixp n, npt * n); (ifv n npt, npt); (ixo n npt, n); (igo n npt, n); (ihq_ n npt, n * (n + 1) / 2);
   (ipq n npt, npt); (ibmat n npt, (npt + n) * n); (izmat n npt, npt * (npt - n - 1)); (isl n npt, n); (isu n npt, n);
   (ixn n npt, n); (ixa n npt, n); (id_ n npt, n); (ivl n npt, npt + n); (iw_ n npt, 3 * (npt + n))].

(** Arrays one after the other, from [o] to [e] *)
Fixpoint chain (o e : Z) (l : list (Z * Z)) : Prop :=
  match l with [] => o <= e | (a, k) :: l => o = a /\ 0 <= k /\ chain (a + k) e l end.
Lemma chain_end l : forall o e, chain o e l -> o <= e.
Proof. induction l as [|[a k] l IH]; intros o e; cbn [chain]; [auto|]. intros (A & B & C). apply IH in C. lia. Qed.
Lemma chain_ok l : forall o e, 0 <= o -> chain o e l ->
  Forall (fun a => o <= fst a /\ 0 <= fst a /\ 0 <= snd a /\ fst a + snd a <= e) l /\
  ForallOrdPairs (fun a b => fst a + snd a <= fst b) l.
Proof.
  induction l as [|[a k] l IH]; intros o e Ho; cbn [chain]; [split; constructor|].
  intros (A & B & C). destruct (IH (a + k) e ltac:(lia) C) as [D E]. apply chain_end in C. split; constructor; auto.
  - cbn [fst snd]. lia.
  - eapply Forall_impl; [|exact D]. cbn. lia.
  - eapply Forall_impl; [|exact D]. cbn. intros x. lia.
Qed.

Theorem C43_partition n npt :
  2 <= n -> n + 2 <= npt <= (n + 1) * (n + 2) / 2 ->
  Forall (fun a => 0 <= fst a /\ 0 <= snd a /\ fst a + snd a <= (npt + 5) * (npt + n) + 3 * n * (n + 5) / 2) (arrays n npt) /\
  ForallOrdPairs (fun a b => fst a + snd a <= fst b) (arrays n npt).
Proof.
  intros Hn Hnpt. pose proof (partition_end n npt) as Pe. unfold work_size in Pe.
  destruct (chain_ok (arrays n npt) 0 ((npt + 5) * (npt + n) + 3 * n * (n + 5) / 2)) as [A B].
  - lia.
  - rewrite <- Pe. unfold arrays. cbn [chain].
    assert (Q1 : 0 <= npt * n) by (apply Z.mul_nonneg_nonneg; lia).
    assert (Q2 : 0 <= (npt + n) * n) by (apply Z.mul_nonneg_nonneg; lia).
    assert (Q3 : 0 <= npt * (npt - n - 1)) by (apply Z.mul_nonneg_nonneg; lia).
    assert (Q4 : 0 <= n * (n + 1) / 2) by (apply Z.div_pos; [apply Z.mul_nonneg_nonneg; lia|lia]).
    split; [unfold ixb; reflexivity|]. split; [lia|]. split; [unfold ixp; reflexivity|]. split; [exact Q1|].
    split; [unfold ifv; f_equal; ring|]. split; [lia|]. split; [unfold ixo; reflexivity|]. split; [lia|].
    split; [unfold igo; reflexivity|]. split; [lia|]. split; [unfold ihq_; reflexivity|]. split; [exact Q4|].
    split; [unfold ipq; reflexivity|]. split; [lia|]. split; [unfold ibmat; reflexivity|]. split; [exact Q2|].
    split; [unfold izmat; reflexivity|]. split; [exact Q3|]. split; [unfold isl; f_equal; ring|]. split; [lia|].
    split; [unfold isu; reflexivity|]. split; [lia|]. split; [unfold ixn; reflexivity|]. split; [lia|].
    split; [unfold ixa; reflexivity|]. split; [lia|]. split; [unfold id_; reflexivity|]. split; [lia|].
    split; [unfold ivl; reflexivity|]. split; [lia|]. split; [unfold iw_; reflexivity|]. split; [lia|].
    unfold ndim_. lia.
  - split; [|exact B]. eapply Forall_impl; [|exact A]. cbn. tauto.
Qed.
Example C43_partition_ex : arrays 2 5 =
  [(0, 2); (2, 10); (12, 5); (17, 2); (19, 2); (21, 3); (24, 5); (29, 14); (43, 10); (53, 2); (55, 2); (57, 2); (59, 2); (61, 2);
   (63, 7); (70, 21)] /\ (5 + 5) * (5 + 2) + 3 * 2 * (2 + 5) / 2 = 91.
Proof. split; reflexivity. Qed.
Print Assumptions C43_partition.

(** Whatever the arithmetic (any rounding, overflows, NaN), no access is made out of the arrays of the caller and nothing else
    than x and the workspace is modified; [cast_ok] is about one conversion of a number to an index. *)
Theorem C43_memory_safe (N : Num) n npt maximize fn x xl xu scl (rhobeg rhoend : N) maxfun w fuel s :
  layout n npt x xl xu scl w s -> evs s = [] ->
  (2 <= n -> n + 2 <= npt <= (n + 1) * (n + 2) / 2 -> cast_ok N n npt) ->
  exists s', final (bobyqa_optimize n npt maximize fn x xl xu scl rhobeg rhoend maxfun w fuel s) = Some s' /\
    forall a, ~ outputs n npt x scl w a -> mm s' a = mm s a.
Proof.
  intros HL He Hc.
  destruct (optimize_all n npt maximize fn x xl xu scl rhobeg rhoend maxfun w fuel s HL He Hc
    (fun i => match mm s (at1 xl i) with Some v => v | None => rhobeg end)
    (fun i => match mm s (at1 xu i) with Some v => v | None => rhobeg end)
    (fun i => match scl with Some a => match mm s (at1 a i) with Some v => v | None => rhobeg end | None => rhobeg end))
    with (pt := fun (_ : Z) (_ : N) => True) as (s' & E & F & _).
  - intros i Hi. destruct (cells1 s xl n i (l_xl _ _ _ _ _ _ _ _ HL) Hi) as [v ->]. reflexivity.
  - intros i Hi. destruct (cells1 s xu n i (l_xu _ _ _ _ _ _ _ _ HL) Hi) as [v ->]. reflexivity.
  - intros a i -> Hi. destruct (cells1 s a n i (l_scl _ _ _ _ _ _ _ _ HL) Hi) as [v ->]. reflexivity.
  - intros _ _ _ i Hi. auto.
  - intros _ _ _ _ _ i Hi. auto.
  - exists s'. auto.
Qed.
Print Assumptions C43_memory_safe.

(** The condition on the conversion holds in double precision and in exact arithmetic. *)
Theorem C43_memory_safe_double n npt maximize fn x xl xu scl (rhobeg rhoend : NumD) maxfun w fuel s :
  npt <= 2 ^ 51 ->
  layout n npt x xl xu scl w s -> evs s = [] ->
  exists s', final (bobyqa_optimize n npt maximize fn x xl xu scl rhobeg rhoend maxfun w fuel s) = Some s' /\
    forall a, ~ outputs n npt x scl w a -> mm s' a = mm s a.
Proof. intros Hn HL He. apply C43_memory_safe; auto. intros H1 _. apply cast_ok_D; auto. Qed.
Print Assumptions C43_memory_safe_double.

Theorem C43_memory_safe_exact H I n npt maximize fn x xl xu scl (rhobeg rhoend : NumR H I) maxfun w fuel s :
  layout n npt x xl xu scl w s -> evs s = [] ->
  exists s', final (bobyqa_optimize n npt maximize fn x xl xu scl rhobeg rhoend maxfun w fuel s) = Some s' /\
    forall a, ~ outputs n npt x scl w a -> mm s' a = mm s a.
Proof. intros HL He. apply C43_memory_safe; auto. intros H1 _. apply cast_ok_R; auto. Qed.
Print Assumptions C43_memory_safe_exact.

(** A call with two variables: x at the address 0, xl at 10, xu at 20, scl at 30, the workspace at 100. *)
Definition ex_mem {N : Num} (x0 x1 l0 l1 u0 u1 c0 c1 : N) : mst N :=
  mkmst (fun a => if (a <? 0) || (300 <=? a) then None else
    Some (if a =? 0 then x0 else if a =? 1 then x1 else if a =? 10 then l0 else if a =? 11 then l1 else
          if a =? 20 then u0 else if a =? 21 then u1 else if a =? 30 then c0 else if a =? 31 then c1 else nZ 0)) [].
Lemma ex_layout {N : Num} (x0 x1 l0 l1 u0 u1 c0 c1 : N) scl :
  scl = None \/ scl = Some 30 -> layout 2 5 0 10 20 scl 100 (ex_mem x0 x1 l0 l1 u0 u1 c0 c1).
Proof.
  assert (K : forall a k, 0 <= a -> a + k <= 300 -> cells (ex_mem x0 x1 l0 l1 u0 u1 c0 c1) a k).
  { intros a k H1 H2 i Hi. cbn [mm ex_mem]. destruct (Z.ltb_spec (a + i) 0); [lia|]. destruct (Z.leb_spec 300 (a + i)); [lia|].
    cbn [orb]. eauto. }
  intros [->| ->]; constructor; try (apply K; cbn; lia); unfold apart; cbn; auto; lia.
Qed.
(** (x0 - 3)^2 + (x1 + 1)^2 *)
Definition ex_fn {N : Num} (_ : list (list N * N)) (p : list N) : N :=
  match p with [a; b] => let u := nsub a (nZ 3) in let v := nadd b (nZ 1) in nadd (nmul u u) (nmul v v) | _ => nZ 0 end.

(** A run in double precision: the number of evaluations and the status *)
Example C43_run :
  match bobyqa_optimize 2 5 false ex_fn 0 10 20 (Some 30) (nZ 1) (nQ 1 10 : NumD) 8 100 2000
          (ex_mem (nZ 0) (nZ 0) (nZ (-10)) (nZ (-10)) (nZ 10) (nZ 10) (nZ 2) (nZ 1)) with
  | Ret r s => (length (evs s), match r with BQ_TOO_MANY_EVALUATIONS => true | _ => false end) = (8%nat, true)
  | _ => False
  end.
Proof. vm_compute. reflexivity. Qed.

(** ** C44: the starting point *)

(** The bounds [xl], [xu] are those of the caller or, if scaling, the scaled ones; the moves from the starting point are kept in
    the cells [sl] and [su] of the workspace. *)
Theorem C44_starting_point H I n npt x w xl xu (rhobeg : NumR H I) (s : mst (NumR H I)) (lo hi x0 : Z -> R) :
  (0 < rhobeg)%R -> 0 <= n ->
  let sl := w + isl n npt in
  let su := w + isu n npt in
  (forall j, 0 <= j < n -> mm s (xl + j) = Some (lo j)) -> (forall j, 0 <= j < n -> mm s (xu + j) = Some (hi j)) ->
  (forall j, 0 <= j < n -> mm s (x + j) = Some (x0 j)) -> cells s sl (n + n) ->
  apart x n xl n -> apart x n xu n -> apart x n sl (n + n) -> apart xl n sl (n + n) -> apart xu n sl (n + n) ->
  exists r s', opt_start n npt x rhobeg w xl xu s = Ret r s' /\ evs s' = evs s /\
    (forall b, ~ (x <= b < x + n) -> ~ (sl <= b < sl + n) -> ~ (su <= b < su + n) -> mm s' b = mm s b) /\
    ((exists j, 0 <= j < n /\ (hi j - lo j < rhobeg + rhobeg)%R) -> r = inr tt) /\
    ((forall j, 0 <= j < n -> (rhobeg + rhobeg <= hi j - lo j)%R) ->
     r = inl tt /\ forall j, 0 <= j < n -> exists x' : R,
       started rhobeg (lo j) (hi j) (x0 j) x' /\
       mm s' (x + j) = Some x' /\ mm s' (sl + j) = Some (lo j - x')%R /\ mm s' (su + j) = Some (hi j - x')%R).
Proof.
  intros Hr Hn sl su El Eu Ex Ew A1 A2 A3 A4 A5.
  assert (Hsu : su = sl + n) by (unfold su, sl, isu; lia).
  assert (L := start_loop H I n npt x w xl xu rhobeg s lo hi x0 Hr Hn El Eu Ex Ew A1 A2 A3 A4 A5 (Z.to_nat n) 0 ltac:(lia) ltac:(lia)
    s eq_refl (fun _ _ _ _ => eq_refl) (fun j Hj => ltac:(lia))).
  unfold opt_start, loopx. replace (n - 1 - 0 + 1) with n by lia. unfold runs in L.
  set (q := loopxn _ _ _ _ s) in *. clearbody q. destruct q as [r s'| | |]; try contradiction. cbv zeta in L. fold sl in L.
  destruct L as (L1 & L2 & L3). exists r, s'. split; [reflexivity|]. split; [exact L1|]. rewrite Hsu. split; [exact L2|].
  split.
  - intros (j & Hj & Hs). destruct r as [u|[]]; [exfalso|reflexivity]. destruct (L3 j Hj) as [D _]. apply (Rlt_irrefl (rhobeg + rhobeg)).
    eapply Rle_lt_trans; [exact D|exact Hs].
  - intros Hs. destruct r as [[]|u].
    + split; [reflexivity|]. intros j Hj. destruct (L3 j Hj) as (_ & x' & D). exists x'. exact D.
    + exfalso. destruct L3 as (j & Hj & Hs'). apply (Rlt_irrefl (rhobeg + rhobeg)). eapply Rle_lt_trans; [apply (Hs j Hj)|exact Hs'].
Qed.
Print Assumptions C44_starting_point.

(** The first variable, given at 1/2, is moved to 1 (the radius is 1, the bounds are 0 and 10); the second, given at 20, is moved
    to its upper bound. *)
Example C44_ex : exists s', opt_start 2 5 0 (1%R : NumR 0 0) 100 10 20
    (@ex_mem (NumR 0 0) (1 / 2)%R 20%R 0%R 0%R 10%R 10%R 1%R 1%R) = Ret (inl tt) s' /\
  mm s' 0 = Some 1%R /\ mm s' 1 = Some 10%R /\ mm s' (100 + isl 2 5) = Some (0 - 1)%R /\
  mm s' (100 + isu 2 5 + 1) = Some (10 - 10)%R.
Proof.
  destruct (C44_starting_point 0 0 2 5 0 100 10 20 (1%R : NumR 0 0)
    (@ex_mem (NumR 0 0) (1 / 2)%R 20%R 0%R 0%R 10%R 10%R 1%R 1%R) (fun _ => 0%R) (fun _ => 10%R)
    (fun j => if j =? 0 then (1 / 2)%R else 20%R)) as (r & s' & E & _ & _ & _ & K).
  - apply Rlt_0_1.
  - lia.
  - intros j Hj. assert (D : j = 0 \/ j = 1) by lia. destruct D as [-> | ->]; reflexivity.
  - intros j Hj. assert (D : j = 0 \/ j = 1) by lia. destruct D as [-> | ->]; reflexivity.
  - intros j Hj. assert (D : j = 0 \/ j = 1) by lia. destruct D as [-> | ->]; reflexivity.
  - intros j Hj. assert (D : j = 0 \/ j = 1 \/ j = 2 \/ j = 3) by lia.
    destruct D as [->|[->|[-> | ->]]]; eexists; reflexivity.
  - left. lia.
  - left. lia.
  - left. cbn. lia.
  - left. cbn. lia.
  - left. cbn. lia.
  - cbn [num NumR] in K. destruct K as [-> K]; [intros; lra|]. exists s'. split; [exact E|].
    destruct (K 0 ltac:(lia)) as (a & S1 & A1 & A2 & A3). destruct (K 1 ltac:(lia)) as (b & S2 & B1 & B2 & B3).
    unfold started in S1, S2. cbn [Z.eqb] in S1, S2. cbn [num NumR] in *.
    assert (Ea : a = (0 + 1)%R) by (apply S1; lra).
    assert (Eb : b = 10%R) by (apply S2; lra). rewrite Rplus_0_l in Ea. subst a b.
    rewrite Z.add_0_r in A1, A2. auto.
Qed.

(** ** C45: the variables given to the objective function *)

(** The arrays of the caller: bounds and scaling factors (if any) *)
Definition holds {N : Num} n xl xu (scl : option Z) (s : mst N) (lo hi sc : Z -> N) : Prop :=
  forall i, 1 <= i <= n -> mm s (at1 xl i) = Some (lo i) /\ mm s (at1 xu i) = Some (hi i) /\
    match scl with Some a => mm s (at1 a i) = Some (sc i) | None => True end.

(** [p] has n elements, the i-th one (from 1) verifies [P i] *)
Definition every {N : Num} (n : Z) (P : Z -> N -> Prop) (p : list N) : Prop :=
  length p = Z.to_nat n /\ forall i, 1 <= i <= n -> exists v, nth_error p (Z.to_nat (i - 1)) = Some v /\ P i v.

Lemma R_sc_pos H I n (sc : Z -> NumR H I) i : sclok n sc -> 1 <= i <= n -> (0 < sc i)%R.
Proof.
  intros Hs Hi. destruct (Hs i Hi) as [E|[_ E]].
  - change (Req_bool (sc i) 1%R = true) in E. revert E. case Req_bool_spec; [|discriminate]. intros -> _. apply Rlt_0_1.
  - change (Rle_bool (sc i) 0%R = false) in E. revert E. case Rle_bool_spec; [discriminate|]. auto.
Qed.

Lemma R_rho H I (rhobeg rhoend : NumR H I) : nle rhoend (nZ 0) = false -> nlt rhobeg rhoend = false -> (0 < rhobeg)%R.
Proof.
  change (nle rhoend (nZ 0)) with (Rle_bool rhoend 0). change (nlt rhobeg rhoend) with (Rlt_bool rhobeg rhoend).
  case Rle_bool_spec; [discriminate|]. intros A _. case Rlt_bool_spec; [discriminate|]. intros B _.
  eapply Rlt_le_trans; eauto.
Qed.

Lemma R_clamps H I n (rhobeg rhoend : NumR H I) (lo hi : Z -> NumR H I) :
  nle rhoend (nZ 0) = false -> nlt rhobeg rhoend = false -> spaced n rhobeg lo hi ->
  clamps n (fun i (v : NumR H I) => (lo i <= v <= hi i)%R) lo hi.
Proof.
  intros A B S i Hi. assert (P := R_rho _ _ _ _ A B). assert (Q := S i Hi).
  change (Rlt_bool (hi i - lo i) (rhobeg + rhobeg) = false) in Q. revert Q. case Rlt_bool_spec; [discriminate|]. intros Q _.
  cbn [num NumR] in *.
  assert (L : (lo i <= hi i)%R) by lra. split; [lra|]. split; [lra|]. intros v.
  unfold clamp. cbn [nle NumR]. case Rle_bool_spec; [lra|]. intros D. case Rle_bool_spec; lra.
Qed.

Lemma R_clamps_scaled H I n (rhobeg rhoend : NumR H I) (lo hi sc : Z -> NumR H I) :
  sclok n sc -> nle rhoend (nZ 0) = false -> nlt rhobeg rhoend = false -> spaced n rhobeg (slo lo sc) (shi hi sc) ->
  clamps n (fun i (v : NumR H I) => (lo i <= nmul (sc i) v <= hi i)%R) (slo lo sc) (shi hi sc).
Proof.
  intros Hs A B S.
  assert (K := R_clamps _ _ _ _ _ _ _ A B S). intros i Hi. destruct (K i Hi) as (K1 & K2 & K3). assert (P := R_sc_pos _ _ _ _ _ Hs Hi).
  assert (Q : forall v : R, (slo lo sc i <= v <= shi hi sc i)%R -> (lo i <= sc i * v <= hi i)%R).
  { intros v Hv. change (slo lo sc i) with (1 / sc i * lo i)%R in Hv. change (shi hi sc i) with (1 / sc i * hi i)%R in Hv.
    cbn [num NumR] in *.
    assert (E1 : (sc i * (1 / sc i * lo i) = lo i)%R) by (field; lra).
    assert (E2 : (sc i * (1 / sc i * hi i) = hi i)%R) by (field; lra).
    split; [rewrite <- E1|rewrite <- E2]; apply Rmult_le_compat_l; lra. }
  split; [|split]; [apply Q; exact K1|apply Q; exact K2|]. intros v. apply Q. apply K3.
Qed.

(** In exact arithmetic, with or without scaling, every point given to the objective function has n variables, each between its
    bounds. *)
Theorem C45_in_bounds_exact H I n npt maximize fn x xl xu scl (rhobeg rhoend : NumR H I) maxfun w fuel s lo hi sc :
  layout n npt x xl xu scl w s -> evs s = [] -> holds n xl xu scl s lo hi sc ->
  exists s', final (bobyqa_optimize n npt maximize fn x xl xu scl rhobeg rhoend maxfun w fuel s) = Some s' /\
    Forall (fun e => every n (fun i (v : NumR H I) => (lo i <= v <= hi i)%R) (fst e)) (evs s').
Proof.
  intros HL He Hh.
  destruct (optimize_all n npt maximize fn x xl xu scl rhobeg rhoend maxfun w fuel s HL He (fun a _ => cast_ok_R H I n npt a) lo hi sc)
    with (pt := fun i (v : NumR H I) => (lo i <= v <= hi i)%R) as (s' & E & _ & _ & F & _).
  - intros i Hi. apply (Hh i Hi).
  - intros i Hi. apply (Hh i Hi).
  - intros a i -> Hi. apply (Hh i Hi).
  - intros A B S. eapply R_clamps; eauto.
  - intros _ Hs A B S. eapply R_clamps_scaled; eauto.
  - exists s'. split; [exact E|]. eapply Forall_impl; [|exact F]. intros e [P1 P2]. split; [exact P1|]. intros i Hi.
    destruct (P2 i Hi) as (v & V1 & V2). exists v. auto.
Qed.
Print Assumptions C45_in_bounds_exact.

(** Double precision: no point has a variable below its lower bound or above its upper bound when there are no scaling factors.
    The radii are not NaN; infinite bounds and NaN are possible for the rest. *)
Lemma D_clamps n (rhobeg rhoend : NumD) (lo hi : Z -> NumD) :
  neq rhobeg rhobeg = true -> neq rhoend rhoend = true ->
  nle rhoend (nZ 0) = false -> nlt rhobeg rhoend = false -> spaced n rhobeg lo hi ->
  clamps n (fun i (v : NumD) => nlt v (lo i) = false /\ nlt (hi i) v = false) lo hi.
Proof.
  intros N1 N2 A B S i Hi.
  assert (P : nlt (nZ 0 : NumD) rhobeg = true).
  { revert N1 N2 A B. rewrite !(key_eq _ OrdD), (key_le _ OrdD), !(key_lt _ OrdD).
    destruct (key OrdD rhobeg) as [b|]; [|discriminate]. destruct (key OrdD rhoend) as [e|]; [|discriminate].
    destruct (key OrdD (nZ 0)) as [z|] eqn:Ez; [|discriminate]. intros _ _.
    case Rle_bool_spec; [discriminate|]. intros A _. case Rlt_bool_spec; [discriminate|]. intros B _.
    apply Rlt_bool_true. eapply Rlt_le_trans; eauto. }
  assert (Q := D_sub_neg (lo i) (hi i) _ (S i Hi) (D_twice_pos _ P)).
  assert (I1 : forall v : NumD, nlt v v = false).
  { intros v. rewrite (key_lt _ OrdD). destruct (key OrdD v); [|reflexivity]. apply Rlt_bool_false. apply Rle_refl. }
  assert (I2 : forall u v : NumD, nle u v = false -> nlt u v = false).
  { intros u v. rewrite (key_lt _ OrdD), (key_le _ OrdD). destruct (key OrdD u); [|reflexivity]. destruct (key OrdD v); [|reflexivity].
    case Rle_bool_spec; [discriminate|]. intros D _. apply Rlt_bool_false. apply Rlt_le. exact D. }
  split; [auto|]. split; [auto|]. intros v. unfold clamp.
  destruct (nle (hi i) v) eqn:D1; [auto|]. destruct (nle v (lo i)) eqn:D2; auto.
Qed.

Theorem C45_in_bounds_double n npt maximize fn x xl xu (rhobeg rhoend : NumD) maxfun w fuel s lo hi sc :
  npt <= 2 ^ 51 -> neq rhobeg rhobeg = true -> neq rhoend rhoend = true ->
  layout n npt x xl xu None w s -> evs s = [] -> holds n xl xu None s lo hi sc ->
  exists s', final (bobyqa_optimize n npt maximize fn x xl xu None rhobeg rhoend maxfun w fuel s) = Some s' /\
    Forall (fun e => every n (fun i v => nlt v (lo i) = false /\ nlt (hi i) v = false) (fst e)) (evs s').
Proof.
  intros Hnpt N1 N2 HL He Hh.
  destruct (optimize_all n npt maximize fn x xl xu None rhobeg rhoend maxfun w fuel s HL He (fun a _ => cast_ok_D n npt a Hnpt) lo hi sc)
    with (pt := fun i (v : NumD) => nlt v (lo i) = false /\ nlt (hi i) v = false) as (s' & E & _ & _ & F & _).
  - intros i Hi. apply (Hh i Hi).
  - intros i Hi. apply (Hh i Hi).
  - intros a i Ea. discriminate.
  - intros A B S. exact (D_clamps n rhobeg rhoend lo hi N1 N2 A B S).
  - intros Hs. exfalso. apply Hs. reflexivity.
  - exists s'. split; [exact E|]. eapply Forall_impl; [|exact F]. intros e [P1 P2]. split; [exact P1|]. intros i Hi.
    destruct (P2 i Hi) as (v & V1 & V2). exists v. auto.
Qed.
Print Assumptions C45_in_bounds_double.

Lemma first_below (o : out NumD bstatus) :
  match final o with
  | Some s' => match evs s' with [(p, _)] => match nth_error p 0 with Some v => nlt v (nZ 1) | None => false end | _ => false end
  | None => false end = true ->
  exists s' p f, final o = Some s' /\ evs s' = [(p, f)] /\ exists v, nth_error p 0 = Some v /\ nlt v (nZ 1) = true.
Proof.
  destruct (final o) as [s'|]; [|discriminate]. destruct (evs s') as [|[p f] [|]] eqn:Ev; try discriminate.
  destruct (nth_error p 0) as [v|] eqn:Ep; [|discriminate]. intros E. exists s', p, f. split; [reflexivity|]. split; [exact Ev|].
  exists v. auto.
Qed.
(** With scaling factors this is false in double precision: with the factor 49 and the lower bound 1, the first point given to the
    objective function has the first variable 49*(1/49*1), which is less than 1. *)
Theorem C45_scaled_double_refuted :
  exists (s : mst NumD) s' p f, layout 2 5 0 10 20 (Some 30) 100 s /\ evs s = [] /\
    holds 2 10 20 (Some 30) s (fun _ => nZ 1) (fun _ => nZ 1000) (fun i => if i =? 1 then nZ 49 else nZ 1) /\
    final (bobyqa_optimize 2 5 false ex_fn 0 10 20 (Some 30) (nZ 1) (nQ 1 10) 1 100 1 s) = Some s' /\
    evs s' = [(p, f)] /\ exists v, nth_error p 0 = Some v /\ nlt v (nZ 1) = true.
Proof.
  pose (s := ex_mem (nZ 1) (nZ 1) (nZ 1) (nZ 1) (nZ 1000) (nZ 1000) (nZ 49) (nZ 1) : mst NumD).
  assert (E := first_below (bobyqa_optimize 2 5 false ex_fn 0 10 20 (Some 30) (nZ 1) (nQ 1 10 : NumD) 1 100 1 s)
    ltac:(vm_cast_no_check (eq_refl true))).
  destruct E as (s' & p & f & E1 & E2 & E3). exists s, s', p, f. split; [apply ex_layout; auto|]. split; [reflexivity|].
  split; [|split; [exact E1|split; [exact E2|exact E3]]].
  intros i Hi. assert (D : i = 1 \/ i = 2) by lia. destruct D as [-> | ->]; repeat split.
Qed.
Print Assumptions C45_scaled_double_refuted.

(** ** C54: the number of calls of the objective function *)

Theorem C54_count (N : Num) n npt maximize fn x xl xu scl (rhobeg rhoend : N) maxfun w fuel s :
  layout n npt x xl xu scl w s -> evs s = [] ->
  (2 <= n -> n + 2 <= npt <= (n + 1) * (n + 2) / 2 -> cast_ok N n npt) ->
  exists s', final (bobyqa_optimize n npt maximize fn x xl xu scl rhobeg rhoend maxfun w fuel s) = Some s' /\
    Z.of_nat (length (evs s')) <= Z.max 1 maxfun.
Proof.
  intros HL He Hc.
  destruct (optimize_all n npt maximize fn x xl xu scl rhobeg rhoend maxfun w fuel s HL He Hc
    (fun i => match mm s (at1 xl i) with Some v => v | None => rhobeg end)
    (fun i => match mm s (at1 xu i) with Some v => v | None => rhobeg end)
    (fun i => match scl with Some a => match mm s (at1 a i) with Some v => v | None => rhobeg end | None => rhobeg end))
    with (pt := fun (_ : Z) (_ : N) => True) as (s' & E & _ & F & _).
  - intros i Hi. destruct (cells1 s xl n i (l_xl _ _ _ _ _ _ _ _ HL) Hi) as [v ->]. reflexivity.
  - intros i Hi. destruct (cells1 s xu n i (l_xu _ _ _ _ _ _ _ _ HL) Hi) as [v ->]. reflexivity.
  - intros a i -> Hi. destruct (cells1 s a n i (l_scl _ _ _ _ _ _ _ _ HL) Hi) as [v ->]. reflexivity.
  - intros _ _ _ i Hi. auto.
  - intros _ _ _ _ _ i Hi. auto.
  - exists s'. auto.
Qed.
Print Assumptions C54_count.
Theorem C54_count_double n npt maximize fn x xl xu scl (rhobeg rhoend : NumD) maxfun w fuel s :
  npt <= 2 ^ 51 -> layout n npt x xl xu scl w s -> evs s = [] ->
  exists s', final (bobyqa_optimize n npt maximize fn x xl xu scl rhobeg rhoend maxfun w fuel s) = Some s' /\
    Z.of_nat (length (evs s')) <= Z.max 1 maxfun.
Proof. intros Hn HL He. apply C54_count; auto. intros H1 _. apply cast_ok_D; auto. Qed.
Print Assumptions C54_count_double.

Lemma one_call (o : out NumD bstatus) :
  match final o with Some s' => Nat.eqb (length (evs s')) 1 | None => false end = true ->
  exists s', final o = Some s' /\ length (evs s') = 1%nat.
Proof.
  destruct (final o) as [s'|]; [|discriminate]. intros E. exists s'. split; [reflexivity|]. apply PeanoNat.Nat.eqb_eq, E.
Qed.
(** The maximum given by the caller is not respected if it is 0 (or less): one call is made. *)
Theorem C54_maxfun_refuted :
  exists (s : mst NumD) s', layout 2 5 0 10 20 None 100 s /\ evs s = [] /\
    final (bobyqa_optimize 2 5 false ex_fn 0 10 20 None (nZ 1) (nQ 1 10) 0 100 1 s) = Some s' /\ length (evs s') = 1%nat.
Proof.
  pose (s := ex_mem (nZ 1) (nZ 1) (nZ 1) (nZ 1) (nZ 1000) (nZ 1000) (nZ 1) (nZ 1) : mst NumD).
  assert (E := one_call (bobyqa_optimize 2 5 false ex_fn 0 10 20 None (nZ 1) (nQ 1 10 : NumD) 0 100 1 s)
    ltac:(vm_cast_no_check (eq_refl true))).
  destruct E as (s' & E1 & E2). exists s, s'. split; [apply ex_layout; auto|]. split; [reflexivity|]. split; [exact E1|exact E2].
Qed.
Print Assumptions C54_maxfun_refuted.

(** ** C55: the returned variables *)

(** In exact arithmetic, when the call is not refused because of its arguments the variables returned in x are between their bounds. *)
Theorem C55_result_in_bounds_exact H I n npt maximize fn x xl xu scl (rhobeg rhoend : NumR H I) maxfun w fuel s lo hi sc r s' :
  layout n npt x xl xu scl w s -> evs s = [] -> holds n xl xu scl s lo hi sc ->
  bobyqa_optimize n npt maximize fn x xl xu scl rhobeg rhoend maxfun w fuel s = Ret r s' ->
  ~ (r = BQ_BAD_NVARS \/ r = BQ_BAD_NPT \/ r = BQ_BAD_RHO_RANGE \/ r = BQ_BAD_SCALING \/ r = BQ_TOO_CLOSE) ->
  forall i, 1 <= i <= n -> exists v : R, mm s' (at1 x i) = Some (v : NumR H I) /\ (lo i <= v <= hi i)%R.
Proof.
  intros HL He Hh Er Hr i Hi.
  destruct (optimize_all n npt maximize fn x xl xu scl rhobeg rhoend maxfun w fuel s HL He (fun a _ => cast_ok_R H I n npt a) lo hi sc)
    with (pt := fun i (v : NumR H I) => (lo i <= v <= hi i)%R) as (s1 & E & _ & _ & _ & F).
  - intros j Hj. apply (Hh j Hj).
  - intros j Hj. apply (Hh j Hj).
  - intros a j -> Hj. apply (Hh j Hj).
  - intros A B S. eapply R_clamps; eauto.
  - intros _ Hs A B S. eapply R_clamps_scaled; eauto.
  - rewrite Er in E. injection E as <-. destruct (F r s' Er Hr i Hi) as (v & V1 & V2). exists v. auto.
Qed.
Print Assumptions C55_result_in_bounds_exact.

Theorem C55_result_in_bounds_double n npt maximize fn x xl xu (rhobeg rhoend : NumD) maxfun w fuel s lo hi sc r s' :
  npt <= 2 ^ 51 -> neq rhobeg rhobeg = true -> neq rhoend rhoend = true ->
  layout n npt x xl xu None w s -> evs s = [] -> holds n xl xu None s lo hi sc ->
  bobyqa_optimize n npt maximize fn x xl xu None rhobeg rhoend maxfun w fuel s = Ret r s' ->
  ~ (r = BQ_BAD_NVARS \/ r = BQ_BAD_NPT \/ r = BQ_BAD_RHO_RANGE \/ r = BQ_BAD_SCALING \/ r = BQ_TOO_CLOSE) ->
  forall i, 1 <= i <= n -> exists v, mm s' (at1 x i) = Some v /\ nlt v (lo i) = false /\ nlt (hi i) v = false.
Proof.
  intros Hnpt N1 N2 HL He Hh Er Hr i Hi.
  destruct (optimize_all n npt maximize fn x xl xu None rhobeg rhoend maxfun w fuel s HL He (fun a _ => cast_ok_D n npt a Hnpt) lo hi sc)
    with (pt := fun i (v : NumD) => nlt v (lo i) = false /\ nlt (hi i) v = false) as (s1 & E & _ & _ & _ & F).
  - intros j Hj. apply (Hh j Hj).
  - intros j Hj. apply (Hh j Hj).
  - intros a j Ea. discriminate.
  - intros A B S. exact (D_clamps n rhobeg rhoend lo hi N1 N2 A B S).
  - intros Hs. exfalso. apply Hs. reflexivity.
  - rewrite Er in E. injection E as <-. destruct (F r s' Er Hr i Hi) as (v & V1 & V2). exists v. tauto.
Qed.
Print Assumptions C55_result_in_bounds_double.

Lemma close_other (o : out NumD bstatus) :
  match o with Ret BQ_TOO_CLOSE s' => match mm s' 0 with Some v => negb (neq (nZ 6) v) | None => false end | _ => false end = true ->
  exists s' v, o = Ret BQ_TOO_CLOSE s' /\ mm s' 0 = Some v /\ neq (nZ 6 : NumD) v = false.
Proof.
  destruct o as [[] s'| | |]; try discriminate. destruct (mm s' 0) as [v|] eqn:Ev; [|discriminate]. intros E.
  exists s', v. split; [reflexivity|]. split; [exact Ev|]. apply negb_true_iff, E.
Qed.
(** A call refused with BOBYQA_TOO_CLOSE (which means that some bounds are too close) may have modified x: with scaling it holds
    the scaled variables. *)
Theorem C55_refused_modified_refuted :
  exists (s : mst NumD) s', layout 2 5 0 10 20 (Some 30) 100 s /\ evs s = [] /\
    bobyqa_optimize 2 5 false ex_fn 0 10 20 (Some 30) (nZ 1) (nQ 1 10) 100 100 1 s = Ret BQ_TOO_CLOSE s' /\
    exists u v, mm s 0 = Some u /\ mm s' 0 = Some v /\ neq u v = false.
Proof.
  pose (s := ex_mem (nZ 6) (nZ 1) (nZ 1) (nZ 1) (nZ 7) (nZ 2) (nZ 2) (nZ 1) : mst NumD).
  assert (E := close_other (bobyqa_optimize 2 5 false ex_fn 0 10 20 (Some 30) (nZ 1) (nQ 1 10 : NumD) 100 100 1 s)
    ltac:(vm_cast_no_check (eq_refl true))).
  destruct E as (s' & v & E1 & E2 & E3). exists s, s'. split; [apply ex_layout; auto|]. split; [reflexivity|]. split; [exact E1|].
  exists (nZ 6), v. split; [reflexivity|]. split; [exact E2|exact E3].
Qed.
Print Assumptions C55_refused_modified_refuted.
