(** * The point returned by bobyqa_optimize, in exact arithmetic *)
From Coq Require Import ZArith Reals List Bool Lia Lra.
From Flocq Require Import Core.
From Verif Require Import Num BqLang BqModel BqWp BqSafe BqTop BqStart BqPc BqSpec BqBest.
Import ListNotations.
Local Open Scope Z_scope.

Section Opt.
Variables HH II : R.
Notation N := (NumR HH II).
Notation mst := (mst N).
Variables (n npt : Z) (ctx : context (N := N)) (x xl xu : Z) (rhobeg rhoend : R) (maxfun w : Z).
Variables (lo hi sc : Z -> R).
Variables (Rd : Z -> Prop) (C : Z -> option N).
Hypothesis (Hn : 2 <= n) (Hnpt : n + 2 <= npt <= (n + 1) * (n + 2) / 2).
Hypothesis Hrho : (0 < rhobeg)%R.
Definition inw (a : Z) : Prop := w <= a < w + work_size n npt.
Definition inx (a : Z) : Prop := x <= a < x + n.
Hypothesis HR : forall a, inw a \/ inx a -> Rd a /\ C a = None.
Hypothesis Hxw : forall a, inx a -> ~ inw a.
Hypothesis Hcn : c_n ctx = n.
Hypothesis Hsgn : (c_sgn ctx * c_sgn ctx = 1)%R.
Hypothesis Hxl : forall i, 1 <= i <= n -> C (at1 xl i) = Some (lo i : N).
Hypothesis Hxu : forall i, 1 <= i <= n -> C (at1 xu i) = Some (hi i : N).
(** The bounds are apart from the variables and from the workspace *)
Hypothesis (Axl : apart x n xl n) (Axu : apart x n xu n) (Bxl : apart xl n w (work_size n npt)) (Bxu : apart xu n w (work_size n npt)).
Hypothesis Hscl : match c_scl ctx with
  | None => True
  | Some scl => forall i, 0 <= i < n ->
      C (scl + i) = Some (sc (i + 1) : N) /\ C (c_ws ctx + i) = None /\ ~ inw (c_ws ctx + i) /\
      (forall j, 1 <= j <= n -> at1 x j <> c_ws ctx + i)
  end.

(** The end: the point of the evaluation [e] is in x and its value in w[0] *)
Definition out_best (st : bstatus) (s : mst) : Prop := st = BQ_TOO_CLOSE \/ exists L e,
  (evs s = L \/ st = BQ_STEP_FAILED /\ exists e0, evs s = e0 :: L) /\ least HH II ctx e L /\
  (forall i, 1 <= i <= n -> exists v : N, nth_error (fst e) (Z.to_nat (i - 1)) = Some v /\ mm s (at1 x i) = Some v) /\
  (st = BQ_SUCCESS -> mm s w = Some (snd e)).

Lemma wp_runs {A} (p : prog N A) s Q : runs p s Q -> wp p s Q.
Proof. unfold runs, wp. intros HQ b s' E. rewrite E in HQ. exact HQ. Qed.

Lemma wp_run fuel s : good Rd C s -> evs s = [] -> wp (opt_run n npt x (rhobeg : N) (rhoend : N) maxfun w fuel ctx xl xu) s out_best.
Proof.
  intros G Ev. unfold opt_run. apply wp_bind.
  destruct (isl_pos n npt Hn Hnpt) as [P1 P2].
  assert (CX : forall j, 0 <= j < n -> exists v : N, mm s (x + j) = Some v) by (intros j Hj; apply G, HR; right; unfold inx; lia).
  set (x0 := fun j => match mm s (x + j) with Some v => v : R | None => 0%R end).
  assert (EX : forall j, 0 <= j < n -> mm s (x + j) = Some (x0 j : N)).
  { intros j Hj. destruct (CX j Hj) as [v E]. unfold x0. rewrite E. reflexivity. }
  assert (EL : forall j, 0 <= j < n -> mm s (xl + j) = Some (lo (j + 1) : N)).
  { intros j Hj. apply G. rewrite <- (Hxl (j + 1)) by lia. f_equal. unfold at1. lia. }
  assert (EU : forall j, 0 <= j < n -> mm s (xu + j) = Some (hi (j + 1) : N)).
  { intros j Hj. apply G. rewrite <- (Hxu (j + 1)) by lia. f_equal. unfold at1. lia. }
  assert (AX : apart x n w (work_size n npt)).
  { unfold apart. destruct (Z.le_gt_cases (x + n) w) as [|A1]; [lia|]. destruct (Z.le_gt_cases (w + work_size n npt) x) as [|A2]; [lia|].
    exfalso. destruct (Z.le_gt_cases w x); [apply (Hxw x)|apply (Hxw w)]; unfold inx, inw; lia. }
  eapply wp_weak; [apply wp_runs; unfold opt_start, loopx;
    apply (start_loop HH II n npt x w xl xu rhobeg s (fun j => lo (j + 1)) (fun j => hi (j + 1)) x0)|].
  - exact Hrho.
  - lia.
  - exact EL.
  - exact EU.
  - exact EX.
  - intros i Hi. apply G, HR. left. unfold inw. lia.
  - exact Axl.
  - exact Axu.
  - unfold apart in *. lia.
  - unfold apart in *. lia.
  - unfold apart in *. lia.
  - lia.
  - lia.
  - reflexivity.
  - auto.
  - intros; lia.
  - cbv beta. intros [u|u] t (E1 & F1 & D1); [|apply wp_ret; left; reflexivity].
    assert (Gt : good Rd C t).
    { split.
      - intros a Ha. destruct (Z_le_dec x a) as [X1|X1]; [destruct (Z_lt_dec a (x + n)) as [X2|X2]|].
        { destruct (D1 (a - x) ltac:(lia)) as (_ & x' & _ & Q & _). exists x'. rewrite <- Q. f_equal. lia. }
        all: destruct (Z_le_dec (w + isl n npt) a) as [Y1|Y1]; [destruct (Z_lt_dec a (w + isl n npt + n)) as [Y2|Y2]|];
          try (destruct (D1 (a - (w + isl n npt)) ltac:(lia)) as (_ & x' & _ & _ & Q & _); exists (lo (a - (w + isl n npt) + 1) - x')%R; rewrite <- Q; f_equal; lia).
        all: try (destruct (Z_lt_dec a (w + isl n npt + n + n)) as [Y3|Y3];
          [destruct (D1 (a - (w + isl n npt + n)) ltac:(lia)) as (_ & x' & _ & _ & _ & Q); exists (hi (a - (w + isl n npt + n) + 1) - x')%R; rewrite <- Q; f_equal; lia|]).
        all: rewrite F1 by lia; apply G, Ha.
      - intros a v Ea. assert (NW : ~ inw a) by (intros Q; destruct (HR a (or_introl Q)); congruence).
        assert (NX : ~ inx a) by (intros Q; destruct (HR a (or_intror Q)); congruence). unfold inw, inx in *.
        rewrite F1 by lia. apply G, Ea. }
    assert (Lh : forall i, 1 <= i <= n -> (lo i <= hi i)%R).
    { intros i Hi. destruct (D1 (i - 1) ltac:(lia)) as (Q & _). replace (i - 1 + 1) with i in Q by lia. lra. }
    pose proof (partition_end n npt) as Pe. pose proof (tri_half n) as Ht.
    assert (Q : 0 <= n * npt /\ 0 <= n * (n + 1) / 2 /\ 0 <= (npt + n) * n /\ 0 <= npt * (npt - (n + 1))) by nia.
    destruct Q as (Q1 & Q2 & Q3 & Q4).
    assert (B : 0 <= ixb /\ ixb + n = ixp n /\ ixp n + npt * n = ifv n npt /\ ifv n npt + npt = ixo n npt /\ ixo n npt + n = igo n npt /\
      igo n npt + n = ihq_ n npt /\ ihq_ n npt + n * (n + 1) / 2 = ipq n npt /\ ipq n npt + npt = ibmat n npt /\
      ibmat n npt + ndim_ n npt * n = izmat n npt /\ izmat n npt + npt * (npt - n - 1) = isl n npt /\ isl n npt + n = isu n npt /\
      isu n npt + n = ixn n npt /\ ixn n npt + n = ixa n npt /\ ixa n npt + n = id_ n npt /\ id_ n npt + n = ivl n npt /\
      ivl n npt + ndim_ n npt = iw_ n npt).
    { unfold iw_, ivl, id_, ixa, ixn, isu, isl, izmat, ibmat, ipq, ihq_, igo, ixo, ifv, ixp, ixb. repeat split; lia. }
    assert (Q5 : 0 <= npt * (npt - n - 1)) by nia. fold (ndim_ n npt) in Q3. assert (Qd : 0 <= ndim_ n npt) by (unfold ndim_; lia).
    assert (Exb : ixb = 0) by reflexivity.
    apply wp_bind. eapply wp_weak.
    { eapply (wp_bobyqb HH II Rd C n npt ctx x xl xu rhobeg rhoend maxfun) with (lo := lo) (hi := hi) (sc := sc) (wend := w + work_size n npt); auto; try lia.
      - intros i Hi. unfold at1. lia.
      - intros i Hi. unfold at1. lia.
      - intros i Hi. unfold at1. lia.
      - intros i j Hi Hj. unfold at2. assert ((j - 1) * ndim_ n npt + (i - 1) < ndim_ n npt * n) by nia. assert (0 <= (j - 1) * ndim_ n npt) by nia. lia.
      - intros i j Hi Hj. unfold at2. assert ((j - 1) * npt + (i - 1) < npt * (npt - n - 1)) by nia. assert (0 <= (j - 1) * npt) by nia. lia.
      - intros a Ha. apply HR. left. unfold inw. lia.
      - intros a Ha. apply HR. left. unfold inw. lia.
      - intros i Hi. assert (X1 : inx (at1 x i)) by (unfold inx, at1; lia). destruct (HR _ (or_intror X1)) as [X2 X3].
        split; [exact X2|]. split; [|exact X3]. intros X4. apply (Hxw _ X1). unfold inw. lia.
      - destruct (c_scl ctx); [|exact Logic.I]. intros i Hi. destruct (Hscl i Hi) as (Y1 & Y2 & Y3 & Y4).
        split; [exact Y1|]. split; [exact Y2|]. split; [|exact Y4]. intros Y5. apply Y3. unfold inw. lia.
      - split; [exact Gt|]. split; [congruence|]. intros i Hi. destruct (D1 (i - 1) ltac:(lia)) as (_ & x' & _ & Y1 & Y2 & Y3).
        replace (i - 1 + 1) with i in * by lia. exists x'. unfold at1. split; [exact Y1|]. split; [exact Y2|]. rewrite <- Y3. f_equal. lia. }
    intros st t1 (G1 & L & e & HL & Le & Xo & Ho).
    assert (X0 : forall i, 0 <= i < n -> Rd (x + i) /\ C (x + i) = None) by (intros i Hi; apply HR; right; unfold inx; lia).
    assert (Hw : inw w) by (unfold inw, work_size; pose proof (w_half n); nia).
    apply wp_bind. eapply wp_weak with (P := fun (_ : unit) t2 => evs t2 = evs t1 /\ mm t2 w = mm t1 w /\
      forall i, 1 <= i <= n -> exists v : N, nth_error (fst e) (Z.to_nat (i - 1)) = Some v /\ mm t2 (at1 x i) = Some v).
    + destruct (c_scl ctx) as [scl|] eqn:Es.
      * unfold scale. apply (wp_loopJ (fun i (_ : unit) t2 => evs t2 = evs t1 /\ mm t2 w = mm t1 w /\ good Rd C t2 /\
          (forall j, 1 <= j <= n -> i < j -> mm t2 (at1 x j) = mm t1 (at1 x j)) /\
          (forall j, 1 <= j <= i -> exists v : N, nth_error (fst e) (Z.to_nat (j - 1)) = Some v /\ mm t2 (at1 x j) = Some v))); [lia| | |].
        -- split; [reflexivity|]. split; [reflexivity|]. split; [exact G1|]. split; [auto|]. intros; lia.
        -- intros i u' t2 Hi (Y1 & Y2 & Y3 & Y4 & Y5). destruct (Hscl i ltac:(lia)) as (Z1 & _).
           apply wp_assign, wp_lift2, wp_ld. rewrite (proj2 Y3 _ _ Z1). intros c [= <-]. apply wp_ld.
           assert (Eai : at1 x (i + 1) = x + i) by (unfold at1; lia). rewrite <- Eai. rewrite Y4 by lia. intros v Ev1.
           destruct (Xo (i + 1) ltac:(lia)) as (X & Z2 & Z3). rewrite Ev1 in Z2. injection Z2 as ->. unfold img in Z3. rewrite Es in Z3.
           assert (Nw : w <> x + i) by (intros Q; apply (Hxw w); [unfold inx; lia|exact Hw]).
           split; [exact Y1|]. split; [rewrite upd_other by (rewrite Eai; exact Nw); exact Y2|].
           split; [rewrite Eai; apply good_upd; [exact Y3|apply X0; lia]|]. split.
           ++ intros j Hj Hij. rewrite upd_other; [apply Y4; lia|]. unfold at1. lia.
           ++ intros j Hj. destruct (Z.eq_dec j (i + 1)) as [->|Nj]; [eexists; split; [exact Z3|apply upd_same]|].
              rewrite upd_other by (unfold at1; lia). apply Y5. lia.
        -- intros u' t2 (Y1 & Y2 & Y3 & Y4 & Y5). split; [exact Y1|]. split; [exact Y2|]. intros i Hi. apply Y5. lia.
      * apply wp_ret. split; [reflexivity|]. split; [reflexivity|]. intros i Hi. destruct (Xo i Hi) as (X & Z2 & Z3). unfold img in Z3. rewrite Es in Z3.
        exists X. auto.
    + intros u' t2 (Y1 & Y2 & Y3). apply wp_bind, wp_assign, wp_lift2, wp_ld. intros v Ev1. apply wp_ret, wp_ret. right.
      exists L, e. split; [cbn [evs upd]; rewrite Y1; exact HL|]. split; [exact Le|]. split.
      * intros i Hi. destruct (Y3 i Hi) as (v1 & Z1 & Z2). exists v1. split; [exact Z1|]. rewrite upd_other; [exact Z2|].
        intros Q. apply (Hxw (at1 x i)); [unfold inx, at1; lia|rewrite Q; exact Hw].
      * intros Hs. specialize (Ho Hs). rewrite upd_same. f_equal. rewrite Y2 in Ev1.
        replace (at1 (w + ixb) 1) with w in Ho by (unfold at1, ixb; lia). rewrite Ho in Ev1. injection Ev1 as <-.
        unfold val. cbn [nmul NumR]. change (snd e * c_sgn ctx * c_sgn ctx = snd e)%R. rewrite Rmult_assoc, Hsgn. apply Rmult_1_r.
Qed.
End Opt.
