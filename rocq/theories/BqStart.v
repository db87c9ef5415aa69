(** * The starting point of bobyqa_optimize in exact arithmetic *)
From Coq Require Import ZArith Reals List Bool Lia Lra.
From Flocq Require Import Core.
From Verif Require Import Num BqLang BqModel BqSpec BqTop.
Import ListNotations.
Local Open Scope Z_scope.

(** [runs p t Q]: from the state [t], the program [p] ends normally with a result and a state such that [Q] *)
Section Runs.
Context {N : Num}.
Notation mst := (mst N).
Definition upd (t : mst) (a : Z) (v : N) : mst := mkmst (fun b => if Z.eqb b a then Some v else mm t b) (evs t).
Lemma upd_same t a v : mm (upd t a v) a = Some v.
Proof. cbn. rewrite Z.eqb_refl. reflexivity. Qed.
Lemma upd_other t a v b : b <> a -> mm (upd t a v) b = mm t b.
Proof. intros H. cbn. destruct (Z.eqb_spec b a); [contradiction|reflexivity]. Qed.

Definition runs {A} (p : prog N A) (t : mst) (Q : A -> mst -> Prop) : Prop :=
  match p t with Ret a t' => Q a t' | _ => False end.
Lemma runs_ret {A} (a : A) t (Q : A -> mst -> Prop) : Q a t -> runs (ret a) t Q.
Proof. auto. Qed.
Lemma runs_bind {A B} (p : prog N A) (q : A -> prog N B) t Q :
  runs p t (fun a t' => runs (q a) t' Q) -> runs (bind p q) t Q.
Proof. unfold runs, bind. destruct (p t); auto. Qed.
Lemma runs_ld a v t (Q : N -> mst -> Prop) : mm t a = Some v -> Q v t -> runs (ld a) t Q.
Proof. intros E HQ. unfold runs, ld. rewrite E. exact HQ. Qed.
Lemma runs_sto a u v t (Q : unit -> mst -> Prop) : mm t a = Some u -> Q tt (upd t a v) -> runs (sto a v) t Q.
Proof. intros E HQ. unfold runs, sto. rewrite E. exact HQ. Qed.
Lemma runs_weak {A} (p : prog N A) t (P Q : A -> mst -> Prop) : runs p t P -> (forall a t', P a t' -> Q a t') -> runs p t Q.
Proof. unfold runs. destruct (p t); auto. Qed.
End Runs.


(** ** Specification *)

(** The starting variable [x'] computed from the variable [x0] given by the caller and its bounds [lo] and [hi]: inside the
    bounds, on a bound or at least [rhobeg] away from it, the given one if it is more than [rhobeg] away from its bounds, the
    nearest bound if it is not strictly inside, moved at the distance [rhobeg] of the bound otherwise. *)
Definition started (rhobeg lo hi x0 x' : R) : Prop :=
  (lo <= x' <= hi)%R /\ (x' = lo \/ (rhobeg <= x' - lo)%R) /\ (x' = hi \/ (rhobeg <= hi - x')%R) /\
  ((lo + rhobeg < x0 < hi - rhobeg)%R -> x' = x0) /\ ((x0 <= lo)%R -> x' = lo) /\ ((hi <= x0)%R -> x' = hi) /\
  ((lo < x0 <= lo + rhobeg)%R -> x' = (lo + rhobeg)%R) /\ ((hi - rhobeg <= x0 < hi)%R -> x' = (hi - rhobeg)%R).

Section Start.
Variables H I : R.
Notation N := (NumR H I).
Variables (n npt x w xl xu : Z) (rhobeg : R).

Ltac lk := repeat first [eassumption | reflexivity | rewrite upd_same | rewrite upd_other by (assumption || lia)].
Ltac r1 := first
  [ apply runs_bind | apply runs_ret
  | progress unfold assign, lift1, emax, emin, ifp
  | progress unfold lift2
  | eapply runs_ld; [lk; fail|] | eapply runs_sto; [lk; fail|] ].
Ltac rr := repeat (cbv beta; r1); cbv beta.

Lemma start_body j (t : mst N) (lo hi x0 : R) u1 u2 (Q : unit + unit -> mst N -> Prop) :
  (0 < rhobeg)%R ->
  let jsl := w + (isl n npt + j) in let jsu := jsl + n in
  mm t (xl + j) = Some (lo : N) -> mm t (xu + j) = Some (hi : N) -> mm t (x + j) = Some (x0 : N) ->
  mm t jsl = Some u1 -> mm t jsu = Some u2 ->
  xl + j <> x + j -> xu + j <> x + j -> xl + j <> jsl -> xl + j <> jsu -> xu + j <> jsl -> xu + j <> jsu ->
  x + j <> jsl -> x + j <> jsu -> jsl <> jsu ->
  ((hi - lo < rhobeg + rhobeg)%R -> Q (inr tt) t) ->
  (forall t' (x' : R), (rhobeg + rhobeg <= hi - lo)%R -> started rhobeg lo hi x0 x' ->
     mm t' (x + j) = Some (x' : N) -> mm t' jsl = Some ((lo - x')%R : N) -> mm t' jsu = Some ((hi - x')%R : N) ->
     (forall b, b <> x + j -> b <> jsl -> b <> jsu -> mm t' b = mm t b) -> evs t' = evs t -> Q (inl tt) t') ->
  runs (opt_start_body (N := N) n npt x (rhobeg : N) w xl xu j) t Q.
Proof.
  intros Hr jsl jsu El Eu Ex E1 E2 N1 N2 N3 N4 N5 N6 N7 N8 N9 K1 K2.
  assert (M1 : x + j <> xl + j) by lia. assert (M2 : jsl <> x + j) by lia. assert (M3 : jsu <> x + j) by lia.
  assert (M4 : jsu <> jsl) by lia.
  unfold opt_start_body. fold jsl. fold jsu.
  rr. cbn [nlt nadd nsub NumR]. destruct (Rlt_bool_spec (hi - lo) (rhobeg + rhobeg)) as [Hs|Hs]; [apply runs_ret; auto|].
  rr. cbn [nle nlt nopp nsub NumR]. change (@zero N) with 0%R.
  destruct (Rle_bool_spec (- rhobeg) (lo - x0)) as [H1|H1].
  - rr. cbn [nle nlt nopp nsub NumR]. change (@zero N) with 0%R. destruct (Rle_bool_spec 0 (lo - x0)) as [H2|H2].
    + rr. apply K2 with (x' := lo); auto.
      * unfold started. repeat split; try lra; try tauto.
      * lk.
      * lk. f_equal. change (0 = lo - lo)%R. lra.
      * lk.
      * intros b B1 B2 B3. lk.
    + rr. unfold bmax. cbn [nle nadd nopp nsub NumR].
      apply K2 with (x' := (lo + rhobeg)%R); auto.
      * unfold started. repeat split; try lra.
      * lk.
      * lk. f_equal. change (- rhobeg = lo - (lo + rhobeg))%R. lra.
      * lk. f_equal. destruct (Rle_bool_spec rhobeg (hi - (lo + rhobeg))); [reflexivity|lra].
      * intros b B1 B2 B3. lk.
  - rr. cbn [nle nlt nopp nsub NumR]. destruct (Rle_bool_spec (hi - x0) rhobeg) as [H2|H2].
    + rr. cbn [nle nlt nopp nsub NumR]. change (@zero N) with 0%R. destruct (Rle_bool_spec (hi - x0) 0) as [H3|H3].
      * rr. cbn [nle nadd nopp nsub NumR]. apply K2 with (x' := hi); auto.
        -- unfold started. repeat split; try lra.
        -- lk.
        -- lk. f_equal. change (- (hi - lo) = lo - hi)%R. lra.
        -- lk. f_equal. change (0 = hi - hi)%R. lra.
        -- intros b B1 B2 B3. lk.
      * rr. unfold bmin. cbn [nle nadd nopp nsub NumR].
        apply K2 with (x' := (hi - rhobeg)%R); auto.
        -- unfold started. repeat split; try lra.
        -- lk.
        -- lk. f_equal. destruct (Rle_bool_spec (lo - (hi - rhobeg)) (- rhobeg)); [reflexivity|lra].
        -- lk. f_equal. change (rhobeg = hi - (hi - rhobeg))%R. lra.
        -- intros b B1 B2 B3. lk.
    + rr. apply K2 with (x' := x0); auto.
      * unfold started. repeat split; try lra.
      * lk.
      * lk.
      * lk.
      * intros b B1 B2 B3. lk.
Qed.

(** The whole loop; [jsl] is the first cell of the lower bounds of the moves in the workspace, the upper ones follow *)
Lemma start_loop (s : mst N) (lo hi x0 : Z -> R) :
  (0 < rhobeg)%R -> 0 <= n ->
  let sl := w + isl n npt in
  (forall j, 0 <= j < n -> mm s (xl + j) = Some (lo j : N)) -> (forall j, 0 <= j < n -> mm s (xu + j) = Some (hi j : N)) ->
  (forall j, 0 <= j < n -> mm s (x + j) = Some (x0 j : N)) -> cells s sl (n + n) ->
  apart x n xl n -> apart x n xu n -> apart x n sl (n + n) -> apart xl n sl (n + n) -> apart xu n sl (n + n) ->
  forall (k : nat) j0, 0 <= j0 -> Z.of_nat k = n - j0 ->
  forall t : mst N, evs t = evs s ->
  (forall b, ~ (x <= b < x + j0) -> ~ (sl <= b < sl + j0) -> ~ (sl + n <= b < sl + n + j0) -> mm t b = mm s b) ->
  (forall j, 0 <= j < j0 -> (rhobeg + rhobeg <= hi j - lo j)%R /\ exists x' : R, started rhobeg (lo j) (hi j) (x0 j) x' /\
     mm t (x + j) = Some (x' : N) /\ mm t (sl + j) = Some ((lo j - x')%R : N) /\ mm t (sl + n + j) = Some ((hi j - x')%R : N)) ->
  runs (loopxn k j0 (fun j _ => opt_start_body (N := N) n npt x (rhobeg : N) w xl xu j) tt) t (fun r t' =>
    evs t' = evs s /\
    (forall b, ~ (x <= b < x + n) -> ~ (sl <= b < sl + n) -> ~ (sl + n <= b < sl + n + n) -> mm t' b = mm s b) /\
    match r with
    | inr _ => exists j, 0 <= j < n /\ (hi j - lo j < rhobeg + rhobeg)%R
    | inl _ => forall j, 0 <= j < n -> (rhobeg + rhobeg <= hi j - lo j)%R /\ exists x' : R,
        started rhobeg (lo j) (hi j) (x0 j) x' /\ mm t' (x + j) = Some (x' : N) /\
        mm t' (sl + j) = Some ((lo j - x')%R : N) /\ mm t' (sl + n + j) = Some ((hi j - x')%R : N)
    end).
Proof.
  intros Hr Hn sl El Eu Ex Ew A1 A2 A3 A4 A5. unfold apart in *.
  induction k as [|k IH]; intros j0 Hj0 Hk t Ev F D.
  - cbn [loopxn]. apply runs_ret. split; [exact Ev|split].
    + intros b B1 B2 B3. apply F; lia.
    + intros j Hj. apply D. lia.
  - cbn [loopxn]. apply runs_bind.
    destruct (Ew j0 ltac:(lia)) as [u1 E1]. destruct (Ew (n + j0) ltac:(lia)) as [u2 E2].
    assert (Esl : w + (isl n npt + j0) = sl + j0) by (unfold sl; lia).
    apply start_body with (lo := lo j0) (hi := hi j0) (x0 := x0 j0) (u1 := u1) (u2 := u2); auto; rewrite ?Esl.
    + rewrite F by lia. apply El. lia.
    + rewrite F by lia. apply Eu. lia.
    + rewrite F by lia. apply Ex. lia.
    + rewrite F by lia. exact E1.
    + rewrite F by lia. rewrite <- Z.add_assoc, (Z.add_comm j0 n). exact E2.
    + lia.
    + lia.
    + lia.
    + lia.
    + lia.
    + lia.
    + lia.
    + lia.
    + lia.
    + intros Hs. apply runs_ret. split; [exact Ev|split].
      * intros b B1 B2 B3. apply F; lia.
      * exists j0. split; [lia|exact Hs].
    + intros t' x' Hs Hst G1 G2 G3 G4 G5. apply IH.
      * lia.
      * lia.
      * congruence.
      * intros b B1 B2 B3. rewrite G4 by lia. apply F; lia.
      * intros j Hj. destruct (Z.eq_dec j j0) as [->|Ne].
        -- split; [exact Hs|]. exists x'. split; [exact Hst|]. split; [exact G1|]. split; [exact G2|].
           rewrite <- G3. f_equal. lia.
        -- destruct (D j ltac:(lia)) as (D0 & y & D1 & D2 & D3 & D4). split; [exact D0|]. exists y. split; [exact D1|].
           rewrite !G4 by lia. auto.
Qed.
End Start.
