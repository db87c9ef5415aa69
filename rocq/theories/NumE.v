(** * Exact real arithmetic with an undefined value

    The numbers are the reals and one more element, [None], that plays the part of NaN: the result of a division by zero, of the square
    root of a negative number and of any operation on [None]; a comparison with [None] is false.  There is no rounding and no overflow.
    [H] and [J] stand for DBL_MAX and HUGE_VAL, as in [NumR]. *)
From Coq Require Import ZArith Reals Bool Lra Lia.
From Flocq Require Import Core.
From Verif Require Import Num.
Local Open Scope R_scope.

Definition o1 (f : R -> option R) (a : option R) : option R := match a with Some a => f a | None => None end.
Definition o2 (f : R -> R -> option R) (a b : option R) : option R :=
  match a, b with Some a, Some b => f a b | _, _ => None end.
Definition ob (f : R -> R -> bool) (a b : option R) : bool := match a, b with Some a, Some b => f a b | _, _ => false end.
Definition NumE (H J : R) : Num := {|
  num   := option R;
  nZ    := fun n => Some (IZR n);
  nQ    := fun n p => Some (IZR n / IZR (Zpos p));
  nmax  := Some H;
  ninf  := Some J;
  nadd  := o2 (fun a b => Some (a + b));
  nsub  := o2 (fun a b => Some (a - b));
  nmul  := o2 (fun a b => Some (a * b));
  ndiv  := o2 (fun a b => if Req_bool b 0 then None else Some (a / b));
  nopp  := o1 (fun a => Some (- a));
  nabs  := o1 (fun a => Some (Rabs a));
  nsqrt := o1 (fun a => if Rlt_bool a 0 then None else Some (R_sqrt.sqrt a));
  nlt   := ob Rlt_bool;
  nle   := ob Rle_bool;
  neq   := ob Req_bool;
  nfin  := fun a => match a with Some _ => true | None => false end
|}.

(** Inversion of the operations *)
Section Inv.
Context {H J : R}.
Local Notation N := (NumE H J).
Implicit Types (a b : NumE H J) (r x y : R).
Lemma e_add a b r : nadd a b = Some r -> exists x y, a = Some x /\ b = Some y /\ r = x + y.
Proof. destruct a as [x|], b as [y|]; cbn; intros E; try discriminate. injection E as <-. exists x, y. auto. Qed.
Lemma e_sub a b r : nsub a b = Some r -> exists x y, a = Some x /\ b = Some y /\ r = x - y.
Proof. destruct a as [x|], b as [y|]; cbn; intros E; try discriminate. injection E as <-. exists x, y. auto. Qed.
Lemma e_mul a b r : nmul a b = Some r -> exists x y, a = Some x /\ b = Some y /\ r = x * y.
Proof. destruct a as [x|], b as [y|]; cbn; intros E; try discriminate. injection E as <-. exists x, y. auto. Qed.
Lemma e_div a b r : ndiv a b = Some r -> exists x y, a = Some x /\ b = Some y /\ y <> 0 /\ r = x / y.
Proof.
  destruct a as [x|], b as [y|]; cbn; intros E; try discriminate. revert E. case Req_bool_spec; [discriminate|]. intros K [= <-].
  exists x, y. auto.
Qed.
Lemma e_opp a r : nopp a = Some r -> exists x, a = Some x /\ r = - x.
Proof. destruct a as [x|]; cbn; intros E; try discriminate. injection E as <-. exists x. auto. Qed.
Lemma e_sqrt a r : nsqrt a = Some r -> exists x, a = Some x /\ 0 <= x /\ r = R_sqrt.sqrt x.
Proof.
  destruct a as [x|]; cbn; intros E; try discriminate. revert E. case Rlt_bool_spec; [discriminate|]. intros K [= <-]. exists x. auto.
Qed.
(** Values *)
Lemma s_div x y : y <> 0 -> ndiv (Some x : N) (Some y) = Some (x / y).
Proof. intros K. cbn. rewrite Req_bool_false by exact K. reflexivity. Qed.
Lemma s_sqrt x : 0 <= x -> nsqrt (Some x : N) = Some (R_sqrt.sqrt x).
Proof. intros K. cbn. rewrite Rlt_bool_false by exact K. reflexivity. Qed.

(** The sum of the first [k] elements *)
Fixpoint osum (f : Z -> N) (k : nat) : N := match k with O => nZ 0 | S k => nadd (osum f k) (f (Z.of_nat (S k))) end.
Definition dv (a : N) : R := match a with Some x => x | None => 0 end.
Lemma osum_ext f g k : (forall i, (1 <= i <= Z.of_nat k)%Z -> f i = g i) -> osum f k = osum g k.
Proof. induction k as [|k IH]; intros E; cbn [osum]; [reflexivity|]. rewrite IH, (E (Z.of_nat (S k))); [reflexivity|lia|intros; apply E; lia]. Qed.
Lemma osum_inv f k r : osum f k = Some r -> forall i, (1 <= i <= Z.of_nat k)%Z -> f i = Some (dv (f i)).
Proof.
  revert r. induction k as [|k IH]; intros r E i Hi; [lia|]. cbn [osum] in E. apply e_add in E as (x & y & E1 & E2 & _).
  destruct (Z.eq_dec i (Z.of_nat (S k))) as [->|]; [rewrite E2; reflexivity|]. apply (IH x E1). lia.
Qed.
End Inv.

(** ** Sums *)
Fixpoint rsum (f : Z -> R) (k : nat) : R := match k with O => 0 | S k => rsum f k + f (Z.of_nat (S k)) end.
Lemma rsum_ext f g k : (forall i, (1 <= i <= Z.of_nat k)%Z -> f i = g i) -> rsum f k = rsum g k.
Proof. induction k as [|k IH]; intros H; cbn [rsum]; [reflexivity|]. rewrite IH, (H (Z.of_nat (S k))); [reflexivity|lia|intros; apply H; lia]. Qed.
Lemma rsum_plus f g k : rsum (fun i => f i + g i) k = rsum f k + rsum g k.
Proof. induction k as [|k IH]; cbn [rsum]; [lra|]. rewrite IH. lra. Qed.
Lemma rsum_scal c f k : rsum (fun i => c * f i) k = c * rsum f k.
Proof. induction k as [|k IH]; cbn [rsum]; [lra|]. rewrite IH. lra. Qed.
Lemma rsum_nonneg f k : (forall i, (1 <= i <= Z.of_nat k)%Z -> 0 <= f i) -> 0 <= rsum f k.
Proof. induction k as [|k IH]; intros H; cbn [rsum]; [lra|]. assert (0 <= rsum f k) by (apply IH; intros; apply H; lia). specialize (H (Z.of_nat (S k))). lra || (assert (0 <= f (Z.of_nat (S k))) by (apply H; lia); lra). Qed.
Lemma rsum_0 k : rsum (fun _ => 0) k = 0.
Proof. induction k as [|k IH]; cbn [rsum]; lra. Qed.
(** The square of the norm of a combination *)
Lemma rsum_comb a b u v k : rsum (fun i => (a * u i + b * v i) * (a * u i + b * v i)) k =
  a * a * rsum (fun i => u i * u i) k + 2 * a * b * rsum (fun i => u i * v i) k + b * b * rsum (fun i => v i * v i) k.
Proof. induction k as [|k IH]; cbn [rsum]; [lra|]. rewrite IH. lra. Qed.
Lemma rsum_dot a b u v w k : rsum (fun i => (a * u i + b * v i) * w i) k =
  a * rsum (fun i => u i * w i) k + b * rsum (fun i => v i * w i) k.
Proof. induction k as [|k IH]; cbn [rsum]; [lra|]. rewrite IH. lra. Qed.

Lemma osum_some {H J} (f : Z -> NumE H J) (u : Z -> R) k : (forall i, (1 <= i <= Z.of_nat k)%Z -> f i = Some (u i)) ->
  osum f k = Some (rsum u k).
Proof.
  induction k as [|k IH]; intros E; cbn [osum rsum]; [reflexivity|]. rewrite IH, (E (Z.of_nat (S k))); [reflexivity|lia|intros; apply E; lia].
Qed.
Lemma osum_rsum {H J} (f : Z -> NumE H J) k r : osum f k = Some r -> r = rsum (fun i => dv (f i)) k.
Proof. intros E. pose proof (osum_inv f k r E) as K. rewrite (osum_some f (fun i => dv (f i)) k K) in E. injection E as <-. reflexivity. Qed.
