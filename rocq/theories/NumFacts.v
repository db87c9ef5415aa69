(** * Facts about the instances of [Num] *)
From Coq Require Import ZArith Reals Bool Lra.
From Flocq Require Import Core BinarySingleNaN.
From Verif Require Import Num.
Local Open Scope R_scope.

(** Comparisons as in IEEE 754: every number that is not a NaN has a position on the real line
    ([key]), comparisons are those of the positions, and any comparison with a NaN is false. *)
Record OrdLaws (N : Num) := {
  key    : N -> option R;
  key_lt : forall x y, nlt x y = match key x, key y with Some a, Some b => Rlt_bool a b | _, _ => false end;
  key_le : forall x y, nle x y = match key x, key y with Some a, Some b => Rle_bool a b | _, _ => false end;
  key_eq : forall x y, neq x y = match key x, key y with Some a, Some b => Req_bool a b | _, _ => false end
}.
Arguments key {_} _ _.

Lemma OrdR H I : OrdLaws (NumR H I).
Proof. refine {| key := @Some R : NumR H I -> option R |}; reflexivity. Defined.

Section IEEE.
Variables prec emax : Z.
Context (Hp : Prec_gt_0 prec) (Hm : Prec_lt_emax prec emax).
Notation bf := (binary_float prec emax).

(** Position of a float on the real line, with the infinities just outside the range. *)
Definition fkey (x : bf) : option R :=
  match x with
  | B754_nan => None
  | B754_infinity true => Some (- bpow radix2 emax)
  | B754_infinity false => Some (bpow radix2 emax)
  | _ => Some (B2R x)
  end.

Lemma fkey_finite (x : bf) : is_finite x = true -> fkey x = Some (B2R x).
Proof. destruct x; try discriminate; reflexivity. Qed.

Lemma Bcompare_key (x y : bf) :
  Bcompare x y = match fkey x, fkey y with Some a, Some b => Some (Rcompare a b) | _, _ => None end.
Proof.
  assert (P := bpow_gt_0 radix2 emax).
  destruct (is_finite x) eqn:Fx; destruct (is_finite y) eqn:Fy.
  - rewrite Bcompare_correct by assumption. rewrite 2!fkey_finite by assumption. reflexivity.
  - assert (B := abs_B2R_lt_emax prec emax x).
    rewrite (fkey_finite x Fx). apply Rabs_lt_inv in B.
    destruct y as [s|[|]| |]; try discriminate; simpl fkey; cbv iota.
    + rewrite Rcompare_Gt by lra. destruct x; try discriminate; reflexivity.
    + rewrite Rcompare_Lt by lra. destruct x; try discriminate; reflexivity.
    + destruct x; try discriminate; reflexivity.
  - assert (B := abs_B2R_lt_emax prec emax y).
    rewrite (fkey_finite y Fy). apply Rabs_lt_inv in B.
    destruct x as [s|[|]| |]; try discriminate; simpl fkey; cbv iota.
    + rewrite Rcompare_Lt by lra. destruct y; try discriminate; reflexivity.
    + rewrite Rcompare_Gt by lra. destruct y; try discriminate; reflexivity.
    + destruct y; try discriminate; reflexivity.
  - destruct x as [s|[|]| |]; try discriminate; destruct y as [s'|[|]| |]; try discriminate;
      simpl fkey; cbv iota; try reflexivity;
      first [ rewrite Rcompare_Eq by lra; reflexivity
            | rewrite Rcompare_Lt by lra; reflexivity
            | rewrite Rcompare_Gt by lra; reflexivity ].
Qed.

Lemma OrdF : OrdLaws (NumF prec emax Hp Hm).
Proof.
  refine {| key := fkey : NumF prec emax Hp Hm -> option R |}; intros x y; simpl.
  - unfold Bltb, SpecFloat.SFltb. change (SpecFloat.SFcompare (B2SF x) (B2SF y)) with (Bcompare x y).
    rewrite Bcompare_key. destruct (fkey x), (fkey y); try reflexivity.
  - unfold Bleb, SpecFloat.SFleb. change (SpecFloat.SFcompare (B2SF x) (B2SF y)) with (Bcompare x y).
    rewrite Bcompare_key. destruct (fkey x), (fkey y); try reflexivity.
  - unfold Beqb, SpecFloat.SFeqb. change (SpecFloat.SFcompare (B2SF x) (B2SF y)) with (Bcompare x y).
    rewrite Bcompare_key. destruct (fkey x), (fkey y); reflexivity.
Defined.
End IEEE.

Definition OrdD : OrdLaws NumD := OrdF 53 1024 Hp53 Hm53.
Definition OrdS : OrdLaws NumS := OrdF 24 128 Hp24 Hm24.
