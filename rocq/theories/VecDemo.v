(** * A concrete heap, used by the examples that show that the hypotheses of the theorems can be met *)
From Coq Require Import List ZArith Bool Arith Lia.
From Verif Require Import Num VecModel MemModel MemSpec BoxSpec.
Import ListNotations.

Section Demo.
Context (N : Num).

(** Spaces: 0 (size 3) and 1 (size 2).  Vectors of space 0: 10 and 12 share their data (1, -2, 7); 11 holds
    (0, 3, -1); 14 holds (0, 0, 1); 15 holds (2, 2, 2).  Vector 13 of space 1 holds (4, 4).
    Boxes of space 0: 20 (lower bound: vector 14, upper bound: the scalar 5), 21 (no bounds). *)
Definition demo_blocks : list (list N) :=
  [ [nZ 1; nZ (-2); nZ 7]; [nZ 0; nZ 3; nZ (-1)]; [nZ 4; nZ 4]; [nZ 0; nZ 0; nZ 1]; [nZ 2; nZ 2; nZ 2] ].
Definition demo_mem : mem N := fun b o => do l <- nth_error demo_blocks b; nth_error l o.
Definition demo : heap N N := mkHeap
  (fun s => match s with 0 => Some 3 | 1 => Some 2 | _ => None end)
  (fun v => match v with
            | 10 | 12 => Some (mkVector 0 (0, 0)) | 11 => Some (mkVector 0 (1, 0)) | 13 => Some (mkVector 1 (2, 0))
            | 14 => Some (mkVector 0 (3, 0)) | 15 => Some (mkVector 0 (4, 0)) | _ => None end)
  (fun b => match b with
            | 20 => Some (mkBox 0 (OVector 14) (OScalar (nZ 5))) | 21 => Some (mkBox 0 ONone ONone) | _ => None end)
  demo_mem.

Lemma demo_holds b l : nth_error demo_blocks b = Some l -> holds demo_mem (b, 0) l.
Proof. intros Hb j a Ha. unfold rd, demo_mem. simpl. rewrite Hb. exact Ha. Qed.

Ltac vec := split; [reflexivity|]; split; [reflexivity|]; split; [reflexivity|]; apply demo_holds; reflexivity.

Lemma demo_10 : is_vector demo 10 0 3 (0, 0) [nZ 1; nZ (-2); nZ 7].
Proof. vec. Qed.
Lemma demo_12 : is_vector demo 12 0 3 (0, 0) [nZ 1; nZ (-2); nZ 7].
Proof. vec. Qed.
Lemma demo_11 : is_vector demo 11 0 3 (1, 0) [nZ 0; nZ 3; nZ (-1)].
Proof. vec. Qed.
Lemma demo_13 : is_vector demo 13 1 2 (2, 0) [nZ 4; nZ 4].
Proof. vec. Qed.
Lemma demo_14 : is_vector demo 14 0 3 (3, 0) [nZ 0; nZ 0; nZ 1].
Proof. vec. Qed.
Lemma demo_15 : is_vector demo 15 0 3 (4, 0) [nZ 2; nZ 2; nZ 2].
Proof. vec. Qed.

Lemma demo_apart b b' : b <> b' -> same_or_apart (b, 0) (b', 0) 3.
Proof. intros Hb. right. intros x o [H1 _] [H2 _]. simpl in *. congruence. Qed.
Lemma demo_same b : same_or_apart (b, 0) (b, 0) 3.
Proof. left; reflexivity. Qed.

Lemma demo_box : is_box demo 20 0 3 (BVector [nZ 0; nZ 0; nZ 1]) (BScalar (nZ 5)).
Proof.
  eexists. split; [reflexivity|]. split; [reflexivity|]. split; [reflexivity|].
  split; [|reflexivity]. exists (3, 0), [nZ 0; nZ 0; nZ 1]. split; [reflexivity|]. exact demo_14.
Qed.
Lemma demo_box_free : is_box demo 21 0 3 BNone BNone.
Proof.
  eexists. split; [reflexivity|]. split; [reflexivity|]. split; [reflexivity|]. split; reflexivity.
Qed.
Lemma demo_box_apart b : b <> 3 -> box_apart demo 20 (b, 0) 3.
Proof.
  intros Hb bx [= <-]. split; simpl; auto. intros vv [= <-]. simpl. apply demo_apart; auto.
Qed.
End Demo.
