(** * Order reasoning on numbers *)
From Coq Require Import Bool Reals Lra.
From Flocq Require Import Core.
From Verif Require Import Num NumFacts.

Ltac keys O :=
  rewrite ?(key_lt _ O), ?(key_le _ O), ?(key_eq _ O) in *.

Ltac rbool :=
  repeat match goal with
  | H : context [Rlt_bool ?a ?b] |- _ => destruct (Rlt_bool_spec a b)
  | H : context [Rle_bool ?a ?b] |- _ => destruct (Rle_bool_spec a b)
  | H : context [Req_bool ?a ?b] |- _ => destruct (Req_bool_spec a b)
  | |- context [Rlt_bool ?a ?b] => destruct (Rlt_bool_spec a b)
  | |- context [Rle_bool ?a ?b] => destruct (Rle_bool_spec a b)
  | |- context [Req_bool ?a ?b] => destruct (Req_bool_spec a b)
  end; try discriminate; try reflexivity; try lra; auto.

Lemma Rle_bool_true_iff a b : Rle_bool a b = true <-> (a <= b)%R.
Proof. destruct (Rle_bool_spec a b); split; intros; try lra; discriminate. Qed.
Lemma Rlt_bool_true_iff a b : Rlt_bool a b = true <-> (a < b)%R.
Proof. destruct (Rlt_bool_spec a b); split; intros; try lra; discriminate. Qed.
Lemma Rlt_bool_false_iff a b : Rlt_bool a b = false <-> (b <= a)%R.
Proof. destruct (Rlt_bool_spec a b); split; intros; try lra; discriminate. Qed.
Lemma Rle_bool_false_iff a b : Rle_bool a b = false <-> (b < a)%R.
Proof. destruct (Rle_bool_spec a b); split; intros; try lra; discriminate. Qed.
Lemma Req_bool_true_iff a b : Req_bool a b = true <-> a = b.
Proof. destruct (Req_bool_spec a b); split; intros; try lra; discriminate. Qed.
Lemma Req_bool_false_iff a b : Req_bool a b = false <-> a <> b.
Proof. destruct (Req_bool_spec a b); split; intros; try lra; try discriminate; contradiction. Qed.

Section Ord.
Context {E : Num} (O : OrdLaws E).
Local Open Scope num_scope.

Lemma is_num_key (z : E) : (z =? z) = true <-> exists r, key O z = Some r.
Proof.
  rewrite (key_eq _ O). destruct (key O z); split; intros H; eauto; try discriminate.
  - rbool. - destruct H; discriminate.
Qed.

Lemma le_num_l (a b : E) : (a <=? b) = true -> (a =? a) = true.
Proof. rewrite (key_le _ O), (key_eq _ O). destruct (key O a), (key O b); intros; try discriminate; rbool. Qed.
Lemma le_num_r (a b : E) : (a <=? b) = true -> (b =? b) = true.
Proof. rewrite (key_le _ O), (key_eq _ O). destruct (key O a), (key O b); intros; try discriminate; rbool. Qed.
Lemma nlt_nle (a b : E) : (a <? b) = true -> (a <=? b) = true.
Proof. keys O. destruct (key O a), (key O b); intros; try discriminate; rbool. Qed.
Lemma not_lt_le (a b : E) : (a =? a) = true -> (b =? b) = true -> (a <? b) = false -> (b <=? a) = true.
Proof. keys O. destruct (key O a), (key O b); intros; try discriminate; rbool. Qed.
Lemma not_le_lt (a b : E) : (a =? a) = true -> (b =? b) = true -> (a <=? b) = false -> (b <? a) = true.
Proof. keys O. destruct (key O a), (key O b); intros; try discriminate; rbool. Qed.
Lemma le_not_lt (a b : E) : (a <=? b) = true -> (b <? a) = false.
Proof. keys O. destruct (key O a), (key O b); intros; try discriminate; rbool. Qed.
Lemma lt_not_le (a b : E) : (a <? b) = true -> (b <=? a) = false.
Proof. keys O. destruct (key O a), (key O b); intros; try discriminate; rbool. Qed.
Lemma nle_trans (a b d : E) : (a <=? b) = true -> (b <=? d) = true -> (a <=? d) = true.
Proof. keys O. destruct (key O a), (key O b), (key O d); intros; try discriminate; rbool. Qed.
Lemma nlt_le_trans (a b d : E) : (a <? b) = true -> (b <=? d) = true -> (a <? d) = true.
Proof. keys O. destruct (key O a), (key O b), (key O d); intros; try discriminate; rbool. Qed.
Lemma nle_lt_trans (a b d : E) : (a <=? b) = true -> (b <? d) = true -> (a <? d) = true.
Proof. keys O. destruct (key O a), (key O b), (key O d); intros; try discriminate; rbool. Qed.
Lemma nle_refl (a : E) : (a =? a) = true -> (a <=? a) = true.
Proof. keys O. destruct (key O a); intros; try discriminate; rbool. Qed.
Lemma nlt_irrefl (a : E) : (a <? a) = false.
Proof. keys O. destruct (key O a); intros; try discriminate; rbool. Qed.
End Ord.

