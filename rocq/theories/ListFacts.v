(** * Lists: elementwise maps *)
From Coq Require Import List Arith Lia.
From Verif Require Import VecModel.
Import ListNotations.

Lemma nth_error_repeat {A} (a : A) n i : i < n -> nth_error (repeat a n) i = Some a.
Proof. revert i; induction n; intros [|i] H; simpl; try lia; auto. apply IHn; lia. Qed.

Lemma nth_error_repeat_inv {A} (a b : A) n i : nth_error (repeat a n) i = Some b -> b = a.
Proof. intros H. apply nth_error_In in H. apply repeat_spec in H. exact H. Qed.

Lemma combine_nth_error {A B} (x : list A) (y : list B) i :
  nth_error (combine x y) i = match nth_error x i, nth_error y i with Some a, Some b => Some (a, b) | _, _ => None end.
Proof.
  revert y i; induction x as [|a x IH]; intros [|b y] [|i]; simpl; auto.
  destruct (nth_error x i); auto.
Qed.

Lemma map2_nth_error {A B C} (f : A -> B -> C) x y i :
  nth_error (map2 f x y) i = match nth_error x i, nth_error y i with Some a, Some b => Some (f a b) | _, _ => None end.
Proof.
  unfold map2. rewrite nth_error_map, combine_nth_error.
  destruct (nth_error x i), (nth_error y i); auto.
Qed.

Lemma map3_nth_error {A B C D} (f : A -> B -> C -> D) x y z i :
  nth_error (map3 f x y z) i =
  match nth_error x i, nth_error y i, nth_error z i with Some a, Some b, Some c => Some (f a b c) | _, _, _ => None end.
Proof.
  unfold map3. rewrite map2_nth_error, combine_nth_error.
  destruct (nth_error x i), (nth_error y i), (nth_error z i); auto.
Qed.

Lemma map2_length {A B C} (f : A -> B -> C) x y n : length x = n -> length y = n -> length (map2 f x y) = n.
Proof. intros Hx Hy. unfold map2. rewrite map_length, combine_length. lia. Qed.

Lemma map3_length {A B C D} (f : A -> B -> C -> D) x y z n :
  length x = n -> length y = n -> length z = n -> length (map3 f x y z) = n.
Proof. intros Hx Hy Hz. unfold map3. apply map2_length; auto. rewrite combine_length. lia. Qed.

Lemma nth_error_Some_ex {A} (x : list A) i : i < length x -> exists a, nth_error x i = Some a.
Proof. intros H. destruct (nth_error x i) eqn:E; eauto. apply nth_error_None in E. lia. Qed.

Lemma nth_error_lt {A} (x : list A) i a : nth_error x i = Some a -> i < length x.
Proof. intros H. apply nth_error_Some. congruence. Qed.

Lemma list_eq_nth_error {A} (x y : list A) : (forall i, nth_error x i = nth_error y i) -> x = y.
Proof.
  revert y; induction x as [|a x IH]; intros [|b y] H; auto.
  - specialize (H 0); discriminate.
  - specialize (H 0); discriminate.
  - f_equal. { specialize (H 0); simpl in H; congruence. } apply IH. intros i. apply (H (S i)).
Qed.

Lemma Forall_nth_error {A} (P : A -> Prop) (l : list A) :
  Forall P l <-> (forall i a, nth_error l i = Some a -> P a).
Proof.
  rewrite Forall_forall. split; intros H.
  - intros i a Hi. apply H. eapply nth_error_In; eauto.
  - intros a Ha. apply In_nth_error in Ha. destruct Ha as [i Hi]. eauto.
Qed.

Lemma map2_swap {A B C} (f : A -> B -> C) x y : map2 f x y = map2 (fun b a => f a b) y x.
Proof.
  apply list_eq_nth_error; intros i. rewrite !map2_nth_error.
  destruct (nth_error x i), (nth_error y i); auto.
Qed.
