(** * Algebra of the limited memory BFGS approximation *)
From Coq Require Import List Arith Lia Reals Lra Bool.
From Verif Require Import ListFacts VecModel VecProofs LbfgsSpec.
Import ListNotations.
Local Open Scope R_scope.

Section Algebra.
Variable n : nat.
Definition vecs (p : list R * list R) : Prop := length (fst p) = n /\ length (snd p) = n.

Lemma lin_length a x b y : length x = n -> length y = n -> length (lin a x b y) = n.
Proof. intros. unfold lin. apply map2_length; auto. Qed.
Lemma ip_sym x y : ip x y = ip y x. Proof. apply dot_sym. Qed.
Lemma ip_lin a b x z y : length x = n -> length z = n -> length y = n -> ip (lin a x b z) y = a * ip x y + b * ip z y.
Proof. intros. unfold ip, lin. apply dot_linear; congruence. Qed.
Lemma ip_lin_r a b x z y : length x = n -> length z = n -> length y = n -> ip y (lin a x b z) = a * ip y x + b * ip y z.
Proof. intros. rewrite !(ip_sym y). apply ip_lin; auto. Qed.
Lemma ip_pos x : 0 <= ip x x.
Proof. unfold ip. rewrite sumsq_dot. apply sumsq_pos. Qed.
Lemma ip_scal_r a x y : length x = n -> length y = n -> ip x (map (Rmult a) y) = a * ip x y.
Proof.
  intros _ _. unfold ip. revert y. induction x as [|u x IH]; intros [|v y]; unfold map2 in *; simpl; try ring. rewrite IH. ring.
Qed.

Lemma product_length gamma prs v : Forall vecs prs -> length v = n -> length (lbfgs_product gamma prs v) = n.
Proof.
  revert v. induction prs as [|[s y] prs IH]; intros v Hp Hv; simpl.
  - rewrite map_length. exact Hv.
  - inversion Hp as [|? ? [Hs Hy] Hp']; subst. simpl in Hs, Hy. unfold bfgs_update. apply lin_length; auto. apply lin_length; auto. apply IH; auto. apply lin_length; auto.
Qed.

(** <u, H v> *)
Lemma product_form gamma s y prs u v : vecs (s, y) -> Forall vecs prs -> length u = n -> length v = n ->
  let rho := 1 / ip s y in
  ip u (lbfgs_product gamma ((s, y) :: prs) v) =
  ip (lin 1 u (- (rho * ip s u)) y) (lbfgs_product gamma prs (lin 1 v (- (rho * ip s v)) y)) + rho * ip s u * ip s v.
Proof.
  intros [Hs Hy] Hp Hu Hv rho. simpl in Hs, Hy. cbn [lbfgs_product]. unfold bfgs_update. fold rho.
  set (w := lbfgs_product gamma prs (lin 1 v (- (rho * ip s v)) y)).
  assert (Lw : length w = n) by (apply product_length; auto; apply lin_length; auto).
  rewrite ip_lin_r; auto; [|apply lin_length; auto]. rewrite ip_lin_r; auto. rewrite ip_lin; auto. rewrite (ip_sym u s). ring.
Qed.

Lemma product_symmetric gamma prs : Forall vecs prs -> forall u v, length u = n -> length v = n ->
  ip u (lbfgs_product gamma prs v) = ip v (lbfgs_product gamma prs u).
Proof.
  induction prs as [|[s y] prs IH]; intros Hp u v Hu Hv.
  - simpl. rewrite !ip_scal_r by auto. rewrite (ip_sym u v). reflexivity.
  - inversion Hp as [|? ? Hsy Hp']; subst. rewrite !product_form by auto. destruct Hsy as [Hs Hy]. simpl in Hs, Hy.
    rewrite IH by (auto; apply lin_length; auto). ring.
Qed.

Lemma ip_zero x : length x = n -> ip x x = 0 -> x = repeat 0 n.
Proof.
  intros L Hx. unfold ip in Hx. rewrite sumsq_dot in Hx. apply sumsq_zero in Hx. rewrite <- L. clear L.
  induction Hx as [|a x Ha Hx IH]; simpl; [reflexivity|]. congruence.
Qed.

Lemma product_positive gamma prs : 0 < gamma -> Forall vecs prs -> Forall (fun p => 0 < ip (fst p) (snd p)) prs ->
  forall v, length v = n -> 0 <= ip v (lbfgs_product gamma prs v) /\ (ip v (lbfgs_product gamma prs v) = 0 -> ip v v = 0).
Proof.
  intros Hg. induction prs as [|[s y] prs IH]; intros Hp Hc v Hv.
  - simpl. rewrite ip_scal_r by auto. pose proof (ip_pos v). split; [nra|]. intros E. destruct (Req_dec (ip v v) 0); auto. nra.
  - inversion Hp as [|? ? Hsy Hp']; subst. inversion Hc as [|? ? Hcu Hc']; subst. simpl in Hcu.
    rewrite product_form by auto. destruct Hsy as [Hs Hy]. simpl in Hs, Hy.
    set (rho := 1 / ip s y). assert (Hr : 0 < rho) by (unfold rho, Rdiv; rewrite Rmult_1_l; apply Rinv_0_lt_compat; auto).
    set (Vv := lin 1 v (- (rho * ip s v)) y). assert (LV : length Vv = n) by (apply lin_length; auto).
    destruct (IH Hp' Hc' Vv LV) as [P1 P2]. set (q := ip Vv (lbfgs_product gamma prs Vv)) in *.
    assert (Q : 0 <= rho * ip s v * ip s v) by (pose proof (Rle_0_sqr (ip s v)) as Z; unfold Rsqr in Z; nra).
    split; [lra|]. intros E. assert (E1 : ip s v = 0) by (destruct (Req_dec (ip s v) 0); auto; assert (0 < rho * ip s v * ip s v) by (pose proof (Rsqr_pos_lt (ip s v) H); unfold Rsqr in *; nra); lra).
    assert (E2 : q = 0) by nra. specialize (P2 E2).
    assert (EV : ip Vv Vv = ip v v).
    { unfold Vv. rewrite E1. rewrite ip_lin by (auto; apply lin_length; auto). rewrite !ip_lin_r by auto. ring. }
    rewrite <- EV. exact P2.
Qed.

Lemma lin_eq a x b y z : length x = n -> length y = n -> length z = n ->
  (forall i u v, nth_error x i = Some u -> nth_error y i = Some v -> nth_error z i = Some (a * u + b * v)) -> lin a x b y = z.
Proof.
  intros Hx Hy Hz P. apply list_eq_nth_error. intros i. unfold lin. rewrite map2_nth_error.
  destruct (nth_error x i) as [u|] eqn:Eu.
  - destruct (nth_error_Some_ex y i) as (v & Ev); [apply nth_error_lt in Eu; lia|]. rewrite Ev. symmetry. apply P; auto.
  - symmetry. apply nth_error_None. apply nth_error_None in Eu. lia.
Qed.

Lemma scal_lin g a b u v : map (Rmult g) (lin a u b v) = lin a (map (Rmult g) u) b (map (Rmult g) v).
Proof.
  apply list_eq_nth_error. intros i. unfold lin. rewrite nth_error_map, !map2_nth_error, !nth_error_map.
  destruct (nth_error u i), (nth_error v i); simpl; auto. f_equal. ring.
Qed.
Lemma lin_shift a b u v y (r1 r2 r : R) : length u = n -> length v = n -> length y = n -> r = a * r1 + b * r2 ->
  lin 1 (lin a u b v) r y = lin a (lin 1 u r1 y) b (lin 1 v r2 y).
Proof.
  intros. subst r. apply list_eq_nth_error. intros i. unfold lin. rewrite !map2_nth_error.
  destruct (nth_error u i), (nth_error v i), (nth_error y i); auto. f_equal. ring.
Qed.
Lemma product_linear gamma prs : Forall vecs prs -> forall a b u v, length u = n -> length v = n ->
  lbfgs_product gamma prs (lin a u b v) = lin a (lbfgs_product gamma prs u) b (lbfgs_product gamma prs v).
Proof.
  induction prs as [|[s y] prs IH]; intros Hp a b u v Hu Hv.
  - apply scal_lin.
  - pose proof (Forall_inv Hp) as [Hs Hy]; pose proof (Forall_inv_tail Hp) as Hp'. simpl in Hs, Hy. cbn [lbfgs_product]. unfold bfgs_update.
    set (rho := 1 / ip s y). rewrite (lin_shift a b u v y (- (rho * ip s u)) (- (rho * ip s v))) by (auto; rewrite ip_lin_r by auto; ring).
    rewrite IH by (auto; apply lin_length; auto).
    set (wu := lbfgs_product gamma prs (lin 1 u (- (rho * ip s u)) y)). set (wv := lbfgs_product gamma prs (lin 1 v (- (rho * ip s v)) y)).
    assert (Lu : length wu = n) by (apply product_length; auto; apply lin_length; auto). assert (Lv : length wv = n) by (apply product_length; auto; apply lin_length; auto).
    rewrite (lin_shift a b wu wv s (- (rho * ip y wu)) (- (rho * ip y wv))) by (auto; rewrite ip_lin_r by auto; ring).
    apply lin_shift; auto using lin_length. rewrite ip_lin_r by auto. ring.
Qed.

Definition zeros := repeat 0 n.
Lemma zeros_nth i a : nth_error zeros i = Some a -> a = 0.
Proof. unfold zeros. intros E. apply nth_error_In in E. apply repeat_spec in E. exact E. Qed.
Lemma zeros_length : length zeros = n. Proof. apply repeat_length. Qed.
Lemma ip_zeros x : length x = n -> ip x zeros = 0.
Proof.
  intros L. unfold ip, zeros. rewrite <- L. clear L. induction x as [|a x IH]; simpl; [reflexivity|]. unfold map2 in *. simpl. rewrite IH. ring.
Qed.
Lemma lin_zeros b y : length y = n -> b = 0 -> lin 1 zeros b y = zeros.
Proof.
  intros Hy ->. apply lin_eq; auto using zeros_length. intros i u v Eu Ev. rewrite Eu. f_equal. apply zeros_nth in Eu. subst. ring.
Qed.

Lemma product_zeros gamma prs : Forall vecs prs -> lbfgs_product gamma prs zeros = zeros.
Proof.
  induction prs as [|[s y] prs IH]; intros Hp; simpl.
  - apply list_eq_nth_error. intros i. rewrite nth_error_map. destruct (nth_error zeros i) as [a|] eqn:E; [|reflexivity]. simpl. f_equal.
    apply zeros_nth in E. subst. ring.
  - inversion Hp as [|? ? [Hs Hy] Hp']; subst. simpl in Hs, Hy. unfold bfgs_update. rewrite ip_zeros by auto.
    rewrite lin_zeros by (auto; ring). rewrite IH by auto. rewrite ip_zeros by auto. rewrite !lin_zeros by (auto; ring). reflexivity.
Qed.

(** The secant equation. *)
Lemma product_secant gamma s y prs : vecs (s, y) -> Forall vecs prs -> 0 < ip s y -> lbfgs_product gamma ((s, y) :: prs) y = s.
Proof.
  intros [Hs Hy] Hp Hc. simpl in Hs, Hy. cbn [lbfgs_product]. unfold bfgs_update.
  assert (E : 1 / ip s y * ip s y = 1) by (field; lra). rewrite E.
  assert (Z : lin 1 y (Ropp 1) y = zeros).
  { apply lin_eq; auto using zeros_length. intros i u v Eu Ev. rewrite Eu in Ev. injection Ev as ->.
    unfold zeros. rewrite nth_error_repeat; [f_equal; ring|]. apply nth_error_lt in Eu. lia. }
  rewrite Z, product_zeros by auto. rewrite ip_zeros by auto. rewrite lin_zeros by (auto; ring).
  apply lin_eq; auto using zeros_length. intros i u v Eu Ev. rewrite Ev. apply zeros_nth in Eu. subst. f_equal. ring.
Qed.
End Algebra.

(** ** Products with another inner product: the recursion restricted to the free variables *)
Section Restricted.
Variable n : nat.
Variable bl : list R -> list R -> R.
Definition gen_update (s y : list R) (H : list R -> list R) (v : list R) : list R :=
  let rho := 1 / bl s y in
  let w := H (lin 1 v (- (rho * bl s v)) y) in
  lin 1 (lin 1 w (- (rho * bl y w)) s) (rho * bl s v) s.
Fixpoint gen_product (gamma : R) (prs : list (list R * list R)) (v : list R) : list R :=
  match prs with [] => map (Rmult gamma) v | (s, y) :: older => gen_update s y (gen_product gamma older) v end.

Lemma gen_length gamma prs v : Forall (vecs n) prs -> length v = n -> length (gen_product gamma prs v) = n.
Proof.
  revert v. induction prs as [|[s y] prs IH]; intros v Hp Hv; simpl.
  - rewrite map_length. exact Hv.
  - inversion Hp as [|? ? [Hs Hy] Hp']; subst. simpl in Hs, Hy. unfold gen_update. apply lin_length; auto. apply lin_length; auto. apply IH; auto. apply lin_length; auto.
Qed.

Variable w : list R.
Hypothesis Lw : length w = n.
Notation restrict := (free_part w).
Hypothesis Hbl : forall u v, length u = n -> length v = n -> bl u v = ip (restrict u) (restrict v).
Lemma restrict_length v : length v = n -> length (restrict v) = n.
Proof. intros. unfold free_part. apply map2_length; auto. Qed.
Lemma restrict_lin a x b y : length x = n -> length y = n -> restrict (lin a x b y) = lin a (restrict x) b (restrict y).
Proof.
  intros. symmetry. apply (lin_eq n); auto using restrict_length, lin_length. intros i u v. unfold free_part, lin. rewrite !map2_nth_error.
  destruct (nth_error w i); [|discriminate]. destruct (nth_error x i); [|discriminate]. destruct (nth_error y i); [|discriminate].
  injection 1 as <-. injection 1 as <-. f_equal. ring.
Qed.
Lemma restrict_scal a x : restrict (map (Rmult a) x) = map (Rmult a) (restrict x).
Proof.
  apply list_eq_nth_error. intros i. unfold free_part. rewrite nth_error_map, !map2_nth_error, nth_error_map.
  destruct (nth_error w i), (nth_error x i); simpl; auto. f_equal. ring.
Qed.

Lemma gen_restrict gamma prs v : Forall (vecs n) prs -> length v = n ->
  restrict (gen_product gamma prs v) = lbfgs_product gamma (map (free_pair w) prs) (restrict v).
Proof.
  revert v. induction prs as [|[s y] prs IH]; intros v Hp Hv; simpl.
  - apply restrict_scal.
  - pose proof (Forall_inv Hp) as [Hs Hy]; pose proof (Forall_inv_tail Hp) as Hp'. simpl in Hs, Hy. unfold gen_update, bfgs_update.
    set (u := lin 1 v (- (1 / bl s y * bl s v)) y). set (W := gen_product gamma prs u).
    assert (Lu : length u = n) by (apply (lin_length n); auto). assert (LW : length W = n) by (apply gen_length; auto).
    rewrite restrict_lin; auto; [|apply lin_length; auto]. rewrite restrict_lin; auto.
    assert (EW : restrict W = lbfgs_product gamma (map (free_pair w) prs) (lin 1 (restrict v) (- (1 / ip (restrict s) (restrict y) * ip (restrict s) (restrict v))) (restrict y))).
    { unfold W. rewrite IH; auto. f_equal. unfold u. rewrite restrict_lin; auto. rewrite !Hbl; auto. }
    rewrite <- EW, <- !Hbl by auto. reflexivity.
Qed.
End Restricted.
