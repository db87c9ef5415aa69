(** * Vectors in the memory of NEWUOA, and the loops over them *)
From Coq Require Import ZArith List Reals Bool Lia Lra.
Import ListNotations.
From Flocq Require Import Core.
From Verif Require Import Num BqLang BqModel NwModel NumE MemE.
Local Open Scope Z_scope.

(** Arrays of [n] elements with no element in common *)
Definition apart (n p q : Z) : Prop := p + n <= q \/ q + n <= p.
Lemma apart_at n p q i j : apart n p q -> 1 <= i <= n -> 1 <= j <= n -> at1 p i <> at1 q j.
Proof. unfold apart, at1. lia. Qed.

(** Evaluation of expressions *)
Ltac ev := lazymatch goal with
  | |- evals (ret _) _ _ => apply ev_ret
  | |- evals (ld _) _ _ => apply ev_ld
  | |- evals (lift1 _ _) _ _ => apply ev_lift1; ev
  | |- evals (lift2 _ _ _) _ _ => apply ev_lift2; ev
  end.
(** One statement of the program in [E] *)
Ltac st E := first
  [ eapply b_as in E; [|solve [ev]]
  | eapply b_aa in E; [|solve [ev]]
  | eapply b_ev in E; [|solve [ev]] ]; cbv beta in E.
Ltac fe E := match type of E with ?p ?s = Ret ?a ?s' =>
  let K := fresh in eassert (K : evals p s _) by ev; destruct (K _ _ E) as [? ?]; clear K; subst a s' end.
Ltac rt E := let K1 := fresh in let K2 := fresh in apply r_inv in E; destruct E as [K1 K2];
  match type of K1 with ?a = _ => subst a end; match type of K2 with ?b = _ => subst b end.

(** ** Real numbers *)
Section Reals.
Local Open Scope R_scope.
(** newuoa.c 2497-2498: the step that reaches the boundary *)
Lemma bstep_ok S D E q : S < q -> 0 <= D -> 0 <= E -> (D = 0 -> E <> 0) ->
  let r := R_sqrt.sqrt (D * D + E * (q - S)) in
  0 <= D * D + E * (q - S) /\ 0 < D + r /\ let b := (q - S) / (D + r) in 0 < b /\ S + 2 * b * D + b * b * E = q.
Proof.
  intros HS HD HE HN r. assert (H0 : 0 <= D * D + E * (q - S)) by (assert (0 <= E * (q - S)) by (apply Rmult_le_pos; lra); nra).
  split; [exact H0|]. assert (Hr : 0 <= r) by apply sqrt_pos. assert (Hrr : r * r = D * D + E * (q - S)) by (apply sqrt_sqrt, H0).
  assert (HP : 0 < D + r).
  { destruct (Rle_lt_or_eq_dec 0 D HD) as [K|K]; [lra|]. assert (0 < E) by (destruct HE as [|HE]; [assumption|]; exfalso; apply HN; lra).
    assert (0 < E * (q - S)) by (apply Rmult_lt_0_compat; lra). assert (r <> 0) by (intros Z; rewrite Z in Hrr; subst D; lra). lra. }
  split; [exact HP|]. cbv zeta. set (b := (q - S) / (D + r)). assert (Hb : b * (D + r) = q - S) by (unfold b; field; lra).
  split; [apply Rdiv_lt_0_compat; lra|].
  assert (K : (D + r) * (S + 2 * b * D + b * b * E - q) = 0).
  { replace ((D + r) * (S + 2 * b * D + b * b * E - q)) with ((D + r) * (S - q) + 2 * D * (b * (D + r)) + b * E * (b * (D + r))) by ring.
    rewrite Hb. assert (b * E * (q - S) = b * (r * r - D * D)) by (rewrite Hrr; ring).
    replace (b * (r * r - D * D)) with (b * (D + r) * (r - D)) in H by ring. rewrite Hb in H. lra. }
  apply Rmult_integral in K. lra.
Qed.
Lemma alpha_ok S D E q b a : 0 <= D -> 0 <= E -> 0 <= a <= b -> S + 2 * b * D + b * b * E = q -> S + 2 * a * D + a * a * E <= q.
Proof. intros HD HE Ha <-. assert (a * D <= b * D) by nra. assert (a * a <= b * b) by nra. nra. Qed.
End Reals.

Section Vec.
Context {H J : R}.
Local Notation N := (NumE H J).
Lemma add_ext (f f' : Z -> N) (x : N) k : (forall i, 1 <= i <= Z.of_nat k -> f i = f' i) -> nadd (osum f k) x = nadd (osum f' k) x.
Proof. intros E. rewrite (osum_ext f f' k E). reflexivity. Qed.
Lemma nlt_e (x y : R) : nlt (Some x : N) (Some y) = true -> (x < y)%R.
Proof. cbn. intros E. revert E. case Rlt_bool_spec; [auto|discriminate]. Qed.
Lemma nle_e (x y : R) : nle (Some x : N) (Some y) = true -> (x <= y)%R.
Proof. cbn. intros E. revert E. case Rle_bool_spec; [auto|discriminate]. Qed.
Lemma nlt_f (x y : R) : nlt (Some x : N) (Some y) = false -> (y <= x)%R.
Proof. cbn. intros E. revert E. case Rlt_bool_spec; [discriminate|auto]. Qed.
Lemma nle_f (x y : R) : nle (Some x : N) (Some y) = false -> (y < x)%R.
Proof. cbn. intros E. revert E. case Rle_bool_spec; [discriminate|auto]. Qed.
(** The writes of sethd *)
Lemma sethd_keeps (K : Z -> Prop) n npt xpt hq pq d hd : (forall b i, K b -> 1 <= i <= n -> b <> at1 hd i) ->
  keeps (H := H) (J := J) K (sethd n npt xpt hq pq d hd).
Proof.
  intros HK. unfold sethd. cbv zeta.
  assert (A : forall i, 1 <= i <= n -> forall b, K b -> b <> at1 hd i) by (intros i Hi b Hb; apply HK; assumption).
  repeat first [ apply k_ret | apply k_ld | (apply k_assign; [apply A; lia|]) | (apply k_assign_add; [apply A; lia|]) | apply k_lift1
               | apply k_lift2 | (apply k_LOOP_; intros ? ?) | (apply k_LOOP; intros ? ? ?) | (apply k_bind; [|intros ?])
               | match goal with |- keeps _ (if ?b then _ else _) => destruct b end ].
Qed.


Section Dot.
Variable n : Z.
(** The array [p] of [n] elements holds the numbers [u 1], ..., [u n] *)
Definition vec (s : mst N) (p : Z) (u : Z -> R) : Prop := forall i, 1 <= i <= n -> val s (at1 p i) = Some (u i).
Definition vdot (u v : Z -> R) : R := rsum (fun i => u i * v i)%R (Z.to_nat n).
Lemma vdot_ext u v u' v' : (forall i, 1 <= i <= n -> u i = u' i) -> (forall i, 1 <= i <= n -> v i = v' i) -> vdot u v = vdot u' v'.
Proof. intros A B. apply rsum_ext. intros i Hi. rewrite A, B by lia. reflexivity. Qed.
Lemma vdot_comm u v : vdot u v = vdot v u.
Proof. apply rsum_ext. intros. apply Rmult_comm. Qed.
Lemma vdot_pos u : (0 <= vdot u u)%R.
Proof. apply rsum_nonneg. intros. apply Rle_0_sqr. Qed.
(** The rotation *)
Lemma rot_ok (u e : Z -> R) (c t q : R) : (c * c + t * t = 1)%R -> vdot u u = q -> vdot e e = q -> vdot u e = 0%R ->
  vdot (fun i => c * u i + t * e i)%R (fun i => c * u i + t * e i)%R = q.
Proof. intros Hc Hu He Hue. unfold vdot in *. rewrite rsum_comb, Hu, He, Hue. replace (_ + _)%R with ((c * c + t * t) * q)%R by ring. rewrite Hc. ring. Qed.

(** A vector orthogonal to [u] of the same length: newuoa.c 2296-2300, 1885-1893 *)
Lemma orth_ok (u v : Z -> R) (T : R) : let q := vdot u u in let k := vdot u v in let V := vdot v v in
  T <> 0%R -> (T * T = q * V - k * k)%R ->
  let e := fun i => ((q * v i - k * u i) / T)%R in vdot e e = q /\ vdot u e = 0%R.
Proof.
  intros q k V HT HTT e.
  assert (X : forall i, e i = (q / T * v i + (- k / T) * u i)%R) by (intros i; unfold e; field; exact HT).
  split.
  - rewrite (vdot_ext e e (fun i => q / T * v i + (- k / T) * u i)%R (fun i => q / T * v i + (- k / T) * u i)%R) by (intros; apply X).
    unfold vdot at 1. rewrite rsum_comb. fold (vdot v v) (vdot v u) (vdot u u). rewrite (vdot_comm v u). fold q V k.
    replace (_ + _)%R with (q * (q * V - k * k) / (T * T))%R by (field; exact HT). rewrite <- HTT. field. exact HT.
  - rewrite vdot_comm. rewrite (vdot_ext e u (fun i => q / T * v i + (- k / T) * u i)%R u) by (intros; auto).
    unfold vdot at 1. rewrite rsum_dot. fold (vdot v u) (vdot u u). rewrite (vdot_comm v u). fold q k. field. exact HT.
Qed.
End Dot.
End Vec.
