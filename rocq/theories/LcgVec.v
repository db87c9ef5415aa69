(** * Vectors and matrices of real numbers: lemmas used for lcg.c *)
From Coq Require Import ZArith Reals List Lia Lra.
From Verif Require Import Base Num LaSpec LaMem LaChol LcgModel LcgSpec.
Import ListNotations.
Local Open Scope R_scope.

Section Vec.
Variable n : Z.
Implicit Types (u v w : Z -> R) (A : Z -> Z -> R).
Notation "u .* v" := (dotp n u v) (at level 40).
Notation "u == v" := (same n u v) (at level 70).

Lemma same_refl : forall u, u == u.
Proof. intros u i Hi. reflexivity. Qed.
Lemma same_sym : forall u v, u == v -> v == u.
Proof. intros u v E i Hi. symmetry. apply E. exact Hi. Qed.
Lemma same_trans : forall u v w, u == v -> v == w -> u == w.
Proof. intros u v w E F i Hi. rewrite E by exact Hi. apply F. exact Hi. Qed.

Lemma dotp_ext : forall u u' v v', u == u' -> v == v' -> u .* v = u' .* v'.
Proof. intros u u' v v' E F. apply sumz_ext. intros i Hi. rewrite E, F by exact Hi. reflexivity. Qed.

Lemma dotp_comm : forall u v, u .* v = v .* u.
Proof. intros u v. apply sumz_ext. intros i _. ring. Qed.

Lemma dotp_lin_l : forall u v w a, (fun i => u i + a * v i) .* w = u .* w + a * (v .* w).
Proof.
  intros u v w a. unfold dotp. rewrite <- sumz_scal, <- sumz_plus. apply sumz_ext. intros i _. ring.
Qed.

Lemma dotp_lin_r : forall u v w a, w .* (fun i => u i + a * v i) = w .* u + a * (w .* v).
Proof. intros. rewrite dotp_comm, dotp_lin_l, (dotp_comm u), (dotp_comm v). reflexivity. Qed.

Lemma dotp_scal_l : forall u w a, (fun i => a * u i) .* w = a * (u .* w).
Proof. intros u w a. unfold dotp. rewrite <- sumz_scal. apply sumz_ext. intros i _. ring. Qed.

Lemma dotp_zero_l : forall u v, (forall i, (0 <= i < n)%Z -> u i = 0) -> u .* v = 0.
Proof. intros u v E. apply sumz_zero. intros i Hi. rewrite E by exact Hi. ring. Qed.

Lemma dotp_sq : forall u, 0 <= u .* u.
Proof. intros u. apply sumz_nonneg. intros i _. apply Rle_0_sqr. Qed.

Lemma dotp_sq_0 : forall u, u .* u = 0 -> forall i, (0 <= i < n)%Z -> u i = 0.
Proof.
  intros u E i Hi. destruct (Req_dec (u i) 0) as [|Hne]; [assumption|].
  exfalso. assert (P : 0 < u .* u); [|lra].
  unfold dotp. rewrite (sumz_split 0 i n), (sumz_left i n) by lia.
  assert (0 <= sumz 0 i (fun i => u i * u i)) by (apply sumz_nonneg; intros; apply Rle_0_sqr).
  assert (0 <= sumz (i + 1) n (fun i => u i * u i)) by (apply sumz_nonneg; intros; apply Rle_0_sqr).
  assert (0 < u i * u i) by (apply Rsqr_pos_lt; exact Hne). lra.
Qed.

Lemma mulv_ext : forall A u v, u == v -> mulv n A u == mulv n A v.
Proof. intros A u v E i Hi. apply sumz_ext. intros l Hl. rewrite E by exact Hl. reflexivity. Qed.

Lemma mulv_lin : forall A u v a i, mulv n A (fun i => u i + a * v i) i = mulv n A u i + a * mulv n A v i.
Proof.
  intros A u v a i. unfold mulv. rewrite <- sumz_scal, <- sumz_plus. apply sumz_ext. intros l _. ring.
Qed.

Lemma mulv_sym : forall A u v, symmetric n A -> u .* mulv n A v = v .* mulv n A u.
Proof.
  intros A u v S. unfold dotp, mulv.
  rewrite (sumz_ext 0 n (fun i => u i * sumz 0 n (fun l => A i l * v l)) (fun i => sumz 0 n (fun l => u i * (A i l * v l))))
    by (intros i _; rewrite sumz_scal; reflexivity).
  rewrite (sumz_ext 0 n (fun i => v i * sumz 0 n (fun l => A i l * u l)) (fun i => sumz 0 n (fun l => v i * (A i l * u l))))
    by (intros i _; rewrite sumz_scal; reflexivity).
  rewrite sumz_swap. apply sumz_ext. intros i Hi. apply sumz_ext. intros l Hl. rewrite (S l i Hl Hi). ring.
Qed.

(** positive definiteness *)
Lemma pos_def_dotp : forall A u, pos_def n A -> (exists i, (0 <= i < n)%Z /\ u i <> 0) -> 0 < u .* mulv n A u.
Proof.
  intros A u PD Hu. specialize (PD u Hu).
  replace (u .* mulv n A u) with (sumz 0 n (fun i => sumz 0 n (fun j => u i * A i j * u j))); [exact PD|].
  unfold dotp, mulv. apply sumz_ext. intros i _. rewrite <- sumz_scal. apply sumz_ext. intros l _. ring.
Qed.

Lemma nonzero_or : forall u, (exists i, (0 <= i < n)%Z /\ u i <> 0) \/ (forall i, (0 <= i < n)%Z -> u i = 0).
Proof.
  intros u. destruct (Req_dec (u .* u) 0) as [E|E]; [right; apply dotp_sq_0; exact E|].
  left.
  assert (G : forall k : nat, (exists i, (0 <= i < Z.of_nat k)%Z /\ u i <> 0) \/ (forall i, (0 <= i < Z.of_nat k)%Z -> u i = 0)).
  { induction k as [|k IH]; [right; intros; lia|]. destruct IH as [[i [Hi Hu]]|Hz]; [left; exists i; split; [lia|exact Hu]|].
    destruct (Req_dec (u (Z.of_nat k)) 0) as [E0|E0].
    - right. intros i Hi. destruct (Z.eq_dec i (Z.of_nat k)) as [->|]; [exact E0|apply Hz; lia].
    - left. exists (Z.of_nat k). split; [lia|exact E0]. }
  destruct (G (Z.to_nat n)) as [[i [Hi Hu]]|Hz]; [exists i; split; [lia|exact Hu]|].
  exfalso. apply E. apply dotp_zero_l. intros i Hi. apply Hz. lia.
Qed.

Lemma pos_def_nonneg : forall A u, pos_def n A -> 0 <= u .* mulv n A u.
Proof.
  intros A u PD. destruct (nonzero_or u) as [Hu|Hu]; [apply Rlt_le, pos_def_dotp; assumption|].
  rewrite dotp_zero_l by exact Hu. lra.
Qed.

(** ** The quadratic function *)
Lemma quad_ext : forall A b u v, u == v -> quad n A b u = quad n A b v.
Proof.
  intros A b u v E. unfold quad.
  rewrite (dotp_ext u v (mulv n A u) (mulv n A v) E (mulv_ext A u v E)).
  rewrite (dotp_ext b b u v (same_refl b) E). reflexivity.
Qed.

(** change of the function along a direction in terms of the residuals *)
Lemma quad_along : forall A b x r d a, symmetric n A -> r == (fun i => b i - mulv n A x i) ->
  quad n A b (fun i => x i + a * d i) = quad n A b x - a * (r .* d) + a * a * (d .* mulv n A d) / 2.
Proof.
  intros A b x r d a S E. unfold quad.
  rewrite (dotp_ext (fun i => x i + a * d i) (fun i => x i + a * d i) (mulv n A (fun i => x i + a * d i))
             (fun i => mulv n A x i + a * mulv n A d i) (same_refl _) (fun i _ => mulv_lin A x d a i)).
  rewrite dotp_lin_l, !dotp_lin_r. rewrite (mulv_sym A d x S).
  rewrite (dotp_ext r (fun i => b i - mulv n A x i) d d E (same_refl d)).
  replace ((fun i => b i - mulv n A x i) .* d) with (b .* d - d .* mulv n A x).
  - rewrite (mulv_sym A d x S). field.
  - replace ((fun i => b i - mulv n A x i) .* d) with ((fun i => b i + (-1) * mulv n A x i) .* d)
      by (apply dotp_ext; [intros i _; ring|apply same_refl]).
    rewrite dotp_lin_l. rewrite (dotp_comm d). ring.
Qed.

(** ** More than n vectors are dependent *)

Lemma lin_app : forall c1 c2 (v1 v2 : list (Z -> R)) i, length c1 = length v1 -> lin (c1 ++ c2) (v1 ++ v2) i = lin c1 v1 i + lin c2 v2 i.
Proof.
  induction c1 as [|c c1 IH]; intros c2 v1 v2 i E; destruct v1 as [|v v1]; try discriminate.
  - cbn [app lin]. lra.
  - cbn [app lin]. injection E as E. rewrite IH by exact E. ring.
Qed.

Lemma dotp_lin : forall c vs u, u .* (fun i => lin c vs i) = fold_right Rplus 0 (map (fun cv => fst cv * (u .* snd cv)) (combine c vs)).
Proof.
  induction c as [|c cs IH]; intros vs u.
  - cbn [lin combine map fold_right]. rewrite dotp_comm. apply dotp_zero_l. reflexivity.
  - destruct vs as [|v vs].
    + cbn [lin combine map fold_right]. rewrite dotp_comm. apply dotp_zero_l. reflexivity.
    + cbn [combine map fold_right fst snd]. rewrite <- IH.
      replace (u .* (fun i => lin (c :: cs) (v :: vs) i)) with (u .* (fun i => lin cs vs i + c * v i))
        by (apply dotp_ext; [apply same_refl|intros i _; cbn [lin]; ring]).
      rewrite (dotp_lin_r (fun i => lin cs vs i) v u c). ring.
Qed.

End Vec.

(** vectors of [k] elements, more than [k] of them: some non trivial combination vanishes *)
Lemma dependent : forall (k : nat) (vs : list (Z -> R)), (k < length vs)%nat ->
  exists c, length c = length vs /\ (exists a, In a c /\ a <> 0) /\ forall i, (0 <= i < Z.of_nat k)%Z -> lin c vs i = 0.
Proof.
  induction k as [|k IH]; intros vs Hl.
  - exists (repeat 1 (length vs)). split; [apply repeat_length|]. split.
    + exists 1. split; [|lra]. destruct vs; [cbn in Hl; lia|]. left. reflexivity.
    + intros i Hi. lia.
  - (* is there a vector with a non zero last element? *)
    assert (D : (exists v1 v v2, vs = v1 ++ v :: v2 /\ v (Z.of_nat k) <> 0) \/ (forall v, In v vs -> v (Z.of_nat k) = 0)).
    { clear IH Hl. induction vs as [|v vs [[v1 [w [v2 [E Hw]]]]|Hz]].
      - right. intros v [].
      - left. exists (v :: v1), w, v2. split; [rewrite E; reflexivity|exact Hw].
      - destruct (Req_dec (v (Z.of_nat k)) 0) as [E|E].
        + right. intros w [<-|Hw]; [exact E|apply Hz; exact Hw].
        + left. exists [], v, vs. split; [reflexivity|exact E]. }
    destruct D as [[v1 [v [v2 [E Hv]]]]|Hz].
    + set (pv := v (Z.of_nat k)) in *.
      set (red := fun (u : Z -> R) (i : Z) => u i - u (Z.of_nat k) / pv * v i).
      destruct (IH (map red v1 ++ map red v2)) as [c [Lc [[a [Ha Na]] Hc]]].
      { rewrite app_length, !map_length. subst vs. rewrite app_length in Hl. cbn [length] in Hl. lia. }
      rewrite app_length, !map_length in Lc.
      (* split the coefficients *)
      set (c1 := firstn (length v1) c). set (c2 := skipn (length v1) c).
      assert (Ec : c = c1 ++ c2) by (symmetry; apply firstn_skipn).
      assert (L1 : length c1 = length v1) by (unfold c1; rewrite firstn_length; lia).
      assert (L2 : length c2 = length v2) by (unfold c2; rewrite skipn_length; lia).
      assert (Lr : forall cs us, length cs = length us -> forall i,
                lin cs (map red us) i = lin cs us i - lin cs us (Z.of_nat k) / pv * v i).
      { induction cs as [|c0 cs IHc]; intros [|u us] E0 i; try discriminate; cbn [map lin]; [field; exact Hv|].
        injection E0 as E0. rewrite IHc by exact E0. unfold red. field. exact Hv. }
      set (s := (lin c1 v1 (Z.of_nat k) + lin c2 v2 (Z.of_nat k)) / pv).
      exists (c1 ++ (- s) :: c2). split; [subst vs; rewrite !app_length; cbn [length]; lia|]. split.
      * exists a. split; [|exact Na]. rewrite Ec in Ha. apply in_app_or in Ha. apply in_or_app.
        destruct Ha as [Ha|Ha]; [left; exact Ha|right; right; exact Ha].
      * intros i Hi. subst vs. rewrite lin_app by exact L1. cbn [lin].
        destruct (Z.eq_dec i (Z.of_nat k)) as [->|Hik].
        -- fold pv. unfold s. field. exact Hv.
        -- specialize (Hc i ltac:(lia)). rewrite Ec, lin_app, !Lr in Hc by (try (rewrite map_length); assumption).
           unfold s. rewrite <- Hc. field. exact Hv.
    + destruct vs as [|v vs]; [cbn in Hl; lia|].
      destruct (IH vs) as [c [Lc [[a [Ha Na]] Hc]]]; [cbn [length] in Hl; lia|].
      exists (0 :: c). split; [cbn [length]; lia|]. split; [exists a; split; [right; exact Ha|exact Na]|].
      intros i Hi. cbn [lin]. rewrite Rmult_0_l, Rplus_0_l.
      destruct (Z.eq_dec i (Z.of_nat k)) as [->|Hik]; [|apply Hc; lia].
      assert (G : forall cs us, (forall u, In u us -> u (Z.of_nat k) = 0) -> lin cs us (Z.of_nat k) = 0).
      { induction cs as [|c0 cs IHc]; intros [|u us] Hu; cbn [lin]; try reflexivity.
        rewrite (Hu u (or_introl eq_refl)), IHc by (intros w Hw; apply Hu; right; exact Hw). ring. }
      apply G. intros u Hu. apply Hz. right. exact Hu.
Qed.

(** At most n conjugate directions *)
Lemma conjugate_count : forall (n : Z) (A : Z -> Z -> R) (vs : list (Z -> R)), (0 <= n)%Z -> symmetric n A ->
  (forall v, In v vs -> 0 < dotp n v (mulv n A v)) ->
  ForallOrdPairs (fun u v => dotp n u (mulv n A v) = 0) vs ->
  (Z.of_nat (length vs) <= n)%Z.
Proof.
  intros n A vs Hn S Hp Ho. destruct (Z_le_gt_dec (Z.of_nat (length vs)) n) as [|Hgt]; [assumption|exfalso].
  destruct (dependent (Z.to_nat n) vs ltac:(lia)) as [c [Lc [[a [Ha Na]] Hc]]]. rewrite Z2Nat.id in Hc by lia.
  (* every coefficient vanishes *)
  assert (G : forall c vs, length c = length vs -> (forall v, In v vs -> 0 < dotp n v (mulv n A v)) ->
            ForallOrdPairs (fun u v => dotp n u (mulv n A v) = 0) vs ->
            (forall i, (0 <= i < n)%Z -> lin c vs i = 0) -> forall a, In a c -> a = 0).
  { clear - S. induction c as [|c cs IH]; intros [|v vs] L Hp Ho Hz a Ha; try discriminate; [destruct Ha|].
    inversion Ho as [|v' vs' Hv Hvs]; subst. injection L as L.
    assert (E : dotp n (mulv n A v) (fun i => lin (c :: cs) (v :: vs) i) = c * dotp n v (mulv n A v)).
    { rewrite dotp_lin. cbn [combine map fold_right fst snd]. rewrite (dotp_comm n (mulv n A v) v).
      assert (F : fold_right Rplus 0 (map (fun cv => fst cv * dotp n (mulv n A v) (snd cv)) (combine cs vs)) = 0).
      { clear - Hv S. revert vs Hv. induction cs as [|c1 cs IH]; intros [|w vs] Hv; cbn [combine map fold_right]; try reflexivity.
        inversion Hv; subst. rewrite IH by assumption. cbn [fst snd].
        rewrite (dotp_comm n (mulv n A v) w), (mulv_sym n A w v S), H1. ring. }
      rewrite F. ring. }
    rewrite (dotp_comm n (mulv n A v)), (dotp_zero_l n _ _ Hz) in E.
    assert (c = 0).
    { specialize (Hp v (or_introl eq_refl)). symmetry in E. apply Rmult_integral in E. destruct E as [E|E]; [exact E|lra]. }
    subst c. destruct Ha as [<-|Ha]; [reflexivity|].
    apply (IH vs); try assumption.
    - intros w Hw. apply Hp. right. exact Hw.
    - intros i Hi. specialize (Hz i Hi). cbn [lin] in Hz. lra. }
  apply Na. exact (G c vs Lc Hp Ho Hc a Ha).
Qed.
