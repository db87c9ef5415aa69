(** * The quadratic function of gqtpar.c in exact arithmetic: vectors and matrices *)
From Coq Require Import ZArith Reals List Bool Lia Lra.
From Verif Require Import Base LaSpec LaMem LaChol LcgSpec LcgVec.
Local Open Scope R_scope.

(** A + par I *)
Definition shifted (A : Z -> Z -> R) (par : R) (i j : Z) : R := if Z.eqb i j then A i j + par else A i j.

(** f(x) = (1/2) x'.A.x + b'.x *)
Definition qval (n : Z) (A : Z -> Z -> R) (b x : Z -> R) : R := dotp n x (mulv n A x) / 2 + dotp n b x.

Section Vec.
Variable n : Z.
Notation "u .* v" := (dotp n u v) (at level 35).
Notation "u == v" := (same n u v) (at level 70).

Lemma sumz_point : forall lo hi (f : Z -> R) k, (lo <= k < hi)%Z -> (forall l, (lo <= l < hi)%Z -> l <> k -> f l = 0) -> sumz lo hi f = f k.
Proof.
  intros lo hi f k Hk Hf. rewrite (sumz_split lo k hi) by lia. rewrite (sumz_zero lo k) by (intros; apply Hf; lia).
  rewrite sumz_left by lia. rewrite sumz_zero by (intros; apply Hf; lia). lra.
Qed.

Lemma shifted_mulv : forall A par u i, (0 <= i < n)%Z -> mulv n (shifted A par) u i = mulv n A u i + par * u i.
Proof.
  intros A par u i Hi. unfold mulv.
  rewrite (sumz_ext 0 n _ (fun l => A i l * u l + (if Z.eqb i l then par * u l else 0))).
  - rewrite sumz_plus. f_equal. rewrite (sumz_point 0 n _ i Hi).
    + rewrite Z.eqb_refl. reflexivity.
    + intros l Hl Hne. destruct (Z.eqb_spec i l); [lia|reflexivity].
  - intros l Hl. unfold shifted. destruct (Z.eqb_spec i l); ring.
Qed.

Lemma shifted_quad : forall A par u v, u .* mulv n (shifted A par) v = u .* mulv n A v + par * (u .* v).
Proof.
  intros A par u v. unfold dotp. rewrite <- sumz_scal, <- sumz_plus. apply sumz_ext. intros i Hi.
  rewrite shifted_mulv by exact Hi. ring.
Qed.

Lemma shifted_sym : forall A par, symmetric n A -> symmetric n (shifted A par).
Proof.
  intros A par HA i j Hi Hj. unfold shifted. rewrite (Z.eqb_sym j i). rewrite (HA i j Hi Hj). destruct (Z.eqb i j); reflexivity.
Qed.

Lemma pd_shift : forall A par y, pos_def n (shifted A par) -> 0 <= y .* mulv n (shifted A par) y.
Proof. intros. apply pos_def_nonneg. assumption. Qed.

(** With (A + par I) x = -b *)
Lemma qval_at : forall A par b x y, symmetric n A -> mulv n (shifted A par) x == (fun i => - b i) ->
  qval n A b y = ((fun i => y i + -1 * x i) .* mulv n (shifted A par) (fun i => y i + -1 * x i) - x .* mulv n (shifted A par) x - par * (y .* y)) / 2.
Proof.
  intros A par b x y HA Hx. set (C := shifted A par) in *.
  assert (Cs : symmetric n C) by (apply shifted_sym; exact HA).
  assert (E1 : (fun i => y i + -1 * x i) .* mulv n C (fun i => y i + -1 * x i) = y .* mulv n C y - 2 * (y .* mulv n C x) + x .* mulv n C x).
  { rewrite (dotp_ext n _ (fun i => y i + -1 * x i) _ (fun i => mulv n C y i + -1 * mulv n C x i)); [|intros i Hi; reflexivity|intros i Hi; apply mulv_lin].
    rewrite dotp_lin_l, !dotp_lin_r. rewrite (mulv_sym n C x y Cs). ring. }
  assert (E2 : y .* mulv n C x = - (b .* y)).
  { rewrite (dotp_ext n y y _ (fun i => -1 * b i)); [|intros i Hi; reflexivity|intros i Hi; rewrite (Hx i Hi); ring].
    rewrite dotp_comm, dotp_scal_l. ring. }
  assert (E3 : y .* mulv n C y = y .* mulv n A y + par * (y .* y)) by apply shifted_quad.
  unfold qval. rewrite E1, E2, E3. lra.
Qed.

Lemma quad_zero : forall A u, (forall i, (0 <= i < n)%Z -> u i = 0) -> u .* mulv n A u = 0.
Proof. intros A u Hu. apply dotp_zero_l. exact Hu. Qed.

Lemma qval_same : forall A par b x, symmetric n A -> mulv n (shifted A par) x == (fun i => - b i) ->
  qval n A b x = - (x .* mulv n (shifted A par) x + par * (x .* x)) / 2.
Proof.
  intros A par b x HA Hx. rewrite (qval_at A par b x x HA Hx). rewrite quad_zero by (intros; ring). lra.
Qed.

Lemma qval_move : forall A par b x z al, symmetric n A -> mulv n (shifted A par) x == (fun i => - b i) ->
  qval n A b (fun i => x i + al * z i) =
  - (x .* mulv n (shifted A par) x + par * ((fun i => x i + al * z i) .* (fun i => x i + al * z i)) - al * al * (z .* mulv n (shifted A par) z)) / 2.
Proof.
  intros A par b x z al HA Hx. rewrite (qval_at A par b x _ HA Hx).
  assert (E : (fun i => x i + al * z i + -1 * x i) .* mulv n (shifted A par) (fun i => x i + al * z i + -1 * x i)
            = al * al * (z .* mulv n (shifted A par) z)).
  { rewrite (dotp_ext n _ (fun i => al * z i) _ (fun i => al * mulv n (shifted A par) z i)).
    - rewrite dotp_scal_l, dotp_comm, dotp_scal_l, dotp_comm. ring.
    - intros i Hi. ring.
    - intros i Hi. unfold mulv. rewrite <- sumz_scal. apply sumz_ext. intros. ring. }
  rewrite E. lra.
Qed.

Lemma qval_lower : forall A par b x y D, symmetric n A -> mulv n (shifted A par) x == (fun i => - b i) ->
  (forall u, 0 <= u .* mulv n (shifted A par) u) -> 0 <= par -> y .* y <= D ->
  - (x .* mulv n (shifted A par) x + par * D) / 2 <= qval n A b y.
Proof.
  intros A par b x y D HA Hx Hp H0 Hy. rewrite (qval_at A par b x y HA Hx).
  specialize (Hp (fun i => y i + -1 * x i)). assert (par * (y .* y) <= par * D) by (apply Rmult_le_compat_l; assumption). lra.
Qed.

(** Cauchy-Schwarz *)
Lemma cauchy : forall u v, (u .* v) * (u .* v) <= (u .* u) * (v .* v).
Proof.
  intros u v. assert (P : forall t, 0 <= u .* u + 2 * t * (u .* v) + t * t * (v .* v)).
  { intros t. pose proof (dotp_sq n (fun i => u i + t * v i)) as Q. rewrite dotp_lin_l, !dotp_lin_r in Q.
    rewrite (dotp_comm n v u) in Q. lra. }
  assert (Hv := dotp_sq n v). assert (Hu := dotp_sq n u).
  destruct (Req_dec (v .* v) 0) as [E|E].
  - assert (Z0 := dotp_sq_0 n v E). assert (Z1 : u .* v = 0) by (rewrite dotp_comm; apply dotp_zero_l; exact Z0).
    rewrite Z1, E. lra.
  - specialize (P (- (u .* v) / (v .* v))).
    assert (Q : 0 <= (v .* v) * (u .* u + 2 * (- (u .* v) / (v .* v)) * (u .* v) + (- (u .* v) / (v .* v)) * (- (u .* v) / (v .* v)) * (v .* v)))
      by (apply Rmult_le_pos; assumption).
    replace ((v .* v) * (u .* u + 2 * (- (u .* v) / (v .* v)) * (u .* v) + (- (u .* v) / (v .* v)) * (- (u .* v) / (v .* v)) * (v .* v)))
      with ((u .* u) * (v .* v) - (u .* v) * (u .* v)) in Q by (field; exact E).
    lra.
Qed.

(** ** Triangular factors *)
Lemma factor_quad : forall T C u v, (forall i j, (0 <= i < n)%Z -> (0 <= j < n)%Z -> sumz 0 n (fun l => T l i * T l j) = C i j) ->
  mulv n T u .* mulv n T v = u .* mulv n C v.
Proof.
  intros T C u v HC. unfold dotp, mulv.
  transitivity (sumz 0 n (fun l => sumz 0 n (fun i => sumz 0 n (fun j => u i * (T l i * T l j) * v j)))).
  - apply sumz_ext. intros l Hl. rewrite <- sumz_scal_r. apply sumz_ext. intros i Hi.
    rewrite <- sumz_scal. apply sumz_ext. intros j Hj. ring.
  - rewrite sumz_swap. apply sumz_ext. intros i Hi. rewrite sumz_swap. rewrite <- sumz_scal. apply sumz_ext. intros j Hj.
    rewrite <- (HC i j Hi Hj). rewrite <- Rmult_assoc. rewrite <- sumz_scal, <- sumz_scal_r. apply sumz_ext. intros l Hl. ring.
Qed.

Lemma factor_mulv : forall T C u i, (0 <= i < n)%Z -> (forall i j, (0 <= i < n)%Z -> (0 <= j < n)%Z -> sumz 0 n (fun l => T l i * T l j) = C i j) ->
  mulv n C u i = sumz 0 n (fun l => T l i * mulv n T u l).
Proof.
  intros T C u i Hi HC. unfold mulv. symmetry.
  rewrite (sumz_ext 0 n _ (fun l => sumz 0 n (fun j => T l i * T l j * u j))).
  - rewrite sumz_swap. apply sumz_ext. intros j Hj. rewrite <- (HC i j Hi Hj). rewrite <- sumz_scal_r. reflexivity.
  - intros l Hl. rewrite <- sumz_scal. apply sumz_ext. intros. ring.
Qed.

(** ** Gershgorin *)
Lemma sumz_le : forall lo hi f g, (forall k, (lo <= k < hi)%Z -> f k <= g k) -> sumz lo hi f <= sumz lo hi g.
Proof.
  intros lo hi f g Hfg. assert (P := sumz_nonneg lo hi (fun k => g k + -1 * f k)). rewrite sumz_plus, sumz_scal in P.
  assert (0 <= sumz lo hi g + -1 * sumz lo hi f); [|lra]. apply P. intros k Hk. specialize (Hfg k Hk). lra.
Qed.

Lemma gersh : forall A (c : R) u, symmetric n A ->
  (forall j, (0 <= j < n)%Z -> c + (sumz 0 n (fun i => Rabs (A i j)) - Rabs (A j j)) <= A j j) ->
  c * (u .* u) <= u .* mulv n A u.
Proof.
  intros A c u HA Hc.
  (* E i j: the contribution of the element (i,j) *)
  set (E := fun i j => if Z.eqb i j then A i j * (u i * u i) else - Rabs (A i j) * ((u i * u i + u j * u j) / 2)).
  assert (L1 : sumz 0 n (fun i => sumz 0 n (fun j => E i j)) <= u .* mulv n A u).
  { unfold dotp, mulv. apply sumz_le. intros i Hi. rewrite <- sumz_scal. apply sumz_le. intros j Hj. unfold E.
    destruct (Z.eqb_spec i j) as [->|Hne]; [apply Req_le; ring|].
    assert (Q : Rabs (A i j * (u i * u j)) <= Rabs (A i j) * ((u i * u i + u j * u j) / 2)).
    { rewrite Rabs_mult. apply Rmult_le_compat_l; [apply Rabs_pos|]. apply Rabs_le.
      pose proof (Rle_0_sqr (u i - u j)) as S1. pose proof (Rle_0_sqr (u i + u j)) as S2. unfold Rsqr in S1, S2. split; lra. }
    pose proof (Rle_abs (- (A i j * (u i * u j)))) as Q2. rewrite Rabs_Ropp in Q2. lra. }
  (* the sum of the contributions of a column *)
  set (a1 := fun i j => Rabs (A i j) * (u i * u i / 2)). set (a2 := fun i j => Rabs (A i j) * (u j * u j / 2)).
  assert (S1 : sumz 0 n (fun i => sumz 0 n (fun j => E i j))
             = sumz 0 n (fun i => (A i i + Rabs (A i i)) * (u i * u i)) + -1 * sumz 0 n (fun i => sumz 0 n (fun j => a1 i j + a2 i j))).
  { rewrite <- sumz_scal, <- sumz_plus. apply sumz_ext. intros i Hi. rewrite <- sumz_scal.
    rewrite (sumz_ext 0 n (fun j => E i j) (fun j => (if Z.eqb i j then (A i i + Rabs (A i i)) * (u i * u i) else 0) + -1 * (a1 i j + a2 i j))).
    - rewrite sumz_plus. f_equal. rewrite (sumz_point 0 n _ i Hi).
      + rewrite Z.eqb_refl. reflexivity.
      + intros l Hl Hne. destruct (Z.eqb_spec i l); [lia|reflexivity].
    - intros j Hj. unfold E, a1, a2. destruct (Z.eqb_spec i j) as [->|Hne]; lra. }
  assert (S2 : sumz 0 n (fun i => sumz 0 n (fun j => a1 i j + a2 i j)) = sumz 0 n (fun j => sumz 0 n (fun i => Rabs (A i j)) * (u j * u j))).
  { rewrite (sumz_ext 0 n _ (fun i => sumz 0 n (fun j => a1 i j) + sumz 0 n (fun j => a2 i j))) by (intros; apply sumz_plus).
    rewrite sumz_plus. rewrite (sumz_swap 0 n 0 n a2). rewrite <- sumz_plus. apply sumz_ext. intros i Hi.
    rewrite (sumz_ext 0 n (fun j => a1 i j) (fun k => a2 k i)).
    - unfold a2. rewrite <- sumz_plus. rewrite <- sumz_scal_r. apply sumz_ext. intros k Hk. lra.
    - intros k Hk. unfold a1, a2. rewrite (HA i k Hi Hk). reflexivity. }
  assert (S3 : c * (u .* u) <= sumz 0 n (fun i => sumz 0 n (fun j => E i j))).
  { rewrite S1, S2. unfold dotp. rewrite <- !sumz_scal, <- sumz_plus. apply sumz_le. intros i Hi. specialize (Hc i Hi).
    assert (P : 0 <= u i * u i) by (apply Rle_0_sqr). 
    replace ((A i i + Rabs (A i i)) * (u i * u i) + -1 * (sumz 0 n (fun k => Rabs (A k i)) * (u i * u i)))
      with ((A i i + Rabs (A i i) - sumz 0 n (fun k => Rabs (A k i))) * (u i * u i)) by ring.
    apply Rmult_le_compat_r; [exact P|]. lra. }
  lra.
Qed.

(** ** The step to the boundary *)
Lemma boundary : forall p xx dd, 0 < dd -> xx < dd * dd -> 0 <= xx ->
  let temp := (dd * dd - xx) / dd in let a0 := temp / (Rabs (p / dd) + sqrt ((p / dd) * (p / dd) + temp / dd)) in
  forall al, (0 <= p -> al = a0) -> (p < 0 -> al = - a0) -> xx + 2 * al * p + al * al = dd * dd.
Proof.
  intros p xx dd Hd Hx H0 temp a0 al Ha Hb.
  set (q := sqrt (p * p + (dd * dd - xx))).
  assert (Hq : q * q = p * p + (dd * dd - xx)) by (apply sqrt_sqrt; nra).
  assert (Q0 : 0 <= q) by apply sqrt_pos.
  assert (Qp : Rabs p < q).
  { destruct (Rlt_le_dec (Rabs p) q) as [L|L]; [exact L|]. exfalso.
    assert (q * q <= Rabs p * Rabs p) by (apply Rmult_le_compat; lra).
    rewrite <- Rabs_mult, Rabs_pos_eq in H by (apply Rle_0_sqr). lra. }
  assert (E1 : sqrt ((p / dd) * (p / dd) + temp / dd) = q / dd).
  { apply sqrt_lem_1.
    - unfold temp. replace (p / dd * (p / dd) + (dd * dd - xx) / dd / dd) with ((p * p + (dd * dd - xx)) / (dd * dd)) by (field; lra).
      apply Rmult_le_pos; [nra|]. left. apply Rinv_0_lt_compat. nra.
    - apply Rmult_le_pos; [exact Q0|]. left. apply Rinv_0_lt_compat. exact Hd.
    - unfold temp. replace (q / dd * (q / dd)) with (q * q / (dd * dd)) by (field; lra). rewrite Hq. field. lra. }
  assert (E2 : Rabs (p / dd) = Rabs p / dd).
  { unfold Rdiv. rewrite Rabs_mult, (Rabs_pos_eq (/ dd)); [reflexivity|]. left. apply Rinv_0_lt_compat. exact Hd. }
  assert (Pp := Rabs_pos p).
  assert (E3 : a0 = q - Rabs p).
  { unfold a0. rewrite E1, E2. unfold temp.
    assert (Q2 : dd * dd - xx = (q - Rabs p) * (q + Rabs p)).
    { replace ((q - Rabs p) * (q + Rabs p)) with (q * q - Rabs p * Rabs p) by ring.
      rewrite <- Rabs_mult, Rabs_pos_eq by (apply Rle_0_sqr). lra. }
    rewrite Q2. field. split; lra. }
  destruct (Rle_lt_dec 0 p) as [L|L].
  - rewrite (Ha L), E3, (Rabs_pos_eq p L). nra.
  - rewrite (Hb L), E3, (Rabs_left p L). nra.
Qed.
End Vec.
