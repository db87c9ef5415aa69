(** * Proofs about OPK_GEMM and OPK_SYRK of linalg.c in exact arithmetic *)
From Coq Require Import ZArith Reals List Bool Lia Lra.
From Flocq Require Import Core.
From Verif Require Import Base Num NumFacts OrdFacts LaModel LaLoops LaSpec LaMem LaBlas1 LaBlas1R LaBlas2.
Local Open Scope Z_scope.

Section Exact.
Variables H I : R.
Notation NR := (NumR H I).
Notation mem := (Z -> option NR).

Section Panel.
Variables (n k : Z) (lo hi : Z -> Z) (c a b : Z -> Z -> Z) (alpha beta : R) (C A B : Z -> Z -> R) (M0 : mem).
Hypothesis Hn : 0 <= n.
Hypothesis Hk : 0 <= k.
Hypothesis Hlh : forall j, 0 <= j < n -> lo j <= hi j.
Hypothesis Hinj : forall i j i' j', 0 <= j < n -> 0 <= j' < n -> lo j <= i < hi j -> lo j' <= i' < hi j' ->
  c i j = c i' j' -> i = i' /\ j = j'.
Hypothesis HC : forall i j, 0 <= j < n -> lo j <= i < hi j -> M0 (c i j) = Some (C i j).

(** the result *)
Definition panel_val (i j : Z) : R := (alpha * sumz 0 k (fun l => A i l * B l j) + beta * C i j)%R.

Definition panel_done (o : option mem) : Prop := exists M', o = Some M' /\
  (forall i j, 0 <= j < n -> lo j <= i < hi j -> M' (c i j) = Some (panel_val i j)) /\
  (forall q, (forall i j, 0 <= j < n -> lo j <= i < hi j -> q <> c i j) -> M' q = M0 q).

Lemma col_inj : forall j i i', 0 <= j < n -> lo j <= i < hi j -> lo j <= i' < hi j -> c i j = c i' j -> i = i'.
Proof. intros j i i' Hj Hi Hi' E. apply Hinj in E; tauto. Qed.

Lemma same_col : forall j (M : mem), 0 <= j < n ->
  (forall q, (forall i j', 0 <= j' < j -> lo j' <= i < hi j' -> q <> c i j') -> M q = M0 q) ->
  forall i, lo j <= i < hi j -> M (c i j) = Some (C i j).
Proof.
  intros j M Hj Hs i Hi. rewrite Hs; [apply HC; assumption|].
  intros i' j' Hj' Hi' E. apply Hinj in E; lia.
Qed.

Lemma panel_0 : alpha = 0%R ->
  panel_done (if neq (n := NR) beta (@ZERO NR) then for_up 0 n (fun j => for_up (lo j) (hi j) (fun i => zero_cell (N := NR) (c i j))) M0
              else for_up 0 n (fun j => for_up (lo j) (hi j) (fun i => mul_cell (N := NR) (c i j) beta)) M0).
Proof.
  intros Ha. unfold ZERO. nrg.
  destruct (Req_bool_spec beta 0) as [Hb|Hb].
  - apply (cols_up H I n lo hi c panel_val); [exact Hn|exact Hinj|].
    intros j M Hj Hs.
    destruct (zero_up H I (lo j) (hi j) (fun i => c i j) (fun i => C i j) M (Hlh j Hj)
                (fun i i' Hi Hi' => col_inj j i i' Hj Hi Hi') (same_col j M Hj Hs)) as [M' [E [A1 B1]]].
    exists M'. split; [exact E|]. split; [|exact B1]. intros i Hi. rewrite (A1 i Hi). f_equal.
    unfold panel_val. rewrite Ha, Hb. ring.
  - apply (cols_up H I n lo hi c panel_val); [exact Hn|exact Hinj|].
    intros j M Hj Hs.
    destruct (mul_up H I (lo j) (hi j) (fun i => c i j) beta (fun i => C i j) M (Hlh j Hj)
                (fun i i' Hi Hi' => col_inj j i i' Hj Hi Hi') (same_col j M Hj Hs)) as [M' [E [A1 B1]]].
    exists M'. split; [exact E|]. split; [|exact B1]. intros i Hi. rewrite (A1 i Hi). f_equal.
    unfold panel_val. rewrite Ha. ring.
Qed.

Hypothesis HA : forall i j l, 0 <= j < n -> lo j <= i < hi j -> 0 <= l < k -> M0 (a i l) = Some (A i l).
Hypothesis HB : forall l j, 0 <= j < n -> lo j < hi j -> 0 <= l < k -> M0 (b l j) = Some (B l j).
Hypothesis Hca : forall i j i' j' l, 0 <= j < n -> lo j <= i < hi j -> 0 <= j' < n -> lo j' <= i' < hi j' -> 0 <= l < k ->
  c i j <> a i' l.
Hypothesis Hcb : forall i j j' l, 0 <= j < n -> lo j <= i < hi j -> 0 <= j' < n -> 0 <= l < k -> c i j <> b l j'.

Lemma panel_n : (forall j, 0 <= j < n -> lo j < hi j) ->
  panel_done (for_up 0 n (fun j M =>
    do M <- scale_col (N := NR) c (lo j) (hi j) j beta M;
    for_up 0 k (fun l M =>
      do bl <- M (b l j);
      if negb (bl =? @ZERO NR)%num then
        let temp := nmul (n := NR) alpha bl in
        for_up (lo j) (hi j) (fun i M => do v <- M (a i l); add_cell (c i j) (temp * v)%num M) M
      else Some M) M) M0).
Proof.
  intros Hne. apply (cols_up H I n lo hi c panel_val); [exact Hn|exact Hinj|].
  intros j M Hj Hs.
  destruct (scale_col_ok H I c (lo j) (hi j) j beta (fun i => C i j) M (Hlh j Hj)
              (fun i i' Hi Hi' => col_inj j i i' Hj Hi Hi') (same_col j M Hj Hs)) as [M1 [E1 [A1 B1]]].
  rewrite E1.
  destruct (cols_acc H I k (lo j) (hi j) (fun i => c i j) (fun l => b l j) a alpha (fun i => beta * C i j)%R
              (fun l => B l j) A M1 Hk (Hlh j Hj)) as [M2 [E2 [A2 B2]]].
  - intros i i' Hi Hi'. exact (col_inj j i i' Hj Hi Hi').
  - intros i i' l Hi Hi' Hl. exact (Hca i j i' j l Hj Hi Hj Hi' Hl).
  - intros i l Hi Hl. exact (Hcb i j j l Hj Hi Hj Hl).
  - exact A1.
  - intros i l Hi Hl. rewrite B1, Hs; [exact (HA i j l Hj Hi Hl)| |].
    + intros i' j' Hj' Hi'. apply not_eq_sym. apply (Hca i' j' i j l); try assumption; lia.
    + intros i' Hi'. apply not_eq_sym. exact (Hca i' j i j l Hj Hi' Hj Hi Hl).
  - intros l Hl. rewrite B1, Hs; [exact (HB l j Hj (Hne j Hj) Hl)| |].
    + intros i' j' Hj' Hi'. apply not_eq_sym. apply (Hcb i' j' j l); try assumption; lia.
    + intros i' Hi'. apply not_eq_sym. exact (Hcb i' j j l Hj Hi' Hj Hl).
  - exists M2. split; [exact E2|]. split.
    + intros i Hi. rewrite (A2 i Hi). f_equal. unfold panel_val. ring.
    + intros q Hq. rewrite B2 by exact Hq. apply B1. exact Hq.
Qed.

Lemma panel_t :
  panel_done (for_up 0 n (fun j => for_up (lo j) (hi j) (fun i M =>
    do temp <- for_up 0 k (fun l temp => do v <- M (a i l); do w <- M (b l j); Some (temp + v * w)%num) (@ZERO NR);
    set_cell (N := NR) (c i j) alpha temp beta M)) M0).
Proof.
  apply (cols_up H I n lo hi c panel_val); [exact Hn|exact Hinj|].
  intros j M Hj Hs.
  apply (map_up (N := NR) (lo j) (hi j) (fun i => c i j) (fun i => panel_val i j)).
  - exact (Hlh j Hj).
  - intros i i' Hi Hi'. exact (col_inj j i i' Hj Hi Hi').
  - intros i M1 Hi Hs1.
    rewrite (dot_up H I k (fun l => a i l) (fun l => b l j) (fun l => A i l) (fun l => B l j) M1 Hk).
    + assert (Ec : M1 (c i j) = Some (C i j)).
      { rewrite Hs1; [apply (same_col j M Hj Hs); exact Hi|].
        intros i' Hi' E. apply (col_inj j i i' Hj Hi) in E; lia. }
      exact (set_cell_ok H I (c i j) alpha _ beta _ M1 Ec).
    + intros l Hl. rewrite Hs1, Hs; [exact (HA i j l Hj Hi Hl)| |].
      * intros i' j' Hj' Hi'. apply not_eq_sym. apply (Hca i' j' i j l); try assumption; lia.
      * intros i' Hi'. apply not_eq_sym. apply (Hca i' j i j l); try assumption; lia.
    + intros l Hl. rewrite Hs1, Hs; [apply HB; try assumption; lia| |].
      * intros i' j' Hj' Hi'. apply not_eq_sym. apply (Hcb i' j' j l); try assumption; lia.
      * intros i' Hi'. apply not_eq_sym. apply (Hcb i' j j l); try assumption; lia.
Qed.

End Panel.

(** ** GEMM *)

Lemma transp_spec : forall t b, transp t b ->
  (t =? NO_TRANS) = negb b /\ negb ((t =? NO_TRANS) || (t =? TRANS) || (t =? CONJ_TRANS)) = false.
Proof. intros t [|] Ht; cbn in Ht; [destruct Ht as [->| ->]|subst t]; split; reflexivity. Qed.

Lemma gemm_spec : forall transa transb (ta tb : bool) m n k (alpha : R) a lda b ldb (beta : R) c ldc
    (A B C : Z -> Z -> R) (M : mem),
  transp transa ta -> transp transb tb -> 0 <= m -> 0 <= n -> 0 <= k ->
  1 <= lda -> (if ta then k else m) <= lda -> 1 <= ldb -> (if tb then n else k) <= ldb -> 1 <= ldc -> m <= ldc ->
  has_mat (N := NR) M a lda (if ta then k else m) (if ta then m else k) A ->
  has_mat (N := NR) M b ldb (if tb then n else k) (if tb then k else n) B ->
  has_mat (N := NR) M c ldc m n C ->
  mat_apart c ldc m n a lda (if ta then k else m) (if ta then m else k) ->
  mat_apart c ldc m n b ldb (if tb then n else k) (if tb then k else n) ->
  exists M', gemm (N := NR) transa transb m n k alpha a lda b ldb beta c ldc M = Some (0, M') /\
    has_mat (N := NR) M' c ldc m n (fun i j => alpha * sumz 0 k (fun l => op ta A i l * op tb B l j) + beta * C i j)%R /\
    only_mat M M' c ldc (fun i j => 0 <= i < m /\ 0 <= j < n).
Proof.
  intros transa transb ta tb m n k alpha a lda b ldb beta c ldc A B C M Hta Htb Hm Hn Hk Hla Hla' Hlb Hlb' Hlc Hlc'
    HA HB HC Hca Hcb.
  apply transp_spec in Hta. destruct Hta as [Ta1 Ta2]. apply transp_spec in Htb. destruct Htb as [Tb1 Tb2].
  unfold gemm. rewrite Ta2, Tb2, Ta1, Tb1. clear Ta1 Ta2 Tb1 Tb2 transa transb. cbv zeta.
  destruct (Z.ltb_spec m 0); [lia|]. destruct (Z.ltb_spec n 0); [lia|]. destruct (Z.ltb_spec k 0); [lia|].
  replace (if negb ta then m else k) with (if ta then k else m) by (destruct ta; reflexivity).
  replace (if negb tb then k else n) with (if tb then n else k) by (destruct tb; reflexivity).
  destruct (Z.ltb_spec lda 1); [lia|]. destruct (Z.ltb_spec lda (if ta then k else m)); [lia|].
  destruct (Z.ltb_spec ldb 1); [lia|]. destruct (Z.ltb_spec ldb (if tb then n else k)); [lia|].
  destruct (Z.ltb_spec ldc 1); [lia|]. destruct (Z.ltb_spec ldc m); [lia|]. cbn [orb].
  set (res := fun i j => (alpha * sumz 0 k (fun l => op ta A i l * op tb B l j) + beta * C i j)%R).
  assert (Quick : m = 0 \/ n = 0 \/ (beta = 1%R /\ (alpha = 0%R \/ k = 0)) ->
     exists M', Some (0, M) = Some (0, M') /\ has_mat (N := NR) M' c ldc m n res /\
       only_mat M M' c ldc (fun i j => 0 <= i < m /\ 0 <= j < n)).
  { intros Hz. exists M. split; [reflexivity|]. split; [|intros q _; reflexivity].
    intros i j Hi Hj. rewrite (HC i j Hi Hj). f_equal. unfold res.
    destruct Hz as [Hz|[Hz|[-> [Hz|Hz]]]]; [lia|lia| |].
    - rewrite Hz. rring.
    - rewrite sumz_empty by lia. rring. }
  unfold ZERO, ONE. nrg.
  assert (Hm1 : forall j : Z, 0 <= j < n -> 0 <= m) by (intros; lia).
  assert (Hm2 : m <> 0 -> forall j : Z, 0 <= j < n -> 0 < m) by (intros; lia).
  destruct (Z.eqb_spec m 0) as [|Hm0]; [apply Quick; auto|]. destruct (Z.eqb_spec n 0); [apply Quick; auto|].
  destruct (Req_bool_spec beta 1) as [Hb1|Hb1]; destruct (Req_bool_spec alpha 0) as [Ha0|Ha0];
    destruct (Z.eqb_spec k 0) as [Hk0|Hk0]; cbn [andb orb]; try (apply Quick; tauto).
  all: set (cc := fun a1 a2 => c + (a1 + ldc * a2)).
  all: set (aa := fun i l => if ta then a + (l + lda * i) else a + (i + lda * l)).
  all: set (bb := fun l j => if tb then b + (j + ldb * l) else b + (l + ldb * j)).
  all: assert (Hinj : forall i j i' j', 0 <= j < n -> 0 <= j' < n -> 0 <= i < m -> 0 <= i' < m ->
         cc i j = cc i' j' -> i = i' /\ j = j')
       by (intros i j i' j' Hj Hj' Hi Hi' E; apply (entry_inj c ldc i j i' j'); [lia|lia|exact E]).
  all: assert (HCc : forall i j, 0 <= j < n -> 0 <= i < m -> M (cc i j) = Some (C i j))
       by (intros i j Hj Hi; exact (HC i j Hi Hj)).
  all: assert (HAa : forall i (j : Z) l, 0 <= j < n -> 0 <= i < m -> 0 <= l < k -> M (aa i l) = Some (op ta A i l))
       by (intros i j l Hj Hi Hl; unfold aa, op; destruct ta; [exact (HA l i Hl Hi)|exact (HA i l Hi Hl)]).
  all: assert (HBb : forall l j, 0 <= j < n -> 0 < m -> 0 <= l < k -> M (bb l j) = Some (op tb B l j))
       by (intros l j Hj _ Hl; unfold bb, op; destruct tb; [exact (HB j l Hj Hl)|exact (HB l j Hl Hj)]).
  all: assert (Hca' : forall i j i' (j' : Z) l, 0 <= j < n -> 0 <= i < m -> 0 <= j' < n -> 0 <= i' < m -> 0 <= l < k ->
         cc i j <> aa i' l)
       by (intros i j i' j' l Hj Hi Hj' Hi' Hl; unfold aa; destruct ta;
           [exact (Hca i j l i' Hi Hj Hl Hi')|exact (Hca i j i' l Hi Hj Hi' Hl)]).
  all: assert (Hcb' : forall i j j' l, 0 <= j < n -> 0 <= i < m -> 0 <= j' < n -> 0 <= l < k -> cc i j <> bb l j')
       by (intros i j j' l Hj Hi Hj' Hl; unfold bb; destruct tb;
           [exact (Hcb i j j' l Hi Hj Hj' Hl)|exact (Hcb i j l j' Hi Hj Hl Hj')]).
  all: assert (Fin : forall o : option mem, panel_done n k (fun _ => 0) (fun _ => m) cc alpha beta C (op ta A) (op tb B) M o ->
         exists M', (do M <- o; Some (0, M)) = Some (0, M') /\ has_mat (N := NR) M' c ldc m n res /\
           only_mat M M' c ldc (fun i j => 0 <= i < m /\ 0 <= j < n))
       by (intros o [M' [E [A1 B1]]]; exists M'; rewrite E; split; [reflexivity|]; split;
           [intros i j Hi Hj; exact (A1 i j Hj Hi)|intros q Hq; apply B1; intros i j Hj Hi; apply Hq; auto]).
  all: try (refine (Fin _ _);
            exact (panel_0 n k (fun _ => 0) (fun _ => m) cc cc cc alpha beta C (op ta A) (op tb B) M Hn Hm1 Hinj HCc Ha0)).
  all: pose proof (panel_n n k (fun _ => 0) (fun _ => m) cc aa bb alpha beta C (op ta A) (op tb B) M Hn Hk
                    Hm1 Hinj HCc HAa HBb Hca' Hcb' (Hm2 Hm0)) as PN.
  all: pose proof (panel_t n k (fun _ => 0) (fun _ => m) cc aa bb alpha beta C (op ta A) (op tb B) M Hn Hk
                    Hm1 Hinj HCc HAa HBb Hca' Hcb') as PT.
  all: destruct tb, ta; cbn [negb]; refine (Fin _ _); first [exact PN|exact PT].
Qed.

(** ** SYRK: the matrix A is accessed with the leading dimension of C *)
Lemma syrk_spec : forall uplo trans (up tr : bool) n k (alpha : R) a lda (beta : R) c ldc
    (A C : Z -> Z -> R) (M : mem),
  uplo = (if up then UPPER else LOWER) -> transp trans tr -> 0 <= n -> 0 <= k ->
  1 <= lda -> (if tr then k else n) <= lda -> 1 <= ldc -> n <= ldc ->
  has_mat (N := NR) M a ldc (if tr then k else n) (if tr then n else k) A ->
  (forall i j, 0 <= i < n -> 0 <= j < n -> (if up then i <= j else j <= i) -> M (entry c ldc i j) = Some (C i j)) ->
  mat_apart c ldc n n a ldc (if tr then k else n) (if tr then n else k) ->
  exists M', syrk (N := NR) uplo trans n k alpha a lda beta c ldc M = Some (0, M') /\
    (forall i j, 0 <= i < n -> 0 <= j < n -> (if up then i <= j else j <= i) ->
       M' (entry c ldc i j) = Some (alpha * sumz 0 k (fun l => op tr A i l * op tr A j l) + beta * C i j)%R) /\
    only_mat M M' c ldc (fun i j => 0 <= i < n /\ 0 <= j < n /\ if up then i <= j else j <= i).
Proof.
  intros uplo trans up tr n k alpha a lda beta c ldc A C M Hu Ht Hn Hk Hla Hla' Hlc Hlc' HA HC Hca.
  apply transp_spec in Ht. destruct Ht as [T1 T2].
  unfold syrk. rewrite T2, T1. clear T1 T2 trans. cbv zeta.
  assert (U : (uplo =? UPPER) = up /\ negb ((uplo =? UPPER) || (uplo =? LOWER)) = false).
  { subst uplo. destruct up; split; reflexivity. }
  destruct U as [U1 U2]. rewrite U2, U1. clear U1 U2 Hu uplo.
  destruct (Z.ltb_spec n 0); [lia|]. destruct (Z.ltb_spec k 0); [lia|].
  replace (if negb tr then n else k) with (if tr then k else n) by (destruct tr; reflexivity).
  destruct (Z.ltb_spec lda 1); [lia|]. destruct (Z.ltb_spec lda (if tr then k else n)); [lia|].
  destruct (Z.ltb_spec ldc 1); [lia|]. destruct (Z.ltb_spec ldc n); [lia|]. cbn [orb].
  set (res := fun i j => (alpha * sumz 0 k (fun l => op tr A i l * op tr A j l) + beta * C i j)%R).
  assert (Quick : n = 0 \/ (beta = 1%R /\ (alpha = 0%R \/ k = 0)) ->
     exists M', Some (0, M) = Some (0, M') /\
       (forall i j, 0 <= i < n -> 0 <= j < n -> (if up then i <= j else j <= i) -> M' (entry c ldc i j) = Some (res i j)) /\
       only_mat M M' c ldc (fun i j => 0 <= i < n /\ 0 <= j < n /\ if up then i <= j else j <= i)).
  { intros Hz. exists M. split; [reflexivity|]. split; [|intros q _; reflexivity].
    intros i j Hi Hj Hij. rewrite (HC i j Hi Hj Hij). f_equal. unfold res.
    destruct Hz as [Hz|[-> [Hz|Hz]]]; [lia| |].
    - rewrite Hz. rring.
    - rewrite sumz_empty by lia. rring. }
  unfold ZERO, ONE. nrg.
  destruct (Z.eqb_spec n 0); [apply Quick; auto|].
  set (lo := fun j : Z => if up then 0 else j). set (hi := fun j : Z => if up then j + 1 else n).
  assert (Hlh : forall j, 0 <= j < n -> lo j < hi j) by (intros j Hj; unfold lo, hi; destruct up; lia).
  assert (Rng : forall i j, 0 <= j < n -> lo j <= i < hi j <-> 0 <= i < n /\ if up then i <= j else j <= i)
    by (intros i j Hj; unfold lo, hi; destruct up; lia).
  destruct (Req_bool_spec beta 1) as [Hb1|Hb1]; destruct (Req_bool_spec alpha 0) as [Ha0|Ha0];
    destruct (Z.eqb_spec k 0) as [Hk0|Hk0]; cbn [andb orb]; try (apply Quick; tauto).
  all: set (cc := fun a1 a2 => c + (a2 * ldc + a1)).
  all: set (aa := fun i l => if tr then a + (i * ldc + l) else a + (l * ldc + i)).
  all: set (bb := fun l j => aa j l).
  all: assert (Ecc : forall i j, cc i j = entry c ldc i j) by (intros; unfold cc, entry; lia).
  all: assert (Hinj : forall i j i' j', 0 <= j < n -> 0 <= j' < n -> lo j <= i < hi j -> lo j' <= i' < hi j' ->
         cc i j = cc i' j' -> i = i' /\ j = j')
       by (intros i j i' j' Hj Hj' Hi Hi' E; apply Rng in Hi; [|exact Hj]; apply Rng in Hi'; [|exact Hj'];
           rewrite !Ecc in E; apply (entry_inj c ldc i j i' j'); [lia|lia|exact E]).
  all: assert (HCc : forall i j, 0 <= j < n -> lo j <= i < hi j -> M (cc i j) = Some (C i j))
       by (intros i j Hj Hi; apply Rng in Hi; [|exact Hj]; rewrite Ecc; apply HC; tauto).
  all: assert (HAi : forall i l, 0 <= i < n -> 0 <= l < k -> M (aa i l) = Some (op tr A i l))
       by (intros i l Hi Hl; unfold aa, op; destruct tr;
           [refine (eq_trans _ (HA l i Hl Hi))|refine (eq_trans _ (HA i l Hi Hl))]; unfold entry; f_equal; lia).
  all: assert (HAa : forall i j l, 0 <= j < n -> lo j <= i < hi j -> 0 <= l < k -> M (aa i l) = Some (op tr A i l))
       by (intros i j l Hj Hi Hl; apply Rng in Hi; [|exact Hj]; apply HAi; tauto).
  all: assert (HBb : forall l j, 0 <= j < n -> lo j < hi j -> 0 <= l < k -> M (bb l j) = Some (op tr A j l))
       by (intros l j Hj _ Hl; unfold bb; apply HAi; assumption).
  all: assert (Hcai : forall i j i' l, 0 <= j < n -> lo j <= i < hi j -> 0 <= i' < n -> 0 <= l < k -> cc i j <> aa i' l)
       by (intros i j i' l Hj Hi Hi' Hl; apply Rng in Hi; [|exact Hj]; rewrite Ecc; unfold aa; destruct tr;
           [replace (a + (i' * ldc + l)) with (entry a ldc l i') by (unfold entry; lia); apply Hca; tauto
           |replace (a + (l * ldc + i')) with (entry a ldc i' l) by (unfold entry; lia); apply Hca; tauto]).
  all: assert (Hca' : forall i j i' j' l, 0 <= j < n -> lo j <= i < hi j -> 0 <= j' < n -> lo j' <= i' < hi j' -> 0 <= l < k ->
         cc i j <> aa i' l)
       by (intros i j i' j' l Hj Hi Hj' Hi' Hl; apply Rng in Hi'; [|exact Hj']; apply Hcai; tauto).
  all: assert (Hcb' : forall i j j' l, 0 <= j < n -> lo j <= i < hi j -> 0 <= j' < n -> 0 <= l < k -> cc i j <> bb l j')
       by (intros i j j' l Hj Hi Hj' Hl; unfold bb; apply Hcai; assumption).
  all: assert (Fin : forall o : option mem, panel_done n k lo hi cc alpha beta C (op tr A) (fun l j => op tr A j l) M o ->
         exists M', (do M <- o; Some (0, M)) = Some (0, M') /\
           (forall i j, 0 <= i < n -> 0 <= j < n -> (if up then i <= j else j <= i) -> M' (entry c ldc i j) = Some (res i j)) /\
           only_mat M M' c ldc (fun i j => 0 <= i < n /\ 0 <= j < n /\ if up then i <= j else j <= i))
       by (intros o [M' [E [A1 B1]]]; exists M'; rewrite E; split; [reflexivity|]; split;
           [intros i j Hi Hj Hij; rewrite <- Ecc; apply (A1 i j Hj); apply Rng; tauto
           |intros q Hq; apply B1; intros i j Hj Hi; rewrite Ecc; apply Rng in Hi; [|exact Hj]; apply Hq; tauto]).
  all: assert (Hlh' : forall j, 0 <= j < n -> lo j <= hi j) by (intros j Hj; specialize (Hlh j Hj); lia).
  all: try (pose proof (panel_0 n k lo hi cc cc cc alpha beta C (op tr A) (fun l j => op tr A j l) M Hn Hlh' Hinj HCc Ha0) as P0;
            destruct up; refine (Fin _ _); exact P0).
  all: pose proof (panel_n n k lo hi cc aa bb alpha beta C (op tr A) (fun l j => op tr A j l) M Hn Hk
                    Hlh' Hinj HCc HAa HBb Hca' Hcb' Hlh) as PN.
  all: pose proof (panel_t n k lo hi cc aa bb alpha beta C (op tr A) (fun l j => op tr A j l) M Hn Hk
                    Hlh' Hinj HCc HAa HBb Hca' Hcb') as PT.
  all: destruct tr, up; cbn [negb]; refine (Fin _ _); first [exact PN|exact PT].
Qed.

End Exact.
