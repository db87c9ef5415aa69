(** * Triangular products and triangular systems in exact arithmetic

    The four variants of the algorithms (OPK_TRMV and OPK_TRSV, not transposed or transposed) as sequences of updates
    of a vector, one per column of the matrix.  The columns are processed in any order compatible with the triangle, which
    is what an upper or a lower triangle, or a loop with increasing or decreasing indices, differ by. *)
From Coq Require Import ZArith Reals List Bool Lia Lra.
From Flocq Require Import Core.
From Verif Require Import Base Num NumFacts OrdFacts LaModel LaLoops LaSpec LaMem LaBlas1 LaBlas1R LaBlas2.
Local Open Scope Z_scope.

(** ** More about sums *)
Lemma sumz_0 : forall lo hi, sumz lo hi (fun _ => 0%R) = 0%R.
Proof. intros. apply sumz_zero. reflexivity. Qed.

Lemma sumz_delta : forall lo hi j (c : R), lo <= j < hi -> sumz lo hi (fun l => if l =? j then c else 0%R) = c.
Proof.
  intros lo hi j c Hj. rewrite (sumz_split lo j hi) by lia.
  rewrite (sumz_left j hi) by lia. rewrite Z.eqb_refl.
  rewrite (sumz_ext lo j _ (fun _ => 0%R)) by (intros i Hi; destruct (Z.eqb_spec i j); [lia|reflexivity]).
  rewrite (sumz_ext (j + 1) hi _ (fun _ => 0%R)) by (intros i Hi; destruct (Z.eqb_spec i j); [lia|reflexivity]).
  rewrite !sumz_0. ring.
Qed.

Lemma sumz_restrict : forall lo a b hi (f : Z -> R), lo <= a -> a <= b -> b <= hi ->
  sumz a b f = sumz lo hi (fun l => if (a <=? l) && (l <? b) then f l else 0%R).
Proof.
  intros lo a b hi f H1 H2 H3. rewrite (sumz_split lo a hi) by lia. rewrite (sumz_split a b hi) by lia.
  rewrite (sumz_ext lo a _ (fun _ => 0%R))
    by (intros i Hi; destruct (Z.leb_spec a i); [lia|reflexivity]).
  rewrite (sumz_ext b hi _ (fun _ => 0%R))
    by (intros i Hi; destruct (Z.ltb_spec i b); [lia|rewrite Bool.andb_false_r; reflexivity]).
  rewrite (sumz_ext a b (fun l => if (a <=? l) && (l <? b) then f l else 0%R) f)
    by (intros i Hi; destruct (Z.leb_spec a i); [|lia]; destruct (Z.ltb_spec i b); [reflexivity|lia]).
  rewrite !sumz_0. ring.
Qed.

(** the strict triangle *)
Definition strict (up : bool) (i j : Z) : bool := if up then i <? j else j <? i.

Section Pure.
Variables (L U : Z) (up : bool) (D : Z -> R) (A : Z -> Z -> R) (X0 : Z -> R).
Notation T := (strict up).
Notation S := (sumz L U).

(** the triangular matrix *)
Definition tri (i j : Z) : R := if i =? j then D i else if T i j then A i j else 0%R.

Definition add_proc (proc : Z -> bool) (j l : Z) : bool := proc l || (l =? j).

Lemma T_anti : forall i j, T i j = true -> T j i = false.
Proof. intros i j. unfold strict. destruct up; intros Hlt; apply Z.ltb_lt in Hlt; apply Z.ltb_ge; lia. Qed.

Lemma T_irr : forall i, T i i = false.
Proof. intros i. unfold strict. destruct up; apply Z.ltb_irrefl. Qed.

Lemma tri_diag : forall i, tri i i = D i.
Proof. intros i. unfold tri. rewrite Z.eqb_refl. reflexivity. Qed.

Lemma tri_in : forall i j, T i j = true -> tri i j = A i j.
Proof.
  intros i j Hij. unfold tri. rewrite Hij. destruct (Z.eqb_spec i j) as [->|]; [|reflexivity].
  rewrite T_irr in Hij. discriminate.
Qed.

Lemma tri_out : forall i j, i <> j -> T i j = false -> tri i j = 0%R.
Proof. intros i j Hn Hij. unfold tri. rewrite Hij. destruct (Z.eqb_spec i j); [contradiction|reflexivity]. Qed.

Lemma S_add : forall (proc : Z -> bool) j (f : Z -> R), L <= j < U -> proc j = false ->
  S (fun l => if add_proc proc j l then f l else 0%R) = (S (fun l => if proc l then f l else 0%R) + f j)%R.
Proof.
  intros proc j f Hj Hp. rewrite <- (sumz_delta L U j (f j) Hj). rewrite <- sumz_plus. apply sumz_ext.
  intros i Hi. unfold add_proc. destruct (Z.eqb_spec i j) as [->|Hn].
  - rewrite Hp. cbn [orb]. ring.
  - rewrite Bool.orb_false_r. destruct (proc i); ring.
Qed.

Lemma S_if_ext : forall (proc : Z -> bool) (f g : Z -> R), (forall l, L <= l < U -> proc l = true -> f l = g l) ->
  S (fun l => if proc l then f l else 0%R) = S (fun l => if proc l then g l else 0%R).
Proof. intros proc f g E. apply sumz_ext. intros i Hi. destruct (proc i) eqn:Ep; [apply E; assumption|reflexivity]. Qed.

Lemma S_if_zero : forall (proc : Z -> bool) (f : Z -> R), (forall l, L <= l < U -> proc l = true -> f l = 0%R) ->
  S (fun l => if proc l then f l else 0%R) = 0%R.
Proof.
  intros proc f E. apply sumz_zero. intros i Hi.
  destruct (proc i) eqn:Ep; [apply E; assumption|reflexivity].
Qed.

(** The updates *)
Definition mulN (j : Z) (X : Z -> R) (i : Z) : R :=
  if i =? j then (X j * D j)%R else if T i j then (X i + X j * A i j)%R else X i.
Definition mulT (j : Z) (X : Z -> R) (i : Z) : R :=
  if i =? j then (X j * D j + S (fun l => if T l j then A l j * X l else 0))%R else X i.
Definition solN (j : Z) (X : Z -> R) (i : Z) : R :=
  if i =? j then (X j / D j)%R else if T i j then (X i - X j / D j * A i j)%R else X i.
Definition solT (j : Z) (X : Z -> R) (i : Z) : R :=
  if i =? j then ((X j - S (fun l => if T l j then (A l j * X l)%R else 0%R)) / D j)%R else X i.

(** Their invariants *)
Definition QmulN (proc : Z -> bool) (X : Z -> R) : Prop := forall i, L <= i < U ->
  X i = if proc i then S (fun l => if proc l then (tri i l * X0 l)%R else 0%R) else X0 i.
Definition QmulT (proc : Z -> bool) (X : Z -> R) : Prop := forall i, L <= i < U ->
  X i = if proc i then S (fun l => (tri l i * X0 l)%R) else X0 i.
Definition QsolN (proc : Z -> bool) (X : Z -> R) : Prop := forall i, L <= i < U ->
  X0 i = ((if proc i then 0 else X i) + S (fun l => if proc l then (tri i l * X l)%R else 0%R))%R.
Definition QsolT (proc : Z -> bool) (X : Z -> R) : Prop := forall i, L <= i < U ->
  X0 i = if proc i then S (fun l => if proc l then (tri l i * X l)%R else 0%R) else X i.

Section Step.
Variables (proc : Z -> bool) (j : Z).
Hypothesis Hj : L <= j < U.
Hypothesis Hp : proc j = false.

Lemma mulN_pure : (forall i, L <= i < U -> i <> j -> T i j = proc i) ->
  forall X, QmulN proc X -> QmulN (add_proc proc j) (mulN j X).
Proof.
  intros HT X Q i Hi. rewrite S_add by assumption. unfold mulN. destruct (Z.eqb_spec i j) as [->|Hn].
  - unfold add_proc at 1. rewrite Z.eqb_refl, Bool.orb_true_r. rewrite (Q j Hj), Hp. rewrite tri_diag.
    rewrite S_if_zero; [ring|]. intros l Hl El. rewrite tri_out; [ring|congruence|].
    apply T_anti. rewrite HT; [exact El|exact Hl|congruence].
  - rewrite (HT i Hi Hn). assert (En : (i =? j) = false) by (apply Z.eqb_neq; exact Hn).
    unfold add_proc at 1. rewrite En, Bool.orb_false_r.
    rewrite (Q i Hi). rewrite (Q j Hj), Hp. destruct (proc i) eqn:Ep; [|reflexivity].
    rewrite (tri_in i j) by (rewrite HT; assumption). ring.
Qed.

Lemma mulT_pure : (forall i, L <= i < U -> i <> j -> T i j = negb (proc i)) ->
  forall X, QmulT proc X -> QmulT (add_proc proc j) (mulT j X).
Proof.
  intros HT X Q i Hi. unfold mulT, add_proc. destruct (Z.eqb_spec i j) as [->|Hn].
  - rewrite Bool.orb_true_r. rewrite (Q j Hj), Hp.
    rewrite <- (sumz_delta L U j (X0 j * D j) Hj). rewrite <- sumz_plus. apply sumz_ext. intros l Hl.
    destruct (Z.eqb_spec l j) as [->|Hn].
    + rewrite T_irr, tri_diag. ring.
    + rewrite HT by assumption. rewrite (Q l Hl). destruct (proc l) eqn:Ep; cbn [negb].
      * rewrite tri_out; [ring|exact Hn|]. rewrite HT by assumption. rewrite Ep. reflexivity.
      * rewrite tri_in; [ring|]. rewrite HT by assumption. rewrite Ep. reflexivity.
  - rewrite Bool.orb_false_r. exact (Q i Hi).
Qed.

Lemma solN_pure : (forall i, L <= i < U -> i <> j -> T i j = negb (proc i)) -> D j <> 0%R ->
  forall X, QsolN proc X -> QsolN (add_proc proc j) (solN j X).
Proof.
  intros HT HD X Q i Hi. rewrite S_add by assumption. rewrite (Q i Hi).
  rewrite (S_if_ext proc (fun l => tri i l * solN j X l)%R (fun l => tri i l * X l)%R).
  2:{ intros l Hl El. unfold solN. destruct (Z.eqb_spec l j) as [->|Hn]; [congruence|].
      rewrite HT by assumption. rewrite El. reflexivity. }
  unfold add_proc at 1. unfold solN. rewrite Z.eqb_refl. destruct (Z.eqb_spec i j) as [->|Hn].
  - rewrite Bool.orb_true_r, Hp, tri_diag. field. exact HD.
  - rewrite Bool.orb_false_r. rewrite (HT i Hi Hn). destruct (proc i) eqn:Ep; cbn [negb].
    + rewrite (tri_out i j); [ring|exact Hn|]. rewrite (HT i Hi Hn), Ep. reflexivity.
    + rewrite (tri_in i j) by (rewrite (HT i Hi Hn), Ep; reflexivity). ring.
Qed.

Lemma solT_pure : (forall i, L <= i < U -> i <> j -> T i j = proc i) -> D j <> 0%R ->
  forall X, QsolT proc X -> QsolT (add_proc proc j) (solT j X).
Proof.
  intros HT HD X Q i Hi. rewrite S_add by assumption. rewrite (Q i Hi).
  rewrite (S_if_ext proc (fun l => tri l i * solT j X l)%R (fun l => tri l i * X l)%R).
  2:{ intros l Hl El. unfold solT. destruct (Z.eqb_spec l j) as [->|Hn]; [congruence|reflexivity]. }
  unfold add_proc at 1. unfold solT. rewrite Z.eqb_refl. destruct (Z.eqb_spec i j) as [->|Hn].
  - rewrite Bool.orb_true_r, Hp, tri_diag.
    assert (E : S (fun l => if T l j then (A l j * X l)%R else 0%R) = S (fun l => if proc l then (tri l j * X l)%R else 0%R)).
    { apply sumz_ext. intros l Hl. destruct (Z.eq_dec l j) as [->|Hn]; [rewrite T_irr, Hp; reflexivity|].
      rewrite HT by assumption. destruct (proc l) eqn:Ep; [|reflexivity].
      rewrite tri_in by (rewrite HT; assumption). reflexivity. }
    rewrite E. field. exact HD.
  - rewrite Bool.orb_false_r. destruct (proc i) eqn:Ep; [|reflexivity].
    rewrite (tri_out j i); [ring|congruence|]. apply T_anti. rewrite HT; assumption.
Qed.

End Step.
End Pure.

(** ** Loops over an interval, in either direction *)
Definition maps {N : Num} (loop : (Z -> (Z -> option N) -> option (Z -> option N)) -> (Z -> option N) -> option (Z -> option N))
    (lo hi : Z) : Prop :=
  forall (p : Z -> Z) (F : Z -> N) (body : Z -> (Z -> option N) -> option (Z -> option N)) M0,
    (forall i j, lo <= i < hi -> lo <= j < hi -> p i = p j -> i = j) ->
    (forall j M, lo <= j < hi -> (forall q, (forall i, lo <= i < hi -> i <> j -> q <> p i) -> M q = M0 q) ->
       exists M', body j M = Some M' /\ M' (p j) = Some (F j) /\ forall q, q <> p j -> M' q = M q) ->
    exists M', loop body M0 = Some M' /\
      (forall i, lo <= i < hi -> M' (p i) = Some (F i)) /\
      (forall q, (forall i, lo <= i < hi -> q <> p i) -> M' q = M0 q).

Lemma maps_up : forall {N : Num} lo hi, lo <= hi -> maps (N := N) (for_up lo hi) lo hi.
Proof.
  intros N lo hi Hle p F body M0 Hinj Hb. apply map_up; [exact Hle|exact Hinj|].
  intros j M Hj Hs. apply Hb; [exact Hj|]. intros q Hq. apply Hs. intros i Hi. apply Hq; lia.
Qed.

Lemma maps_down : forall {N : Num} lo hi top, top = hi - 1 -> lo <= hi -> maps (N := N) (for_down top lo) lo hi.
Proof.
  intros N lo hi top Et Hle p F body M0 Hinj Hb. subst top.
  destruct (map_down (hi - 1) lo p F body M0) as [M' [E [A B]]].
  - lia.
  - intros i j Hi Hj. apply Hinj; lia.
  - intros j M Hj Hs. apply Hb; [lia|]. intros q Hq. apply Hs. intros i Hi. apply Hq; lia.
  - exists M'. split; [exact E|]. split.
    + intros i Hi. apply A. lia.
    + intros q Hq. apply B. intros i Hi. apply Hq. lia.
Qed.

Definition accs (loop : (Z -> R -> option R) -> R -> option R) (lo hi : Z) : Prop :=
  forall (f : Z -> R -> option R) (g : Z -> R) t, (forall i t, lo <= i < hi -> f i t = Some (t + g i)%R) ->
    loop f t = Some (t + sumz lo hi g)%R.

Lemma accs_up : forall lo hi, lo <= hi -> accs (for_up lo hi) lo hi.
Proof.
  intros lo hi Hle f g t Hf.
  destruct (for_up_inv (fun j s => s = t + sumz lo j g)%R lo hi f t Hle) as [s' [E P]].
  - rewrite sumz_empty by lia. ring.
  - intros j s Hj ->. eexists. split; [apply Hf; exact Hj|]. rewrite sumz_right by lia. ring.
  - rewrite E, P. reflexivity.
Qed.

Lemma accs_down : forall lo hi top, top = hi - 1 -> lo <= hi -> accs (for_down top lo) lo hi.
Proof.
  intros lo hi top -> Hle f g t Hf.
  destruct (for_down_inv (fun j s => s = t + sumz j hi g)%R (hi - 1) lo f t) as [s' [E P]].
  - lia.
  - rewrite sumz_empty by lia. ring.
  - intros j s Hj ->. eexists. split; [apply Hf; lia|]. rewrite (sumz_left j hi) by lia. ring.
  - rewrite E, P. reflexivity.
Qed.

(** ** The updates in memory *)
Section Exact.
Variables H I : R.
Notation NR := (NumR H I).
Notation mem := (Z -> option NR).

Section Body.
Context {N : Num}.
Variables (nounit : bool) (a : Z -> Z -> Z) (x : Z -> Z).
Variable loopM : Z -> (Z -> (Z -> option N) -> option (Z -> option N)) -> (Z -> option N) -> option (Z -> option N).
Variable loopR : Z -> (Z -> N -> option N) -> N -> option N.

Definition mulN_body (j : Z) (M : Z -> option N) : option (Z -> option N) :=
  do xj <- M (x j);
  if negb (xj =? ZERO)%num then
    let temp := xj in
    do M <- loopM j (fun i M => do v <- M (a i j); add_cell (x i) (temp * v)%num M) M;
    if nounit then do v <- M (a j j); mul_cell (x j) v M else Some M
  else Some M.

Definition mulT_body (j : Z) (M : Z -> option N) : option (Z -> option N) :=
  do temp <- M (x j);
  do temp <- (if nounit then do v <- M (a j j); Some (temp * v)%num else Some temp);
  do temp <- loopR j (fun i temp => do v <- M (a i j); do w <- M (x i); Some (temp + v * w)%num) temp;
  store M (x j) temp.

Definition solN_body (j : Z) (M : Z -> option N) : option (Z -> option N) :=
  do xj <- M (x j);
  if negb (xj =? ZERO)%num then
    do M <- (if nounit then do v <- M (a j j); store M (x j) (xj / v)%num else Some M);
    do temp <- M (x j);
    loopM j (fun i M => do v <- M (a i j); sub_cell (x i) (temp * v)%num M) M
  else Some M.

Definition solT_body (j : Z) (M : Z -> option N) : option (Z -> option N) :=
  do temp <- M (x j);
  do temp <- loopR j (fun i temp => do v <- M (a i j); do w <- M (x i); Some (temp - v * w)%num) temp;
  do temp <- (if nounit then do v <- M (a j j); Some (temp / v)%num else Some temp);
  store M (x j) temp.
End Body.

Section Steps.
Variables (L U : Z) (up nounit : bool) (a : Z -> Z -> Z) (x : Z -> Z) (A : Z -> Z -> R) (M0 : mem).
Notation T := (strict up).
Hypothesis Hinj : forall i j, L <= i < U -> L <= j < U -> x i = x j -> i = j.
Hypothesis Hax : forall k i j, L <= k < U -> L <= i < U -> L <= j < U -> x k <> a i j.
Hypothesis HA : forall i j, L <= i < U -> L <= j < U -> T i j = true -> M0 (a i j) = Some (A i j).
Hypothesis HAd : nounit = true -> forall j, L <= j < U -> M0 (a j j) = Some (A j j).

Definition dg (j : Z) : R := if nounit then A j j else 1%R.

(** the rows of the strict triangle in column j *)
Definition tlo (j : Z) : Z := if up then L else j + 1.
Definition thi (j : Z) : Z := if up then j else U.

Lemma T_rows : forall i j, L <= i < U -> L <= j < U -> T i j = (tlo j <=? i) && (i <? thi j).
Proof.
  intros i j Hi Hj. unfold strict, tlo, thi. destruct up.
  - destruct (Z.leb_spec L i); [|lia]. reflexivity.
  - destruct (Z.ltb_spec i U); [|lia]. rewrite Bool.andb_true_r.
    destruct (Z.ltb_spec j i), (Z.leb_spec (j + 1) i); lia || reflexivity.
Qed.

Lemma rows_ok : forall i j, L <= j < U -> tlo j <= i < thi j -> L <= i < U /\ i <> j /\ T i j = true.
Proof.
  intros i j Hj Hi. assert (L <= i < U /\ i <> j) as [H1 H2] by (unfold tlo, thi in Hi; destruct up; lia).
  split; [exact H1|]. split; [exact H2|]. rewrite T_rows by assumption.
  apply andb_true_intro. split; [apply Z.leb_le|apply Z.ltb_lt]; lia.
Qed.

Lemma rows_conv : forall i j, L <= i < U -> L <= j < U -> T i j = true -> tlo j <= i < thi j.
Proof.
  intros i j Hi Hj E. rewrite T_rows in E by assumption. apply andb_prop in E. destruct E as [E1 E2].
  apply Z.leb_le in E1. apply Z.ltb_lt in E2. lia.
Qed.

Lemma rows_sum : forall j (f : Z -> R), L <= j < U -> sumz (tlo j) (thi j) f = sumz L U (fun l => if T l j then f l else 0%R).
Proof.
  intros j f Hj. rewrite (sumz_restrict L (tlo j) (thi j) U) by (unfold tlo, thi; destruct up; lia).
  apply sumz_ext. intros i Hi. rewrite T_rows by assumption. reflexivity.
Qed.

Definition vals (M : mem) (X : Z -> R) : Prop := forall i, L <= i < U -> M (x i) = Some (X i).
Definition frame (M : mem) : Prop := forall q, (forall i, L <= i < U -> q <> x i) -> M q = M0 q.

Definition steps (body : Z -> mem -> option mem) (upd : Z -> (Z -> R) -> Z -> R) : Prop :=
  forall j M X, L <= j < U -> vals M X -> frame M ->
    exists M', body j M = Some M' /\ vals M' (upd j X) /\ frame M'.

Lemma frame_a : forall M i j, frame M -> L <= i < U -> L <= j < U -> M (a i j) = M0 (a i j).
Proof. intros M i j Hf Hi Hj. apply Hf. intros k Hk. apply not_eq_sym, Hax; assumption. Qed.

Lemma a_same : forall (M M' : mem) i j, L <= i < U -> L <= j < U ->
  (forall q, (forall i, L <= i < U -> q <> x i) -> M' q = M q) -> M' (a i j) = M (a i j).
Proof. intros M M' i j Hi Hj Hf. apply Hf. intros k Hk. apply not_eq_sym, Hax; assumption. Qed.

Section N.
Variable loopM : Z -> (Z -> mem -> option mem) -> mem -> option mem.
Hypothesis Hloop : forall j, L <= j < U -> maps (loopM j) (tlo j) (thi j).

Lemma mulN_steps : steps (mulN_body (N := NR) nounit a x loopM) (mulN up dg A).
Proof.
  intros j M X Hj Hv Hf. unfold mulN_body. rewrite (Hv j Hj). unfold ZERO. nrg. cbv zeta.
  destruct (Req_bool_spec (X j) 0) as [Ez|Ez]; cbn [negb].
  - exists M. split; [reflexivity|]. split; [|exact Hf]. intros i Hi. rewrite (Hv i Hi). f_equal. unfold mulN. rewrite Ez.
    destruct (Z.eqb_spec i j) as [->|]; [rewrite Ez; rring|]. destruct (T i j); rring.
  - destruct (Hloop j Hj x (fun i => X i + X j * A i j)%R
               (fun i M => do v <- M (a i j); add_cell (x i) (nmul (n := NR) (X j) v) M) M) as [M1 [E1 [A1 B1]]].
    + intros i k Hi Hk. apply rows_ok in Hi; [|exact Hj]. apply rows_ok in Hk; [|exact Hj]. apply Hinj; tauto.
    + intros i M1 Hi Hs. pose proof (rows_ok i j Hj Hi) as [Hi1 [Hn HT]].
      assert (Ea : M1 (a i j) = Some (A i j)).
      { rewrite Hs; [rewrite frame_a by assumption; apply HA; assumption|].
        intros k Hk _. apply rows_ok in Hk; [|exact Hj]. apply not_eq_sym, Hax; tauto. }
      assert (Ex : M1 (x i) = Some (X i)).
      { rewrite Hs; [apply Hv; exact Hi1|]. intros k Hk Hkn E. apply rows_ok in Hk; [|exact Hj].
        apply Hkn. symmetry. apply Hinj; tauto. }
      rewrite Ea. unfold add_cell. rewrite Ex. exact (store_ok M1 (x i) _ _ Ex).
    + cbn [nmul NumR] in E1. rewrite E1.
      assert (Ej : M1 (x j) = Some (X j)).
      { rewrite B1; [apply Hv; exact Hj|]. intros i Hi E. apply rows_ok in Hi; [|exact Hj]. apply Hinj in E; intuition congruence. }
      assert (V1 : forall i, L <= i < U -> i <> j -> M1 (x i) = Some (mulN up dg A j X i)).
      { intros i Hi Hn. unfold mulN. destruct (Z.eqb_spec i j) as [|_]; [contradiction|].
        destruct (T i j) eqn:ET.
        - apply A1. apply rows_conv; assumption.
        - rewrite B1; [apply Hv; exact Hi|]. intros k Hk E. apply rows_ok in Hk; [|exact Hj].
          apply Hinj in E; [|exact Hi|tauto]. subst k. destruct Hk as [_ [_ Hk]]. congruence. }
      assert (F1 : frame M1).
      { intros q Hq. rewrite B1; [apply Hf; exact Hq|]. intros i Hi. apply rows_ok in Hi; [|exact Hj]. apply Hq; tauto. }
      unfold dg in *. destruct nounit.
      * rewrite (frame_a M1 j j F1 Hj Hj), (HAd eq_refl j Hj).
        unfold mul_cell. rewrite Ej.
        destruct (store_ok M1 (x j) _ (nmul (n := NR) (X j) (A j j)) Ej) as [M2 [E2 [A2 B2]]].
        exists M2. split; [exact E2|]. split.
        -- intros i Hi. destruct (Z.eq_dec i j) as [->|Hn].
           ++ rewrite A2. unfold mulN. rewrite Z.eqb_refl. reflexivity.
           ++ rewrite B2 by (intro E; apply Hinj in E; intuition congruence). apply V1; assumption.
        -- intros q Hq. rewrite B2 by (apply Hq; exact Hj). apply F1. exact Hq.
      * exists M1. split; [reflexivity|]. split; [|exact F1]. intros i Hi. destruct (Z.eq_dec i j) as [->|Hn]; [|apply V1; assumption].
        rewrite Ej. unfold mulN. rewrite Z.eqb_refl. f_equal. rring.
Qed.

Lemma solN_steps : (forall j, L <= j < U -> dg j <> 0%R) -> steps (solN_body (N := NR) nounit a x loopM) (solN up dg A).
Proof.
  intros HD j M X Hj Hv Hf. unfold solN_body. rewrite (Hv j Hj). unfold ZERO. nrg.
  destruct (Req_bool_spec (X j) 0) as [Ez|Ez]; cbn [negb].
  - exists M. split; [reflexivity|]. split; [|exact Hf]. intros i Hi. rewrite (Hv i Hi). f_equal. unfold solN. rewrite Ez.
    destruct (Z.eqb_spec i j) as [->|]; [rewrite Ez; unfold Rdiv; rring|]. destruct (T i j); unfold Rdiv; rring.
  - assert (D1 : exists M1, (if nounit then do v <- M (a j j); store (N := NR) M (x j) (X j / v)%R else Some M) = Some M1 /\
              M1 (x j) = Some (X j / dg j)%R /\ forall q, q <> x j -> M1 q = M q).
    { unfold dg. destruct nounit.
      - rewrite (frame_a M j j Hf Hj Hj), (HAd eq_refl j Hj). exact (store_ok M (x j) _ _ (Hv j Hj)).
      - exists M. split; [reflexivity|]. split; [|reflexivity]. rewrite (Hv j Hj). f_equal. unfold Rdiv. rewrite Rinv_1. rring. }
    destruct D1 as [M1 [E1 [A1 B1]]]. rewrite E1. rewrite A1. set (t := (X j / dg j)%R) in *.
    destruct (Hloop j Hj x (fun i => X i - t * A i j)%R
               (fun i M => do v <- M (a i j); sub_cell (x i) (nmul (n := NR) t v) M) M1) as [M2 [E2 [A2 B2]]].
    + intros i k Hi Hk. apply rows_ok in Hi; [|exact Hj]. apply rows_ok in Hk; [|exact Hj]. apply Hinj; tauto.
    + intros i M2 Hi Hs. pose proof (rows_ok i j Hj Hi) as [Hi1 [Hn HT]].
      assert (Ea : M2 (a i j) = Some (A i j)).
      { rewrite Hs; [|intros k Hk _; apply rows_ok in Hk; [|exact Hj]; apply not_eq_sym, Hax; tauto].
        rewrite B1 by (apply not_eq_sym, Hax; assumption). rewrite frame_a by assumption. apply HA; assumption. }
      assert (Ex : M2 (x i) = Some (X i)).
      { rewrite Hs; [rewrite B1; [apply Hv; exact Hi1|intro E; apply Hinj in E; intuition congruence]|].
        intros k Hk Hkn E. apply rows_ok in Hk; [|exact Hj]. apply Hkn. symmetry. apply Hinj; tauto. }
      rewrite Ea. unfold sub_cell. rewrite Ex. exact (store_ok M2 (x i) _ _ Ex).
    + cbn [nmul NumR] in E2. exists M2. split; [exact E2|]. split.
      * intros i Hi. unfold solN. fold t. destruct (Z.eqb_spec i j) as [->|Hn].
        -- rewrite B2; [exact A1|]. intros k Hk E. apply rows_ok in Hk; [|exact Hj]. apply Hinj in E; intuition congruence.
        -- destruct (T i j) eqn:ET.
           ++ apply A2. apply rows_conv; assumption.
           ++ rewrite B2; [rewrite B1; [apply Hv; exact Hi|intro E; apply Hinj in E; intuition congruence]|].
              intros k Hk E. apply rows_ok in Hk; [|exact Hj].
              apply Hinj in E; [|exact Hi|tauto]. subst k. destruct Hk as [_ [_ Hk]]. congruence.
      * intros q Hq. rewrite B2 by (intros i Hi; apply rows_ok in Hi; [|exact Hj]; apply Hq; tauto).
        rewrite B1 by (apply Hq; exact Hj). apply Hf. exact Hq.
Qed.
End N.

Section Tr.
Variable loopR : Z -> (Z -> R -> option R) -> R -> option R.
Hypothesis Hloop : forall j, L <= j < U -> accs (loopR j) (tlo j) (thi j).

Lemma store_step : forall j (M : mem) X (t : R) F, L <= j < U -> vals M X -> frame M -> F j = t ->
  (forall i, i <> j -> F i = X i) ->
  exists M', store (N := NR) M (x j) t = Some M' /\ vals M' F /\ frame M'.
Proof.
  intros j M X t F Hj Hv Hf E1 E2.
  destruct (store_ok (N := NR) M (x j) _ t (Hv j Hj)) as [M1 [Es [A1 B1]]].
  exists M1. split; [exact Es|]. split.
  - intros i Hi. destruct (Z.eq_dec i j) as [->|Hn].
    + rewrite A1, E1. reflexivity.
    + rewrite B1 by (intro E; apply Hinj in E; intuition congruence). rewrite (E2 i Hn). apply Hv. exact Hi.
  - intros q Hq. rewrite B1 by (apply Hq; exact Hj). apply Hf. exact Hq.
Qed.

Lemma mulT_steps : steps (mulT_body (N := NR) nounit a x loopR) (mulT L U up dg A).
Proof.
  intros j M X Hj Hv Hf. unfold mulT_body. rewrite (Hv j Hj).
  assert (D1 : (if nounit then do v <- M (a j j); Some (X j * v)%R else Some (X j)) = Some (X j * dg j)%R).
  { unfold dg. destruct nounit.
    - rewrite (frame_a M j j Hf Hj Hj), (HAd eq_refl j Hj). reflexivity.
    - f_equal. ring. }
  replace (if nounit then do v <- M (a j j); Some (nmul (n := NR) (X j) v) else Some (X j : NR)) with (Some (X j * dg j : NR)%R)
    by (symmetry; exact D1).
  nrg. rewrite (Hloop j Hj _ (fun l => A l j * X l)%R).
  2:{ intros i t Hi. pose proof (rows_ok i j Hj Hi) as [Hi1 [Hn HT]].
      rewrite frame_a by assumption. rewrite HA by assumption. rewrite (Hv i Hi1). reflexivity. }
  apply store_step with (X := X); [exact Hj|exact Hv|exact Hf| |].
  - unfold mulT. rewrite Z.eqb_refl. rewrite rows_sum by exact Hj. reflexivity.
  - intros i Hn. unfold mulT. destruct (Z.eqb_spec i j); [contradiction|reflexivity].
Qed.

Lemma solT_steps : steps (solT_body (N := NR) nounit a x loopR) (solT L U up dg A).
Proof.
  intros j M X Hj Hv Hf. unfold solT_body. rewrite (Hv j Hj). nrg.
  rewrite (Hloop j Hj _ (fun l => - (A l j * X l))%R).
  2:{ intros i t Hi. pose proof (rows_ok i j Hj Hi) as [Hi1 [Hn HT]].
      rewrite frame_a by assumption. rewrite HA by assumption. rewrite (Hv i Hi1). reflexivity. }
  set (t := (X j + sumz (tlo j) (thi j) (fun l => - (A l j * X l)))%R).
  assert (Et : t = (X j - sumz L U (fun l => if T l j then (A l j * X l)%R else 0%R))%R).
  { unfold t. rewrite rows_sum by exact Hj. unfold Rminus. f_equal.
    replace (- sumz L U (fun l => if T l j then (A l j * X l)%R else 0%R))%R
      with ((-1) * sumz L U (fun l => if T l j then (A l j * X l)%R else 0%R))%R by ring.
    rewrite <- sumz_scal. apply sumz_ext. intros i _. destruct (T i j); ring. }
  assert (D1 : (if nounit then do v <- M (a j j); Some (t / v)%R else Some t) = Some (t / dg j)%R).
  { unfold dg. destruct nounit.
    - rewrite (frame_a M j j Hf Hj Hj), (HAd eq_refl j Hj). reflexivity.
    - f_equal. unfold Rdiv. rewrite Rinv_1. ring. }
  destruct (store_step j M X (t / dg j)%R (solT L U up dg A j X) Hj Hv Hf) as [M' [E R]].
  - unfold solT. rewrite Z.eqb_refl. rewrite Et. reflexivity.
  - intros i Hn. unfold solT. destruct (Z.eqb_spec i j); [contradiction|reflexivity].
  - exists M'. split; [|exact R]. exact (eq_trans (f_equal (fun o : option NR => do t <- o; store (N := NR) M (x j) t) D1) E).
Qed.
End Tr.

(** ** The loop over the columns *)
Variable X0 : Z -> R.
Hypothesis HX : vals M0 X0.
Hypothesis HLU : L <= U.

Definition asc (j l : Z) : bool := l <? j.
Definition desc (j l : Z) : bool := j <=? l.

Lemma outer_up : forall body upd (Q : (Z -> bool) -> (Z -> R) -> Prop), steps body upd ->
  (forall p p' X, (forall i, L <= i < U -> p i = p' i) -> Q p X -> Q p' X) ->
  Q (fun _ => false) X0 ->
  (forall j X, L <= j < U -> Q (asc j) X -> Q (add_proc (asc j) j) (upd j X)) ->
  exists M' X', for_up L U body M0 = Some M' /\ vals M' X' /\ frame M' /\ Q (fun _ => true) X'.
Proof.
  intros body upd Q Hs Hq H0 Hst.
  destruct (for_up_inv (fun j M => exists X, vals M X /\ frame M /\ Q (asc j) X) L U body M0 HLU) as [M' [E [X [V [F P]]]]].
  - exists X0. split; [exact HX|]. split; [intros q _; reflexivity|].
    apply (Hq (fun _ => false)); [|exact H0]. intros i Hi. symmetry. apply Z.ltb_ge. lia.
  - intros j M Hj [X [V [F P]]]. destruct (Hs j M X Hj V F) as [M1 [E1 [V1 F1]]].
    exists M1. split; [exact E1|]. exists (upd j X). split; [exact V1|]. split; [exact F1|].
    apply (Hq (add_proc (asc j) j)); [|apply Hst; assumption].
    intros i Hi. unfold add_proc, asc. destruct (Z.ltb_spec i j), (Z.eqb_spec i j), (Z.ltb_spec i (j + 1)); reflexivity || lia.
  - exists M', X. split; [exact E|]. split; [exact V|]. split; [exact F|].
    apply (Hq (asc U)); [|exact P]. intros i Hi. apply Z.ltb_lt. lia.
Qed.

Lemma outer_down : forall top body upd (Q : (Z -> bool) -> (Z -> R) -> Prop), top = U - 1 -> steps body upd ->
  (forall p p' X, (forall i, L <= i < U -> p i = p' i) -> Q p X -> Q p' X) ->
  Q (fun _ => false) X0 ->
  (forall j X, L <= j < U -> Q (desc (j + 1)) X -> Q (add_proc (desc (j + 1)) j) (upd j X)) ->
  exists M' X', for_down top L body M0 = Some M' /\ vals M' X' /\ frame M' /\ Q (fun _ => true) X'.
Proof.
  intros top body upd Q Et Hs Hq H0 Hst. subst top.
  destruct (for_down_inv (fun j M => exists X, vals M X /\ frame M /\ Q (desc j) X) (U - 1) L body M0)
    as [M' [E [X [V [F P]]]]].
  - lia.
  - exists X0. split; [exact HX|]. split; [intros q _; reflexivity|].
    apply (Hq (fun _ => false)); [|exact H0]. intros i Hi. symmetry. apply Z.leb_gt. lia.
  - intros j M Hj [X [V [F P]]]. destruct (Hs j M X ltac:(lia) V F) as [M1 [E1 [V1 F1]]].
    exists M1. split; [exact E1|]. exists (upd j X). split; [exact V1|]. split; [exact F1|].
    apply (Hq (add_proc (desc (j + 1)) j)); [|apply Hst; [lia|assumption]].
    intros i Hi. unfold add_proc, desc.
    destruct (Z.leb_spec (j + 1) i), (Z.eqb_spec i j), (Z.leb_spec j i); reflexivity || lia.
  - exists M', X. split; [exact E|]. split; [exact V|]. split; [exact F|].
    apply (Hq (desc L)); [|exact P]. intros i Hi. apply Z.leb_le. lia.
Qed.

(** What the four algorithms achieve *)
Notation tr := (tri up dg A).
Definition prodN (X : Z -> R) : Prop := forall i, L <= i < U -> X i = sumz L U (fun l => (tr i l * X0 l)%R).
Definition prodT (X : Z -> R) : Prop := forall i, L <= i < U -> X i = sumz L U (fun l => (tr l i * X0 l)%R).
Definition systN (X : Z -> R) : Prop := forall i, L <= i < U -> X0 i = sumz L U (fun l => (tr i l * X l)%R).
Definition systT (X : Z -> R) : Prop := forall i, L <= i < U -> X0 i = sumz L U (fun l => (tr l i * X l)%R).

Definition achieves (o : option mem) (P : (Z -> R) -> Prop) : Prop :=
  exists M' X', o = Some M' /\ vals M' X' /\ frame M' /\ P X'.

Lemma achieves_imp : forall o (P Q : (Z -> R) -> Prop), (forall X, P X -> Q X) -> achieves o P -> achieves o Q.
Proof. intros o P Q HPQ [M' [X' [E [V [F HP]]]]]. exists M', X'. auto. Qed.

Ltac ext_ok := intros p p' X Ep HQ i Hi; rewrite <- (Ep i Hi); refine (eq_trans (HQ i Hi) _);
   try (destruct (p i));
   first [reflexivity
         |apply sumz_ext; intros l Hl; rewrite (Ep l Hl); reflexivity
         |apply (f_equal (Rplus _)), sumz_ext; intros l Hl; rewrite (Ep l Hl); reflexivity].

Lemma QmulN_ext : forall p p' X, (forall i, L <= i < U -> p i = p' i) -> QmulN L U up dg A X0 p X -> QmulN L U up dg A X0 p' X.
Proof. ext_ok. Qed.
Lemma QmulT_ext : forall p p' X, (forall i, L <= i < U -> p i = p' i) -> QmulT L U up dg A X0 p X -> QmulT L U up dg A X0 p' X.
Proof. intros p p' X Ep HQ i Hi. rewrite <- (Ep i Hi). apply HQ. exact Hi. Qed.
Lemma QsolN_ext : forall p p' X, (forall i, L <= i < U -> p i = p' i) -> QsolN L U up dg A X0 p X -> QsolN L U up dg A X0 p' X.
Proof. ext_ok. Qed.
Lemma QsolT_ext : forall p p' X, (forall i, L <= i < U -> p i = p' i) -> QsolT L U up dg A X0 p X -> QsolT L U up dg A X0 p' X.
Proof. ext_ok. Qed.

Lemma QsolN_0 : QsolN L U up dg A X0 (fun _ => false) X0.
Proof. intros i Hi. rewrite sumz_0. ring. Qed.

Lemma asc_T : up = true -> forall j i, i <> j -> T i j = asc j i.
Proof. intros E j i _. unfold strict, asc. rewrite E. reflexivity. Qed.
Lemma asc_nT : up = false -> forall j i, i <> j -> T i j = negb (asc j i).
Proof. intros E j i Hn. unfold strict, asc. rewrite E. destruct (Z.ltb_spec j i), (Z.ltb_spec i j); reflexivity || lia. Qed.
Lemma desc_T : up = false -> forall j i, i <> j -> T i j = desc (j + 1) i.
Proof. intros E j i Hn. unfold strict, desc. rewrite E. destruct (Z.ltb_spec j i), (Z.leb_spec (j + 1) i); reflexivity || lia. Qed.
Lemma desc_nT : up = true -> forall j i, i <> j -> T i j = negb (desc (j + 1) i).
Proof. intros E j i Hn. unfold strict, desc. rewrite E. destruct (Z.ltb_spec i j), (Z.leb_spec (j + 1) i); reflexivity || lia. Qed.
Lemma asc_j : forall j, asc j j = false.
Proof. intros j. apply Z.ltb_irrefl. Qed.
Lemma desc_j : forall j, desc (j + 1) j = false.
Proof. intros j. apply Z.leb_gt. lia. Qed.

Lemma done_mulN : forall X, QmulN L U up dg A X0 (fun _ => true) X -> prodN X.
Proof. intros X HQ i Hi. exact (HQ i Hi). Qed.
Lemma done_solN : forall X, QsolN L U up dg A X0 (fun _ => true) X -> systN X.
Proof. intros X HQ i Hi. rewrite (HQ i Hi). ring. Qed.

Lemma mulN_up : up = true -> forall loopM, (forall j, L <= j < U -> maps (N := NR) (loopM j) (tlo j) (thi j)) ->
  achieves (for_up L U (mulN_body nounit a x loopM) M0) prodN.
Proof.
  intros Eu loopM Hl. apply (achieves_imp _ _ _ done_mulN).
  apply (outer_up _ _ _ (mulN_steps loopM Hl) QmulN_ext); [intros i Hi; reflexivity|].
  intros j X Hj. apply mulN_pure; [exact Hj|apply asc_j|]. intros i _ Hn. apply asc_T; assumption.
Qed.

Lemma mulN_down : up = false -> forall top loopM, top = U - 1 ->
  (forall j, L <= j < U -> maps (N := NR) (loopM j) (tlo j) (thi j)) ->
  achieves (for_down top L (mulN_body nounit a x loopM) M0) prodN.
Proof.
  intros Eu top loopM Et Hl. apply (achieves_imp _ _ _ done_mulN).
  apply (outer_down top _ _ _ Et (mulN_steps loopM Hl) QmulN_ext); [intros i Hi; reflexivity|].
  intros j X Hj. apply mulN_pure; [exact Hj|apply desc_j|]. intros i _ Hn. apply desc_T; assumption.
Qed.

Lemma mulT_up : up = false -> forall loopR, (forall j, L <= j < U -> accs (loopR j) (tlo j) (thi j)) ->
  achieves (for_up L U (mulT_body (N := NR) nounit a x loopR) M0) prodT.
Proof.
  intros Eu loopR Hl.
  apply (outer_up _ _ _ (mulT_steps loopR Hl) QmulT_ext); [intros i Hi; reflexivity|].
  intros j X Hj. apply mulT_pure; [exact Hj|apply asc_j|]. intros i _ Hn. apply asc_nT; assumption.
Qed.

Lemma mulT_down : up = true -> forall top loopR, top = U - 1 -> (forall j, L <= j < U -> accs (loopR j) (tlo j) (thi j)) ->
  achieves (for_down top L (mulT_body (N := NR) nounit a x loopR) M0) prodT.
Proof.
  intros Eu top loopR Et Hl.
  apply (outer_down top _ _ _ Et (mulT_steps loopR Hl) QmulT_ext); [intros i Hi; reflexivity|].
  intros j X Hj. apply mulT_pure; [exact Hj|apply desc_j|]. intros i _ Hn. apply desc_nT; assumption.
Qed.

Hypothesis HD : forall j, L <= j < U -> dg j <> 0%R.

Lemma solN_up : up = false -> forall loopM, (forall j, L <= j < U -> maps (N := NR) (loopM j) (tlo j) (thi j)) ->
  achieves (for_up L U (solN_body nounit a x loopM) M0) systN.
Proof.
  intros Eu loopM Hl. apply (achieves_imp _ _ _ done_solN).
  apply (outer_up _ _ _ (solN_steps loopM Hl HD) QsolN_ext); [exact QsolN_0|].
  intros j X Hj. apply solN_pure; [exact Hj|apply asc_j| |apply HD; exact Hj]. intros i _ Hn. apply asc_nT; assumption.
Qed.

Lemma solN_down : up = true -> forall top loopM, top = U - 1 ->
  (forall j, L <= j < U -> maps (N := NR) (loopM j) (tlo j) (thi j)) ->
  achieves (for_down top L (solN_body nounit a x loopM) M0) systN.
Proof.
  intros Eu top loopM Et Hl. apply (achieves_imp _ _ _ done_solN).
  apply (outer_down top _ _ _ Et (solN_steps loopM Hl HD) QsolN_ext); [exact QsolN_0|].
  intros j X Hj. apply solN_pure; [exact Hj|apply desc_j| |apply HD; exact Hj]. intros i _ Hn. apply desc_nT; assumption.
Qed.

Lemma solT_up : up = true -> forall loopR, (forall j, L <= j < U -> accs (loopR j) (tlo j) (thi j)) ->
  achieves (for_up L U (solT_body (N := NR) nounit a x loopR) M0) systT.
Proof.
  intros Eu loopR Hl.
  apply (outer_up _ _ _ (solT_steps loopR Hl) QsolT_ext); [intros i Hi; reflexivity|].
  intros j X Hj. apply solT_pure; [exact Hj|apply asc_j| |apply HD; exact Hj]. intros i _ Hn. apply asc_T; assumption.
Qed.

Lemma solT_down : up = false -> forall top loopR, top = U - 1 -> (forall j, L <= j < U -> accs (loopR j) (tlo j) (thi j)) ->
  achieves (for_down top L (solT_body (N := NR) nounit a x loopR) M0) systT.
Proof.
  intros Eu top loopR Et Hl.
  apply (outer_down top _ _ _ Et (solT_steps loopR Hl) QsolT_ext); [intros i Hi; reflexivity|].
  intros j X Hj. apply solT_pure; [exact Hj|apply desc_j| |apply HD; exact Hj]. intros i _ Hn. apply desc_T; assumption.
Qed.

End Steps.
End Exact.
