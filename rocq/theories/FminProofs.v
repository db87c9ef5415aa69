(** * Univariate minimization: invariants which hold for any arithmetic or any ordered arithmetic *)
From Coq Require Import List ZArith Bool Reals Lra Lia.
From Verif Require Import Num NumFacts OrdFacts VecModel Base FminModel.
Import ListNotations.
Local Open Scope num_scope.

Section Any.
Context {N : Num} (f : N -> N).

(** ** Invariants of the two loops *)

(** [P] holds for the states of the search of a bracket, [Q] for those of the reduction. *)
Definition enlarge (s : fm N) : fm N :=
  mkFm (fv_x s) (fv_f s) (fw_x s) (fw_f s) (FMIN_GAMMA * (fw_x s - fv_x s) + fw_x s)
    (f (FMIN_GAMMA * (fw_x s - fv_x s) + fw_x s)) (f_nevals s + 1) ((FMIN_GAMMA * (fw_x s - fv_x s) + fw_x s) :: f_points s).
Definition trial (s : fm N) : N := FMIN_ALPHA * (fw_x s - fv_x s) + fv_x s.
Definition shrink (s : fm N) : fm N := fmin_update s (trial s) (f (trial s)) (f_nevals s + 1) (trial s :: f_points s).
Definition spent (maxeval : Z) (s : fm N) : bool := (maxeval >? 0)%Z && (f_nevals s >=? maxeval)%Z.
Definition conv (prec : N) (s : fm N) : bool := fmin_converged prec (fu_x s) (fv_x s) (fw_x s).

Lemma reduce_S fuel maxeval prec s : fmin_reduce f (S fuel) maxeval prec s =
  if conv prec s then Done 0 s else if spent maxeval s then Done 1 s else fmin_reduce f fuel maxeval prec (shrink s).
Proof. reflexivity. Qed.
Lemma search_S fuel maxeval prec s : fmin_search f (S fuel) maxeval prec s =
  if fv_f s >? fw_f s then (if spent maxeval s then Done 2 s else fmin_search f fuel maxeval prec (enlarge s))
  else fmin_reduce f (S fuel) maxeval prec s.
Proof. reflexivity. Qed.

Lemma reduce_inv (Q : fm N -> Prop) maxeval prec :
  (forall s, Q s -> conv prec s = false -> spent maxeval s = false -> Q (shrink s)) ->
  forall fuel s, Q s ->
  match fmin_reduce f fuel maxeval prec s with
  | Running s' => Q s'
  | Done st s' => Q s' /\ ((st = 0%Z /\ conv prec s' = true) \/ (st = 1%Z /\ conv prec s' = false /\ spent maxeval s' = true))
  end.
Proof.
  intros HQ. induction fuel as [|fuel IH]; intros s Hs; [exact Hs|]. rewrite reduce_S.
  destruct (conv prec s) eqn:E1; [auto|]. destruct (spent maxeval s) eqn:E2; [auto 6|]. apply IH. auto.
Qed.
Lemma search_inv (P Q : fm N -> Prop) maxeval prec :
  (forall s, P s -> fv_f s >? fw_f s = true -> spent maxeval s = false -> P (enlarge s)) ->
  (forall s, P s -> fv_f s >? fw_f s = false -> Q s) ->
  (forall s, Q s -> conv prec s = false -> spent maxeval s = false -> Q (shrink s)) ->
  forall fuel s, P s ->
  match fmin_search f fuel maxeval prec s with
  | Running s' => P s' \/ Q s'
  | Done st s' =>
    (st = 2%Z /\ P s' /\ fv_f s' >? fw_f s' = true /\ spent maxeval s' = true) \/
    (Q s' /\ ((st = 0%Z /\ conv prec s' = true) \/ (st = 1%Z /\ conv prec s' = false /\ spent maxeval s' = true)))
  end.
Proof.
  intros HP HPQ HQ. induction fuel as [|fuel IH]; intros s Hs; [left; exact Hs|]. rewrite search_S.
  destruct (fv_f s >? fw_f s) eqn:E1.
  - destruct (spent maxeval s) eqn:E2; [left; auto|]. apply IH. auto.
  - pose proof (reduce_inv Q maxeval prec HQ (S fuel) s (HPQ s Hs E1)) as H.
    destruct (fmin_reduce f (S fuel) maxeval prec s); auto.
Qed.

(** ** Counts and recorded values *)

(** [p] is one of the points where f was evaluated and [fp] the value, or an exclusive bound. *)
Definition known (a b : N) (flags : Z) (pts : list N) (p fp : N) : Prop :=
  (In p pts /\ fp = f p) \/ (bounded_by_a flags = true /\ p = a /\ fp = ninf) \/ (bounded_by_b flags = true /\ p = b /\ fp = ninf).
Lemma known_cons a b flags pts p fp x : known a b flags pts p fp -> known a b flags (x :: pts) p fp.
Proof. unfold known. cbn [In]. tauto. Qed.
Lemma known_new a b flags pts p fp : fp = f p -> known a b flags (p :: pts) p fp.
Proof. unfold known. cbn [In]. tauto. Qed.

Definition records (a b : N) (flags : Z) (s : fm N) : Prop :=
  f_nevals s = Z.of_nat (length (f_points s)) /\
  known a b flags (f_points s) (fu_x s) (fu_f s) /\ (In (fv_x s) (f_points s) /\ fv_f s = f (fv_x s)) /\
  known a b flags (f_points s) (fw_x s) (fw_f s).

Lemma records_first a b flags : records a b flags (fmin_first f a b flags) /\ (1 <= f_nevals (fmin_first f a b flags) <= 3)%Z.
Proof.
  unfold fmin_first, records, known. destruct (bounded_by_a flags) eqn:Ea, (bounded_by_b flags) eqn:Eb; cbn [negb];
    match goal with |- context [if ?c then (_, _, _, _) else _] => destruct c end; cbn; repeat split; try lia; tauto.
Qed.
Lemma records_enlarge a b flags s : records a b flags s -> known a b flags (f_points s) (fw_x s) (fw_f s) ->
  (bounded_by_a flags = true /\ fw_f s = ninf \/ bounded_by_b flags = true /\ fw_f s = ninf -> False) -> records a b flags (enlarge s).
Proof.
  intros (Hn & Hu & (Hv & Ev) & Hw) _ HI. unfold records, enlarge. cbn [f_nevals f_points fu_x fu_f fv_x fv_f fw_x fw_f].
  split; [rewrite Hn; cbn [length]; lia|]. split; [left; cbn [In]; auto|]. split.
  - destruct Hw as [[H1 H2]|[(H1 & H2 & H3)|(H1 & H2 & H3)]]; [cbn [In]; auto | |]; exfalso; apply HI; auto.
  - now apply known_new.
Qed.
Lemma records_shrink a b flags s : records a b flags s -> records a b flags (shrink s).
Proof.
  intros (Hn & Hu & (Hv & Ev) & Hw). unfold records, shrink, fmin_update.
  match goal with |- context [if ?c then _ else _] => destruct c end; cbn [f_nevals f_points fu_x fu_f fv_x fv_f fw_x fw_f];
    (split; [rewrite Hn; cbn [length]; lia|]).
  - split; [now apply known_new|]. split; [cbn [In]; auto|]. now apply known_cons.
  - split; [left; cbn [In]; auto|]. split; [cbn [In]; auto|]. now apply known_cons.
Qed.

(** The number of evaluations, for any arithmetic. *)
Lemma count_bound maxeval prec a b flags fuel : (0 < maxeval)%Z ->
  match fmin_search f fuel maxeval prec (fmin_first f a b flags) with
  | Running s | Done _ s => f_nevals s = Z.of_nat (length (f_points s)) /\ (1 <= f_nevals s <= Z.max maxeval 3)%Z
  end.
Proof.
  intros Hm. set (P := fun s : fm N => f_nevals s = Z.of_nat (length (f_points s)) /\ (1 <= f_nevals s <= Z.max maxeval 3)%Z).
  pose proof (search_inv P P maxeval prec) as H. 
  assert (Sp : forall s, spent maxeval s = false -> (f_nevals s < maxeval)%Z).
  { intros s. unfold spent. rewrite Z.geb_leb, Z.gtb_ltb. destruct (Z.ltb_spec 0 maxeval); [|lia]. cbn. destruct (Z.leb_spec maxeval (f_nevals s)); [discriminate|lia]. }
  specialize (H ltac:(intros s [P1 P2] _ E; apply Sp in E; unfold P, enlarge; cbn [f_nevals f_points]; rewrite P1; cbn [length]; lia)).
  specialize (H ltac:(auto)).
  specialize (H ltac:(intros s [P1 P2] _ E; apply Sp in E; unfold P, shrink, fmin_update;
     match goal with |- context [if ?c then _ else _] => destruct c end; cbn [f_nevals f_points]; rewrite P1; cbn [length]; lia)).
  specialize (H fuel (fmin_first f a b flags)).
  destruct (records_first a b flags) as [R1 R2]. specialize (H ltac:(split; [apply R1 | lia])).
  destruct (fmin_search f fuel maxeval prec (fmin_first f a b flags)) as [s|st s]; [tauto|].
  destruct H as [H|H]; tauto.
Qed.

(** With a limit, the loops end. *)
Lemma reduce_ends maxeval prec : (0 < maxeval)%Z -> forall fuel s, 0 < fuel -> (maxeval < f_nevals s + Z.of_nat fuel)%Z ->
  exists st s', fmin_reduce f fuel maxeval prec s = Done st s'.
Proof.
  intros Hm. induction fuel as [|fuel IH]; intros s H0 Hs; [lia|]. rewrite reduce_S.
  destruct (conv prec s); [eauto|]. destruct (spent maxeval s) eqn:E; [eauto|].
  unfold spent in E. rewrite Z.geb_leb, Z.gtb_ltb in E. destruct (Z.ltb_spec 0 maxeval); [|lia]. cbn in E.
  destruct (Z.leb_spec maxeval (f_nevals s)); [discriminate|]. apply IH; [lia|].
  unfold shrink, fmin_update. match goal with |- context [if ?c then _ else _] => destruct c end; cbn [f_nevals]; lia.
Qed.
Lemma search_ends maxeval prec : (0 < maxeval)%Z -> forall fuel s, 0 < fuel -> (maxeval < f_nevals s + Z.of_nat fuel)%Z ->
  exists st s', fmin_search f fuel maxeval prec s = Done st s'.
Proof.
  intros Hm. induction fuel as [|fuel IH]; intros s H0 Hs; [lia|]. rewrite search_S.
  destruct (fv_f s >? fw_f s).
  - destruct (spent maxeval s) eqn:E; [eauto|].
    unfold spent in E. rewrite Z.geb_leb, Z.gtb_ltb in E. destruct (Z.ltb_spec 0 maxeval); [|lia]. cbn in E.
    destruct (Z.leb_spec maxeval (f_nevals s)); [discriminate|]. apply IH; [lia|]. cbn [enlarge f_nevals]. lia.
  - now apply reduce_ends.
Qed.
End Any.

(** ** Comparisons *)
Section Ord.
Context {N : Num} (O : OrdLaws N) (f : N -> N) (a b : N) (flags : Z).
Context (Hnum : forall x, (f x =? f x) = true) (Hinf : forall x, (f x <=? ninf) = true) (Hi : ((ninf : N) =? ninf) = true).

Lemma not_above_inf x : (f x >? ninf) = false.
Proof. apply (le_not_lt O). apply Hinf. Qed.

Lemma known_num pts p fp : known f a b flags pts p fp -> (fp =? fp) = true.
Proof. intros [[_ ->]|[(_ & _ & ->)|(_ & _ & ->)]]; auto. Qed.

(** While a bracket is searched. *)
Definition searching (s : fm N) : Prop :=
  records f a b flags s /\
  ((fw_f s <=? fu_f s) = true \/ (fv_f s <=? fu_f s) = true) /\
  (forall p, In p (f_points s) -> (fv_f s <=? f p) = true \/ (fw_f s <=? f p) = true).
(** When there is a bracket. *)
Definition bracketed (s : fm N) : Prop :=
  records f a b flags s /\
  (fv_f s <=? fu_f s) = true /\ (fv_f s <=? fw_f s) = true /\
  (forall p, In p (f_points s) -> (fv_f s <=? f p) = true).

Lemma searching_first : searching (fmin_first f a b flags).
Proof.
  destruct (records_first f a b flags) as [R1 _]. split; [exact R1|]. unfold records in R1.
  revert R1. unfold fmin_first. 
  destruct (bounded_by_a flags) eqn:Ea, (bounded_by_b flags) eqn:Eb; cbn [negb];
    match goal with |- context [if ?c then (_, _, _, _) else _] => destruct c eqn:EC end; cbn; intros _;
    (split; [left|intros p Hp]).
  all: repeat match goal with H : _ \/ _ |- _ => destruct H as [<- | H] | H : False |- _ => destruct H end.
  all: try (left; apply (nle_refl O); auto; fail).
  all: try (right; apply (nle_refl O); auto; fail).
  all: first [apply (not_lt_le O) in EC; [|solve [auto]|solve [auto]] | apply (nlt_nle O) in EC].
  all: auto.
Qed.

Lemma searching_enlarge s : searching s -> fv_f s >? fw_f s = true -> searching (enlarge f s).
Proof.
  intros (R & Hu & Hp) E. split; [|split].
  - apply records_enlarge; [exact R|apply R|]. destruct R as (_ & _ & (_ & Ev) & _).
    intros H. assert (EI : fw_f s = ninf) by tauto. rewrite EI, Ev, not_above_inf in E. discriminate.
  - right. cbn [enlarge fv_f fu_f]. now apply (nlt_nle O).
  - cbn [enlarge f_points fv_f fw_f]. intros p [<-|Hp'].
    + right. apply (nle_refl O). apply Hnum.
    + left. destruct (Hp p Hp') as [H|H]; [|exact H]. apply (nle_trans O) with (fv_f s); [now apply (nlt_nle O) | exact H].
Qed.

Lemma searching_bracketed s : searching s -> fv_f s >? fw_f s = false -> bracketed s.
Proof.
  intros (R & Hu & Hp) E. pose proof R as (_ & Ku & (_ & Ev) & Kw). apply known_num in Ku, Kw.
  assert (Kv : (fv_f s =? fv_f s) = true) by (rewrite Ev; apply Hnum).
  assert (L : (fv_f s <=? fw_f s) = true) by (apply (not_lt_le O); assumption).
  split; [exact R|]. split; [|split; [exact L|]].
  - destruct Hu as [H|H]; [|exact H]. now apply (nle_trans O) with (fw_f s).
  - intros p Hp'. destruct (Hp p Hp') as [H|H]; [exact H|]. now apply (nle_trans O) with (fw_f s).
Qed.

Lemma bracketed_shrink s : bracketed s -> bracketed (shrink f s).
Proof.
  intros (R & Hu & Hw & Hp). pose proof (records_shrink f a b flags s R) as R'. split; [exact R'|].
  pose proof R as (_ & _ & (_ & Ev) & _). assert (Kv : (fv_f s =? fv_f s) = true) by (rewrite Ev; apply Hnum).
  unfold shrink, fmin_update. set (x := trial s).
  destruct ((f x >? fv_f s) || ((f x =? fv_f s) && (fu_f s >=? fw_f s))) eqn:E; cbn [fv_f fu_f fw_f f_points].
  - assert (L : (fv_f s <=? f x) = true).
    { apply orb_prop in E. destruct E as [E|E]; [now apply (nlt_nle O)|]. apply andb_prop in E. destruct E as [E _].
      revert E. keys O. destruct (key O (f x)), (key O (fv_f s)); intros; try discriminate; rbool. }
    split; [exact L|]. split; [exact Hu|]. intros p [<-|Hp']; auto.
  - assert (L : (f x <=? fv_f s) = true).
    { apply orb_false_elim in E. destruct E as [E _]. apply (not_lt_le O); auto. }
    split; [exact L|]. split; [now apply (nle_trans O) with (fv_f s)|].
    intros p [<-|Hp']; [apply (nle_refl O); apply Hnum|]. apply (nle_trans O) with (fv_f s); auto.
Qed.

Lemma search_values maxeval prec fuel :
  match fmin_search f fuel maxeval prec (fmin_first f a b flags) with
  | Running s' => searching s' \/ bracketed s'
  | Done st s' => (st = 2%Z /\ searching s' /\ fv_f s' >? fw_f s' = true /\ spent maxeval s' = true) \/
    (bracketed s' /\ ((st = 0%Z /\ conv prec s' = true) \/ (st = 1%Z /\ conv prec s' = false /\ spent maxeval s' = true)))
  end.
Proof.
  apply search_inv.
  - intros; now apply searching_enlarge.
  - intros; now apply searching_bracketed.
  - intros; now apply bracketed_shrink.
  - apply searching_first.
Qed.
End Ord.
