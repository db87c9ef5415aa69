(** * Univariate minimization in exact arithmetic *)
From Coq Require Import List ZArith Bool Reals Lra Lia Psatz.
From Flocq Require Import Core.
From Verif Require Import Num NumFacts OrdFacts VecModel Base LsReal FminModel FminProofs.
Import ListNotations.
Local Open Scope R_scope.

Section Real.
Variables H I : R.
Notation NR := (NumR H I).

Definition alpha : R := @FMIN_ALPHA NR.
Definition gamma : R := @FMIN_GAMMA NR.
Lemma alpha_bounds : 0.38196 < alpha < 0.38197.
Proof. unfold alpha, FMIN_ALPHA. cbn [nQ NumR]. change (10 ^ 33)%positive with 1000000000000000000000000000000000%positive. lra. Qed.
Lemma gamma_bounds : 1.61803 < gamma < 1.61804.
Proof. unfold gamma, FMIN_GAMMA. cbn [nQ NumR]. change (10 ^ 32)%positive with 100000000000000000000000000000000%positive. lra. Qed.

Definition between (u v w : R) : Prop := (u < v < w) \/ (w < v < u).

Context (f : NR -> NR) (a b : NR) (flags : Z).
Context (Hinf : forall x, f x <= I) (Hab : a <> b).

(** Inside the bounds. *)
Definition inside (p : R) : Prop :=
  (bounded_by_a flags = true -> 0 < (p - a) * (b - a)) /\ (bounded_by_b flags = true -> 0 < (p - b) * (a - b)).
Definition inside_or_on (p : R) : Prop :=
  (bounded_by_a flags = true -> 0 <= (p - a) * (b - a)) /\ (bounded_by_b flags = true -> 0 <= (p - b) * (a - b)).

Definition geo (s : fm NR) : Prop :=
  between (fu_x s) (fv_x s) (fw_x s) /\ inside_or_on (fu_x s) /\ inside_or_on (fw_x s) /\
  In (fv_x s) (f_points s) /\ (forall p, In p (f_points s) -> inside p).
(** While searching, the direction of the search goes away from the bounds. *)
Definition away (s : fm NR) : Prop :=
  (bounded_by_a flags = true -> fw_f s = I \/ 0 < (fw_x s - fu_x s) * (b - a)) /\
  (bounded_by_b flags = true -> fw_f s = I \/ 0 < (fw_x s - fu_x s) * (a - b)) /\ fv_f s <= I /\
  (fw_f s = I \/ In (fw_x s) (f_points s)).

Lemma inside_weak p : inside p -> inside_or_on p.
Proof. intros [H1 H2]; split; intros E; [specialize (H1 E) | specialize (H2 E)]; lra. Qed.

Lemma geo_first : geo (fmin_first f a b flags) /\ away (fmin_first f a b flags).
Proof.
  pose proof alpha_bounds as A.
  assert (HD : 0 < (b - a) * (b - a)) by (apply Rsqr_pos_lt; intros E; apply Hab; apply Rminus_diag_uniq in E; congruence).
  unfold fmin_first. change (@FMIN_ALPHA NR) with alpha. cbn [nlt nadd nsub nmul ninf NumR]. 
  unfold geo, away, inside, inside_or_on, between.
  destruct (bounded_by_a flags) eqn:Ea, (bounded_by_b flags) eqn:Eb; cbn [negb];
   match goal with |- context [if ?c then (_, _, _, _) else _] => destruct c eqn:EC end; rb;
   cbn [fu_x fv_x fw_x f_points fw_f fv_f fu_f In];
   (split; [split; [|split; [|split; [|split]]]|split; [|split; [|split]]]);
   try (intros; discriminate); try tauto; auto.
  all: try (intros p Hp; repeat match goal with HH : _ \/ _ |- _ => destruct HH as [<- | HH] | HH : False |- _ => destruct HH end).
  all: try (split; intros; try discriminate; nra).
  all: try (destruct (Rtotal_order a b) as [L|[L|L]]; [|contradiction|]; try (left; nra); right; nra).
  all: try (exfalso; pose proof (Hinf a); pose proof (Hinf b); lra).
  all: try (intros _; right; nra).
Qed.

Lemma geo_enlarge s : geo s -> away s -> fw_f s < fv_f s -> geo (enlarge f s) /\ away (enlarge f s).
Proof.
  pose proof gamma_bounds as G. intros (B & [Ua Ub] & [Wa Wb] & V & P) (Da & Db & Iv & Iw) E.
  assert (HwI : fw_f s < I) by (change (num NR) with R in *; lra).
  assert (PW : In (fw_x s) (f_points s)) by (destruct Iw as [Iw|Iw]; [change (num NR) with R in *; lra | exact Iw]).
  pose proof (P _ V) as [Va Vb].
  set (w' := gamma * (fw_x s - fv_x s) + fw_x s).
  assert (KA : bounded_by_a flags = true -> 0 < (fw_x s - fv_x s) * (b - a)).
  { intros EE. destruct (Da EE) as [D|D]; [change (num NR) with R in *; lra|]. unfold between in B. destruct B; [assert (0 < b - a) by nra | assert (b - a < 0) by nra]; nra. }
  assert (KB : bounded_by_b flags = true -> 0 < (fw_x s - fv_x s) * (a - b)).
  { intros EE. destruct (Db EE) as [D|D]; [change (num NR) with R in *; lra|]. unfold between in B. destruct B; [assert (0 < a - b) by nra | assert (a - b < 0) by nra]; nra. }
  pose proof (P _ PW) as In_w.
  assert (In_w' : inside w').
  { destruct In_w as [I1 I2]. split; intros EE; [specialize (KA EE); specialize (I1 EE) | specialize (KB EE); specialize (I2 EE)]; unfold w'; nra. }
  split; [split; [|split; [|split; [|split]]]|split; [|split; [|split]]]; unfold enlarge; change (@FMIN_GAMMA NR) with gamma;
    cbn [fu_x fv_x fw_x fu_f fv_f fw_f f_points nadd nsub nmul NumR In]; fold w'.
  - unfold between in *. unfold w'. destruct B; [left|right]; split; try lra; nra.
  - apply inside_weak. split; assumption.
  - now apply inside_weak.
  - auto.
  - intros p [<-|Hp]; auto.
  - intros EE. right. specialize (KA EE). unfold w'. nra.
  - intros EE. right. specialize (KB EE). unfold w'. nra.
  - apply Rlt_le; exact HwI.
  - right. auto.
Qed.

Lemma geo_shrink s : geo s -> geo (shrink f s).
Proof.
  pose proof alpha_bounds as A. intros (B & U & W & V & P).
  pose proof (P _ V) as Iv. set (x := trial s).
  assert (Ex : x = alpha * (fw_x s - fv_x s) + fv_x s) by reflexivity.
  assert (Ix : inside x).
  { destruct W as [W1 W2], Iv as [V1 V2]. split; intros EE; [specialize (W1 EE); specialize (V1 EE) | specialize (W2 EE); specialize (V2 EE)]; rewrite Ex.
    - replace ((alpha * (fw_x s - fv_x s) + fv_x s - a) * (b - a)) with (alpha * ((fw_x s - a) * (b - a)) + (1 - alpha) * ((fv_x s - a) * (b - a))) by ring. nra.
    - replace ((alpha * (fw_x s - fv_x s) + fv_x s - b) * (a - b)) with (alpha * ((fw_x s - b) * (a - b)) + (1 - alpha) * ((fv_x s - b) * (a - b))) by ring. nra. }
  unfold shrink, fmin_update. fold x.
  match goal with |- context [if ?c then _ else _] => destruct c end; (split; [|split; [|split; [|split]]]);
    cbn [fu_x fv_x fw_x f_points In]; auto; try (intros p [<-|Hp]; auto); try (now apply inside_weak).
  - unfold between in *. rewrite Ex. destruct B; [right|left]; split; try lra; nra.
  - unfold between in *. rewrite Ex. destruct B; [left|right]; split; try lra; nra.
Qed.

Lemma search_geo maxeval prec fuel :
  match fmin_search f fuel maxeval prec (fmin_first f a b flags) with Running s | Done _ s => geo s end.
Proof.
  pose proof (search_inv f (fun s => geo s /\ away s) geo maxeval prec) as HI.
  specialize (HI ltac:(intros s [G1 G2] E _; apply geo_enlarge; auto; cbn in E; now rb)).
  specialize (HI ltac:(intros s HH _; exact (proj1 HH))). specialize (HI ltac:(intros; now apply geo_shrink)).
  specialize (HI fuel _ geo_first). destruct (fmin_search f fuel maxeval prec (fmin_first f a b flags)); [destruct HI as [[HI _]|HI] | destruct HI as [(_ & [HI _] & _)|[HI _]]]; exact HI.
Qed.

(** ** Convergence *)

(** The larger part of the interval is between 0.6 and 0.63 of the interval. *)
Definition split_at (s : fm NR) (r : R) : Prop :=
  exists q, 0.6 <= r <= 0.63 /\ 0.6 <= q <= 0.63 /\ r + q - (1 - alpha) * (r * q) = 1 /\ fw_x s - fv_x s = r * (fw_x s - fu_x s).
Definition golden (s : fm NR) : Prop := exists r, split_at s r.

Lemma golden_alpha (u v w : R) : w - v = (1 - alpha) * (w - u) -> forall fu fv fw n pts, golden (mkFm (N := NR) u fu v fv w fw n pts).
Proof.
  pose proof alpha_bounds as A. intros E fu fv fw n pts. exists (1 - alpha), (/ (2 - alpha)). cbn [fw_x fv_x fu_x].
  split; [lra|]. assert (K : (2 - alpha) * / (2 - alpha) = 1) by (apply Rinv_r; lra).
  assert (0 < / (2 - alpha)) by (apply Rinv_0_lt_compat; lra). split; [nra|]. split; [nra|exact E].
Qed.
Lemma golden_gamma (u v w : R) : w - v = gamma * (v - u) -> forall fu fv fw n pts, golden (mkFm (N := NR) u fu v fv w fw n pts).
Proof.
  pose proof alpha_bounds as A. pose proof gamma_bounds as G. intros E fu fv fw n pts.
  assert (K : (1 + gamma) * / (1 + gamma) = 1) by (apply Rinv_r; lra).
  assert (0 < / (1 + gamma)) by (apply Rinv_0_lt_compat; lra).
  assert (0.38 < / (1 + gamma) < 0.39) by (set (y := / (1 + gamma)) in *; split; nra).
  assert (K1 : (1 + alpha * gamma) * / (1 + alpha * gamma) = 1) by (apply Rinv_r; nra).
  assert (0 < / (1 + alpha * gamma)) by (apply Rinv_0_lt_compat; nra).
  assert (0.6 < / (1 + alpha * gamma) < 0.63).
  { assert (0.6179 < alpha * gamma < 0.6181) by nra. set (z := alpha * gamma) in *. set (y := / (1 + z)) in *. split; nra. }
  exists (gamma * / (1 + gamma)), (/ (1 + alpha * gamma)). cbn [fw_x fv_x fu_x].
  split; [lra|]. split; [lra|]. split.
  - field. nra.
  - replace w with (v + gamma * (v - u)) by lra. field. lra.
Qed.

Lemma golden_first : golden (fmin_first f a b flags).
Proof.
  unfold fmin_first. destruct (bounded_by_a flags), (bounded_by_b flags); cbn [negb];
   match goal with |- context [if ?c then (_, _, _, _) else _] => destruct c end;
   apply golden_alpha; change (@FMIN_ALPHA NR) with alpha; cbn [nadd nsub nmul NumR]; ring.
Qed.
Lemma golden_enlarge s : golden (enlarge f s).
Proof. apply golden_gamma. change (@FMIN_GAMMA NR) with gamma; cbn [nadd nsub nmul NumR]; ring. Qed.

(** The interval after a step is shorter, and in the previous one. *)
Definition within (s s' : fm NR) : Prop :=
  forall c d, c <= fu_x s <= d -> c <= fw_x s <= d -> c <= fu_x s' <= d /\ c <= fv_x s' <= d /\ c <= fw_x s' <= d.

Lemma shrink_spec s : golden s -> between (fu_x s) (fv_x s) (fw_x s) ->
  golden (shrink f s) /\ Rabs (fw_x (shrink f s) - fu_x (shrink f s)) <= 0.63 * Rabs (fw_x s - fu_x s) /\ within s (shrink f s).
Proof.
  pose proof alpha_bounds as A. intros (r & q & Hr & Hq & HK & E) B.
  set (x := trial s). assert (Ex : x = alpha * (fw_x s - fv_x s) + fv_x s) by reflexivity.
  unfold shrink, fmin_update. fold x.
  set (u := fu_x s : R) in *. set (v := fv_x s : R) in *. set (w := fw_x s : R) in *. change (num NR) with R in *.
  assert (Bx : between v x w). { rewrite Ex. unfold between in *. destruct B; [left|right]; split; nra. }
  match goal with |- context [if ?c then _ else _] => destruct c end; (split; [|split]); cbn [fu_x fv_x fw_x].
  - exists q, r. cbn [fu_x fv_x fw_x]. split; [lra|]. split; [lra|]. split; [lra|]. rewrite Ex.
    replace v with (w - r * (w - u)) by lra. 
    replace (u - (alpha * (w - (w - r * (w - u))) + (w - r * (w - u)))) with ((w - u) * ((1 - alpha) * r - 1)) by ring.
    replace (u - (w - r * (w - u))) with ((w - u) * (r - 1)) by ring. 
    replace (r - 1) with (q * ((1 - alpha) * r - 1)) by lra. ring.
  - replace (u - x) with ((w - u) * ((1 - alpha) * r - 1)) by (rewrite Ex; replace v with (w - r * (w - u)) by lra; ring).
    rewrite Rabs_mult, (Rabs_left ((1 - alpha) * r - 1)) by nra. pose proof (Rabs_pos (w - u)).
    assert (0.37 <= (1 - alpha) * r) by nra. rewrite (Rmult_comm 0.63). apply Rmult_le_compat_l; lra.
  - intros c d Hu Hw. fold u in Hu. fold w in Hw. cbn [fu_x fv_x fw_x]. fold u v w. unfold between in *. lra.
  - apply golden_alpha. rewrite Ex. ring.
  - rewrite E, Rabs_mult, (Rabs_right r) by lra. pose proof (Rabs_pos (w - u)). apply Rmult_le_compat_r; lra.
  - intros c d Hu Hw. fold u in Hu. fold w in Hw. cbn [fu_x fv_x fw_x]. fold u v w. unfold between in *. lra.
Qed.

Lemma radius_ge (u v w : R) : Rabs u <= @fmin_radius NR u v w /\ Rabs v <= @fmin_radius NR u v w /\ Rabs w <= @fmin_radius NR u v w.
Proof. unfold fmin_radius. cbn [nabs nlt NumR]. destruct (Rlt_bool (Rabs u) (Rabs v)) eqn:?; match goal with |- context [if ?c then _ else _] => destruct c eqn:? end; rb; change (num NR) with R in *; lra. Qed.
Lemma radius_le (u v w M : R) : Rabs u <= M -> Rabs v <= M -> Rabs w <= M -> @fmin_radius NR u v w <= M.
Proof. intros. unfold fmin_radius. cbn [nabs nlt NumR]. destruct (Rlt_bool (Rabs u) (Rabs v)) eqn:?; match goal with |- context [if ?c then _ else _] => destruct c eqn:? end; rb; change (num NR) with R in *; lra. Qed.

(** Once there is a bracket which does not contain zero, the interval is reduced until the precision is reached. *)
Lemma reduce_converges prec m c d : 0 <= prec -> 0 < m -> (m <= c \/ d <= - m) ->
  forall k s maxeval, golden s -> between (fu_x s) (fv_x s) (fw_x s) -> c <= fu_x s <= d -> c <= fw_x s <= d ->
  Rabs (fw_x s - fu_x s) * 0.63 ^ k <= prec * m ->
  exists st s', fmin_reduce f (Datatypes.S k) maxeval prec s = Done st s'.
Proof.
  intros Hp Hm Hcd. induction k as [|k IH]; intros s maxeval HG HB Hu Hw Hk; rewrite reduce_S.
  - assert (HC : conv (N := NR) prec s = true).
    { unfold conv, fmin_converged. cbn [nle nabs nsub nmul NumR]. apply Rle_bool_true.
      pose proof (radius_ge (fu_x s) (fv_x s) (fw_x s)) as (R1 & R2 & R3).
      destruct HG as (r & q & Hr & _ & _ & E). rewrite E, Rabs_mult, (Rabs_right r) by lra.
      assert (m <= Rabs (fu_x s)). { destruct Hcd; [rewrite Rabs_right|rewrite Rabs_left]; change (num NR) with R in *; lra. }
      set (z := Rabs (fw_x s - fu_x s)) in *. assert (0 <= z) by apply Rabs_pos. cbn in Hk. change (num NR) with R in *. 
      assert (r * z <= prec * m) by nra. assert (prec * m <= prec * fmin_radius (N := NR) (fu_x s) (fv_x s) (fw_x s)) by (apply Rmult_le_compat_l; lra). lra. }
    rewrite HC. eauto.
  - destruct (conv (N := NR) prec s); [eauto|]. destruct (spent maxeval s); [eauto|].
    destruct (shrink_spec s HG HB) as (G1 & G2 & G3). destruct (G3 c d Hu Hw) as (U1 & V1 & W1).
    apply IH; auto.
    + clear - HB. pose proof alpha_bounds as A. unfold shrink, fmin_update, between in *. set (x := trial s).
      assert (Ex : x = alpha * (fw_x s - fv_x s) + fv_x s) by reflexivity.
      match goal with |- context [if ?c then _ else _] => destruct c end; cbn [fu_x fv_x fw_x]; rewrite Ex.
      * destruct HB; [right|left]; split; try lra; nra.
      * destruct HB; [left|right]; split; try lra; nra.
    + assert (HK0 : 0 < 0.63 ^ k) by (apply pow_lt; lra). cbn [pow] in Hk.
      eapply Rle_trans; [|exact Hk]. set (z := 0.63 ^ k) in *. rewrite <- Rmult_assoc. apply Rmult_le_compat_r; [apply Rlt_le, HK0|].
      rewrite (Rmult_comm _ 0.63). exact G2.
Qed.
End Real.

(** ** A function for which the precision is never reached *)
Section Never.
Variables H I : R.
Notation NR := (NumR H I).

(** f(x) = |x|, from the interval [-1,1] *)
Definition vee (x : NR) : NR := Rabs x.
Definition around (s : fm NR) : Prop :=
  golden H I s /\ between (fu_x s) (fv_x s) (fw_x s) /\ fv_f s = Rabs (fv_x s) /\
  between (fu_x s) 0 (fw_x s).

Lemma around_shrink s : around s -> around (shrink vee s).
Proof.
  pose proof (alpha_bounds H I) as A. intros (HG & HB & Ev & HP).
  destruct (shrink_spec H I vee s HG HB) as (G1 & _ & _). split; [exact G1|].
  unfold shrink, fmin_update. set (x := trial s). assert (Ex : x = alpha H I * (fw_x s - fv_x s) + fv_x s) by reflexivity.
  assert (Bx : between (fv_x s) x (fw_x s)).
  { rewrite Ex. unfold between in *. destruct HB; [left|right]; split; nra. }
  clearbody x. clear Ex A G1 HG.
  destruct (_ || _) eqn:E; cbn [fu_x fv_x fw_x fv_f].
  - assert (L : Rabs (fv_x s) <= Rabs x).
    { rewrite <- Ev. apply orb_prop in E. destruct E as [E|E]; [|apply andb_prop in E; destruct E as [E _]]; cbn [nlt neq NumR] in E; unfold vee in E; rb; change (num NR) with R in *; lra. }
    split; [unfold between in *; lra|]. split; [exact Ev|].
    unfold between in *. revert L. unfold Rabs. change (num NR) with R in *. destruct (Rcase_abs (fv_x s)), (Rcase_abs x); intros; destruct HB, HP; try (exfalso; lra); lra.
  - assert (L : Rabs x <= Rabs (fv_x s)).
    { rewrite <- Ev. apply orb_false_elim in E. destruct E as [E _]. cbn [nlt neq NumR] in E; unfold vee in E; rb; change (num NR) with R in *; lra. }
    split; [unfold between in *; lra|]. split; [reflexivity|].
    unfold between in *. revert L. unfold Rabs. change (num NR) with R in *. destruct (Rcase_abs (fv_x s)), (Rcase_abs x); intros; destruct HB, HP; try (exfalso; lra); lra.
Qed.
Lemma around_runs prec s : prec < 0.6 -> around s -> conv (N := NR) prec s = false.
Proof.
  intros Hp ((r & q & Hr & _ & _ & E) & HB & _ & HP). unfold conv, fmin_converged. cbn [nle nabs nsub nmul NumR].
  apply Rle_bool_false. rewrite E, Rabs_mult, (Rabs_right r) by lra.
  set (z := Rabs (fw_x s - fu_x s)). assert (Hz : 0 < z). { apply Rabs_pos_lt. unfold between in HB. change (num NR) with R in *; lra. }
  assert (HM : fmin_radius (N := NR) (fu_x s) (fv_x s) (fw_x s) <= z).
  { unfold between in HB, HP. change (num NR) with R in *. apply radius_le; unfold z, Rabs; repeat destruct Rcase_abs; destruct HB, HP; lra. }
  destruct (radius_ge H I (fu_x s) (fv_x s) (fw_x s)) as [R1 _]. pose proof (Rabs_pos (fu_x s)). change (num NR) with R in *.
  destruct (Rle_lt_dec prec 0); nra.
Qed.
Lemma vee_never prec maxeval : prec < 0.6 -> (maxeval <= 0)%Z -> forall fuel s, around s ->
  exists s', fmin_reduce vee fuel maxeval prec s = Running s' /\ f_nevals s' = (f_nevals s + Z.of_nat fuel)%Z.
Proof.
  intros Hp Hm. induction fuel as [|fuel IH]; intros s Hs; [exists s; split; [reflexivity | lia]|].
  rewrite reduce_S, around_runs by assumption. unfold spent. rewrite Z.gtb_ltb. destruct (Z.ltb_spec 0 maxeval); [lia|]. cbn [andb].
  destruct (IH (shrink vee s) (around_shrink s Hs)) as (s' & -> & Hn). exists s'. split; [reflexivity|]. rewrite Hn.
  unfold shrink, fmin_update. destruct (_ || _); cbn [f_nevals]; lia.
Qed.
End Never.
