(** * gqtpar.c: the properties of OPK_GQT and OPK_ESTSV *)
From Coq Require Import ZArith Reals List Bool Lia Lra.
From Flocq Require Import Core.
From Verif Require Import Base Num NumFacts OrdFacts LaModel LaLoops LaSpec LaMem LaBlas1 LaBlas1R LaTri2 LaChol LaProps LcgSpec LcgVec
  GqModel GqSafe GqRun GqEst GqVec GqReal.
Import ListNotations.
Local Open Scope Z_scope.

(** ** The memory of the caller *)

(** The arrays of a call: the [n] columns of the matrix and five vectors of [n] elements without a common element *)
Definition gq_layout (n a lda b x z wa1 wa2 : Z) : Prop :=
  (forall v, In v [b; x; z; wa1; wa2] -> forall i j k, 0 <= i < n -> 0 <= j < n -> 0 <= k < n -> entry a lda i j <> v + k) /\
  ForallOrdPairs (fun v w => forall i j, 0 <= i < n -> 0 <= j < n -> v + i <> w + j) [b; x; z; wa1; wa2].

Definition gq_present {N : Num} (n a lda b x z wa1 wa2 : Z) (M : Z -> option N) : Prop :=
  (forall i j, 0 <= i < n -> 0 <= j < n -> M (entry a lda i j) <> None) /\
  (forall v, In v [b; x; z; wa1; wa2] -> forall k, 0 <= k < n -> M (v + k) <> None).

(** [p] is an element of the matrix or of one of the vectors that are modified *)
Definition gq_modified (n a lda x z wa1 wa2 p : Z) : Prop :=
  (exists i j, 0 <= i < n /\ 0 <= j < n /\ p = entry a lda i j) \/
  (exists v k, In v [x; z; wa1; wa2] /\ 0 <= k < n /\ p = v + k).

Section Layout.
Variables (n a lda b x z wa1 wa2 : Z).
Hypothesis HL : gq_layout n a lda b x z wa1 wa2.

Lemma lay_m : forall v, In v [b; x; z; wa1; wa2] -> forall p, Mat n a lda p -> ~ V v n p.
Proof. intros v Hv p [i [j [Hi [Hj ->]]]] [k [Hk E]]. exact (proj1 HL v Hv i j k Hi Hj Hk E). Qed.

Lemma lay_v : forall v w, (forall i j, 0 <= i < n -> 0 <= j < n -> v + i <> w + j) -> forall p, V v n p -> ~ V w n p.
Proof. intros v w Ha p [i [Hi ->]] [j [Hj E]]. exact (Ha i j Hi Hj E). Qed.

Lemma lay_p :
  (forall p, V b n p -> ~ V x n p) /\ (forall p, V b n p -> ~ V z n p) /\ (forall p, V b n p -> ~ V wa1 n p) /\ (forall p, V b n p -> ~ V wa2 n p) /\
  (forall p, V x n p -> ~ V z n p) /\ (forall p, V x n p -> ~ V wa1 n p) /\ (forall p, V x n p -> ~ V wa2 n p) /\
  (forall p, V z n p -> ~ V wa1 n p) /\ (forall p, V z n p -> ~ V wa2 n p) /\ (forall p, V wa1 n p -> ~ V wa2 n p).
Proof.
  destruct HL as [_ P].
  assert (F : forall v l, ForallOrdPairs (fun v w => forall i j, 0 <= i < n -> 0 <= j < n -> v + i <> w + j) (v :: l) ->
     (forall w, In w l -> forall p, V v n p -> ~ V w n p) /\ ForallOrdPairs (fun v w => forall i j, 0 <= i < n -> 0 <= j < n -> v + i <> w + j) l).
  { intros v l Q. inversion Q as [|v' l' Q1 Q2]. subst. split; [|exact Q2]. intros w Hw. apply lay_v. rewrite Forall_forall in Q1. apply Q1, Hw. }
  destruct (F _ _ P) as [P1 P']. destruct (F _ _ P') as [P2 P'']. destruct (F _ _ P'') as [P3 P4]. destruct (F _ _ P4) as [P5 _].
  repeat match goal with |- _ /\ _ => split end;
    first [apply P1; cbn; tauto | apply P2; cbn; tauto | apply P3; cbn; tauto | apply P5; cbn; tauto].
Qed.

Lemma lay_d : forall (N : Num) (M : Z -> option N), gq_present n a lda b x z wa1 wa2 M -> dom M (All n a lda b x z wa1 wa2).
Proof.
  intros N M [P1 P2] p Hp. unfold All in Hp.
  destruct Hp as [[i [j [Hi [Hj ->]]]]|Hp]; [apply P1; assumption|].
  repeat match type of Hp with _ \/ _ => destruct Hp as [Hp|Hp] end; destruct Hp as [k [Hk ->]]; apply P2; cbn; tauto.
Qed.
End Layout.

(** ** C66: the calls of OPK_GQT *)

(** For every arithmetic: only elements of the arrays are read, only elements of [a], [x], [z], [wa1], [wa2] are
    modified; the iterations end, at most after [max(1,itmax)] of them; the result is 1, 2, 3 or 4, it is 4
    only if there have been [max(1,itmax)] iterations; then the array [a] is the full symmetric matrix. *)
Theorem C66_gqt : forall (N : Num) n a lda b (delta rtol atol : N) itmax x z wa1 wa2 par fuel M,
  1 <= n <= lda -> gq_layout n a lda b x z wa1 wa2 -> gq_present n a lda b x z wa1 wa2 M ->
  exists o M', gqt n a lda b delta rtol atol itmax x z wa1 wa2 par fuel M = Some (o, M') /\
    (forall p, ~ gq_modified n a lda x z wa1 wa2 p -> M' p = M p) /\
    match o with
    | inl r => 1 <= r_iter r <= Z.max 1 itmax /\ 1 <= r_info r <= 4 /\ (r_info r = 4 -> r_iter r = Z.max 1 itmax) /\
               (forall i j, 0 <= i <= j -> j < n -> M' (entry a lda i j) = M (entry a lda i j) /\ M' (entry a lda j i) = M (entry a lda i j))
    | inr _ => Z.of_nat fuel < Z.max 1 itmax
    end.
Proof.
  intros N n a lda b delta rtol atol itmax x z wa1 wa2 par fuel M Hn HL HP.
  assert (Lm := lay_m _ _ _ _ _ _ _ _ HL).
  destruct (lay_p _ _ _ _ _ _ _ _ HL) as [L1 [L2 [L3 [L4 [L5 [L6 [L7 [L8 [L9 L10]]]]]]]]].
  destruct (gqt_run n a lda b delta rtol atol itmax x z wa1 wa2 Hn
    (Lm b ltac:(cbn; tauto)) (Lm x ltac:(cbn; tauto)) (Lm z ltac:(cbn; tauto)) (Lm wa1 ltac:(cbn; tauto)) (Lm wa2 ltac:(cbn; tauto))
    L1 L2 L3 L4 L5 L6 L7 L8 L10 par fuel M (lay_d _ _ _ _ _ _ _ _ _ _ HP)) as [o [M' [E [F1 [F2 F3]]]]].
  exists o, M'. split; [exact E|]. split.
  - intros p Hp. apply F1.
    + intros Hm. apply Hp. left. destruct Hm as [i [j [Hi [Hj Ep]]]]. exists i, j. auto.
    + intros [k [Hk Ep]]. apply Hp. right. exists x, k. split; [cbn; tauto|]. split; assumption.
    + intros [k [Hk Ep]]. apply Hp. right. exists z, k. split; [cbn; tauto|]. split; assumption.
    + intros [k [Hk Ep]]. apply Hp. right. exists wa1, k. split; [cbn; tauto|]. split; assumption.
    + intros [k [Hk Ep]]. apply Hp. right. exists wa2, k. split; [cbn; tauto|]. split; assumption.
  - destruct o as [r|v]; [|exact F3]. destruct F3 as [H1 [H2 [H3 [H4 H5]]]]. split; [exact H1|]. split; [exact H2|]. split; [exact H3|].
    intros i j Hi Hj. split; [apply H4; assumption|apply H5; assumption].
Qed.

Theorem C66_ends : forall (N : Num) n a lda b (delta rtol atol : N) itmax x z wa1 wa2 par M,
  1 <= n <= lda -> gq_layout n a lda b x z wa1 wa2 -> gq_present n a lda b x z wa1 wa2 M ->
  exists r M', gqt n a lda b delta rtol atol itmax x z wa1 wa2 par (Z.to_nat (Z.max 1 itmax)) M = Some (inl r, M') /\
    1 <= r_info r <= 4 /\ 1 <= r_iter r <= Z.max 1 itmax.
Proof.
  intros N n a lda b delta rtol atol itmax x z wa1 wa2 par M Hn HL HP.
  destruct (C66_gqt N n a lda b delta rtol atol itmax x z wa1 wa2 par (Z.to_nat (Z.max 1 itmax)) M Hn HL HP) as [o [M' [E [_ P]]]].
  destruct o as [r|v]; [|lia]. exists r, M'. split; [exact E|]. split; apply P.
Qed.

Print Assumptions C66_gqt.
Print Assumptions C66_ends.

(** Examples: the arrays of a call with [n = 3] *)
Definition gq_mem (l : list Z) (q : positive) {N : Num} : Z -> option N := win 0 24 (fun p => nQ (nth (Z.to_nat p) l 0) q).

Lemma gq_mem_layout : forall n lda, 1 <= n <= 3 -> n <= lda <= 3 -> gq_layout n 0 lda 9 12 15 18 21.
Proof.
  intros n lda H1 H2. split.
  - intros v Hv i j k Hi Hj Hk. unfold entry. cbn in Hv. assert (lda * j <= 3 * 2) by nia. intuition lia.
  - repeat constructor; intros; lia.
Qed.

Lemma gq_mem_present : forall (N : Num) l q n lda, 1 <= n <= 3 -> n <= lda <= 3 -> gq_present n 0 lda 9 12 15 18 21 (gq_mem l q (N := N)).
Proof.
  intros N l q n lda H1 H2. split.
  - intros i j Hi Hj. unfold gq_mem. rewrite win_in; [discriminate|]. unfold entry. assert (0 <= lda * j <= 3 * 2) by nia. lia.
  - intros v Hv k Hk. unfold gq_mem. rewrite win_in; [discriminate|]. cbn in Hv. intuition lia.
Qed.

Definition gq_ex1 : option ((@gresult NumD + @gvars NumD) * (Z -> option NumD)) :=
  gqt 3 0 3 9 (nZ 1) (nQ 1 1000) (nZ 0) 10 12 15 18 21 (nZ 0) 10 (gq_mem [0;7;7; 1;0;7; 0;1;0; 1;0;0] 1).
Definition gq_is (M : Z -> option NumD) (p : Z) (v : NumD) : bool := match M p with Some w => neq w v | None => false end.

Example C66_example : match gq_ex1 with
  | Some (inl r, M') => (r_info r =? 1) && (r_iter r =? 6) && gq_is M' 1 (nZ 1) && gq_is M' 2 (nZ 0) && gq_is M' 3 (nZ 1)
  | _ => false
  end = true.
Proof. vm_compute. reflexivity. Qed.

(** [n] is not checked: with [n = 0] an element of [a] is read *)
Definition gq_ex0 : option ((@gresult NumD + @gvars NumD) * (Z -> option NumD)) :=
  gqt 0 0 1 0 (nZ 1) (nQ 1 1000) (nZ 0) 10 0 0 0 0 (nZ 0) 10 (fun _ => None).
Theorem C66_empty_refuted : gq_present (N := NumD) 0 0 1 0 0 0 0 0 (fun _ => None) /\ gq_ex0 = None.
Proof.
  split; [split; intros; lia|].
  assert (Hb : (match gq_ex0 with None => true | Some _ => false end) = true) by (vm_compute; reflexivity).
  destruct gq_ex0; [discriminate|reflexivity].
Qed.
Print Assumptions C66_empty_refuted.

(** ** C67: the accuracy of OPK_GQT in exact arithmetic *)

(** The arguments: delta > 0, 0 <= rtol <= 1; the upper triangle of [a] is the one of the symmetric matrix A *)
Theorem C67_gqt : forall (H I : R) n a lda b (delta rtol atol : R) itmax x z wa1 wa2 par fuel (A : Z -> Z -> R) (B : Z -> R) (M : Z -> option (NumR H I)),
  1 <= n <= lda -> gq_layout n a lda b x z wa1 wa2 -> gq_present n a lda b x z wa1 wa2 M ->
  (0 < delta)%R -> (0 <= rtol <= 1)%R -> symmetric n A ->
  (forall i j, 0 <= i <= j -> j < n -> M (entry a lda i j) = Some (A i j)) ->
  (forall i, 0 <= i < n -> M (b + i) = Some (B i)) ->
  forall r M', gqt (N := NumR H I) n a lda b delta rtol atol itmax x z wa1 wa2 par fuel M = Some (inl r, M') ->
  exists X : Z -> R, (forall i, 0 <= i < n -> M' (x + i) = Some (X i)) /\
    (* f(x) and the multiplier *)
    r_f r = qval n A B X /\ (r_f r <= 0)%R /\ (0 <= r_par r)%R /\
    (* the relative accuracy *)
    (r_info r = 1 -> (norm n X <= (1 + rtol) * delta)%R /\
       ((exists i, 0 <= i < n /\ B i <> 0%R) -> forall y, (norm n y <= delta)%R -> (qval n A B X <= (1 - rtol) ^ 2 * qval n A B y)%R)) /\
    (* the absolute accuracy *)
    (r_info r = 2 -> (0 <= atol)%R -> (norm n X <= (1 + rtol) * delta)%R /\ (- qval n A B X <= atol)%R /\
       forall y, (norm n y <= delta)%R -> (- qval n A B y <= atol)%R).
Proof.
  intros H I n a lda b delta rtol atol itmax x z wa1 wa2 par fuel A B M Hn HL HP Hd Hr HA HU HB r M' E.
  assert (Lm := lay_m _ _ _ _ _ _ _ _ HL).
  destruct (lay_p _ _ _ _ _ _ _ _ HL) as [L1 [L2 [L3 [L4 [L5 [L6 [L7 [L8 [L9 L10]]]]]]]]].
  destruct (gqt_ok H I n a lda b delta rtol atol itmax x z wa1 wa2 A B Hn Hd Hr HA
    (Lm b ltac:(cbn; tauto)) (Lm x ltac:(cbn; tauto)) (Lm z ltac:(cbn; tauto)) (Lm wa1 ltac:(cbn; tauto)) (Lm wa2 ltac:(cbn; tauto))
    L1 L2 L3 L4 L5 L6 L7 L8 L9 L10 par fuel M (lay_d _ _ _ _ _ _ _ _ _ _ HP) HU HB) as [o [M2 [E2 P]]].
  rewrite E in E2. injection E2 as <- <-. destruct P as [X [P1 [P2 [P3 [P4 [P5 P6]]]]]].
  exists X. split; [exact P1|]. split; [exact P2|]. split; [exact P4|]. split; [exact P3|]. split.
  - intros H1. destruct (P5 H1) as [Q1 Q2]. split; [exact Q1|]. intros Hb y Hy. destruct (Q2 Hb) as [_ Q3].
    replace ((1 - rtol) ^ 2)%R with ((1 - rtol) * (1 - rtol))%R by ring. exact (Q3 y Hy).
  - exact P6.
Qed.
Print Assumptions C67_gqt.

(** The hypotheses hold for a matrix that is not positive definite; the call ends *)
Definition gq_A (i j : Z) : R := if i =? j then (-2)%R else 1%R.
Definition gq_B (i : Z) : R := if i =? 0 then 1%R else (-1)%R.
Example C67_example : exists r M',
  gqt (N := NumR 1 0) 2 0 2 9 1%R (1 / 10)%R 0%R 30 12 15 18 21 0%R 30 (gq_mem [-2;7;1;-2; 0;0;0;0;0; 1;-1;0] 1) = Some (inl r, M') /\
  exists X : Z -> R, (forall i, 0 <= i < 2 -> M' (12 + i) = Some (X i)) /\ r_f r = qval 2 gq_A gq_B X /\
    (r_info r = 1 -> forall y, (norm 2 y <= 1)%R -> (qval 2 gq_A gq_B X <= (1 - 1 / 10) ^ 2 * qval 2 gq_A gq_B y)%R).
Proof.
  set (M := gq_mem [-2;7;1;-2; 0;0;0;0;0; 1;-1;0] 1).
  destruct (C66_ends (NumR 1 0) 2 0 2 9 1%R (1 / 10)%R 0%R 30 12 15 18 21 0%R M) as [r [M' [E _]]];
    [lia|apply gq_mem_layout; lia|apply gq_mem_present; lia|].
  exists r, M'. split; [exact E|].
  destruct (C67_gqt 1 0 2 0 2 9 1%R (1 / 10)%R 0%R 30 12 15 18 21 0%R 30 gq_A gq_B M) with (r := r) (M' := M') as [X [P1 [P2 [_ [_ [P3 _]]]]]];
    [lia|apply gq_mem_layout; lia|apply gq_mem_present; lia|lra|lra| | | |exact E|].
  - intros i j Hi Hj. unfold gq_A. rewrite (Z.eqb_sym j i). reflexivity.
  - intros i j Hi Hj. unfold M, gq_mem. assert (Hc : (i = 0 \/ i = 1) /\ (j = 0 \/ j = 1)) by lia.
    destruct Hc as [[-> | ->] [-> | ->]]; try lia; unfold entry; rewrite win_in by lia; apply f_equal; unfold gq_A; cbn [nQ NumR];
      match goal with |- ?u = ?v => let u' := eval cbv - [IZR Rdiv] in u in let v' := eval cbv - [IZR Rdiv] in v in change (u' = v') end; field.
  - intros i Hi. unfold M, gq_mem. assert (Hc : i = 0 \/ i = 1) by lia. destruct Hc as [-> | ->]; rewrite win_in by lia; apply f_equal; unfold gq_B; cbn [nQ NumR];
      match goal with |- ?u = ?v => let u' := eval cbv - [IZR Rdiv] in u in let v' := eval cbv - [IZR Rdiv] in v in change (u' = v') end; field.
  - exists X. split; [exact P1|]. split; [exact P2|]. intros H1. apply (P3 H1). exists 0. split; [lia|]. unfold gq_B. cbn. lra.
Qed.

(** *** What the documentation says that is false *)

(** f at the point (y1, y2, y3) and its norm, computed in double precision *)
Definition gq_f3 (y1 y2 y3 : NumD) : NumD := (y1 * y2 + y2 * y3)%num.

(** With [b = 0] the relative accuracy is not the requested one when 1 is returned (gqtpar.c 234-236):
    A = (0 1 0; 1 0 1; 0 1 0), rtol = 1/10000; y = (1/2, -181/256, 1/2) is in the region and f(x) > (1 - rtol)^2 f(y) *)
Definition gq_ex2 : option ((@gresult NumD + @gvars NumD) * (Z -> option NumD)) :=
  gqt 3 0 3 9 (nZ 1) (nQ 1 10000) (nZ 0) 10 12 15 18 21 (nZ 2) 10 (gq_mem [0;1;0; 1;0;1; 0;1;0; 0;0;0] 1).
Definition gq_bad2 (r : @gresult NumD) : bool :=
  nlt ((nZ 1 - nQ 1 10000) * (nZ 1 - nQ 1 10000) * gq_f3 (nQ 1 2) (nQ (-181) 256) (nQ 1 2))%num (r_f r).

Theorem C67_zero_refuted : exists r M', gq_ex2 = Some (inl r, M') /\ r_info r = 1 /\ gq_bad2 r = true /\
  nle (nQ 1 2 * nQ 1 2 + nQ 181 256 * nQ 181 256 + nQ 1 2 * nQ 1 2)%num (nZ 1 : NumD) = true.
Proof.
  assert (Hb : (match gq_ex2 with Some (inl r, _) => (r_info r =? 1) && gq_bad2 r | _ => false end) = true) by (vm_compute; reflexivity).
  destruct gq_ex2 as [[[r|v] M']|]; try discriminate. apply andb_prop in Hb. destruct Hb as [H1 H2]. apply Z.eqb_eq in H1.
  exists r, M'. split; [reflexivity|]. split; [exact H1|]. split; [exact H2|]. vm_compute. reflexivity.
Qed.
Print Assumptions C67_zero_refuted.

(** A positive multiplier with 1 as result does not imply |norm(x) - delta| <= rtol*delta:
    A = diag(1/100, 1), b = (0, 1/2), delta = 1, rtol = 1/50, par = 1/1000000: norm(x) is about 1/2 *)
Definition gq_ex3 : option ((@gresult NumD + @gvars NumD) * (Z -> option NumD)) :=
  gqt 2 0 2 9 (nZ 1) (nQ 1 50) (nZ 0) 20 12 15 18 21 (nQ 1 1000000) 20 (gq_mem [1;0;0;100; 0;0;0;0;0; 0;50;0] 100).
Definition gq_small (M : Z -> option NumD) : bool :=
  match M 12, M 13 with Some x1, Some x2 => nlt (x1 * x1 + x2 * x2)%num (nQ 26 100 : NumD) | _, _ => false end.

Theorem C67_multiplier_refuted : exists r M', gq_ex3 = Some (inl r, M') /\ r_info r = 1 /\ nlt (nZ 0) (r_par r) = true /\ gq_small M' = true.
Proof.
  assert (Hb : (match gq_ex3 with Some (inl r, M') => (r_info r =? 1) && (nlt (nZ 0) (r_par r) && gq_small M') | _ => false end) = true)
    by (vm_compute; reflexivity).
  destruct gq_ex3 as [[[r|v] M']|]; try discriminate. apply andb_prop in Hb. destruct Hb as [H1 H2]. apply andb_prop in H2. apply Z.eqb_eq in H1.
  exists r, M'. tauto.
Qed.
Print Assumptions C67_multiplier_refuted.

(** After [itmax] iterations the result may be outside of the region: A = diag(1/10, 1), b = (1/2, 0), delta = 1, itmax = 1 *)
Definition gq_ex4 : option ((@gresult NumD + @gvars NumD) * (Z -> option NumD)) :=
  gqt 2 0 2 9 (nZ 1) (nQ 1 50) (nZ 0) 1 12 15 18 21 (nZ 0) 1 (gq_mem [10;0;0;100; 0;0;0;0;0; 50;0;0] 100).
Definition gq_far (M : Z -> option NumD) : bool := match M 12 with Some x1 => nlt x1 (nQ (-49) 10) | None => false end.

Theorem C67_limit_refuted : exists r M', gq_ex4 = Some (inl r, M') /\ r_info r = 4 /\ gq_far M' = true.
Proof.
  assert (Hb : (match gq_ex4 with Some (inl r, M') => (r_info r =? 4) && gq_far M' | _ => false end) = true) by (vm_compute; reflexivity).
  destruct gq_ex4 as [[[r|v] M']|]; try discriminate. apply andb_prop in Hb. destruct Hb as [H1 H2]. apply Z.eqb_eq in H1.
  exists r, M'. tauto.
Qed.
Print Assumptions C67_limit_refuted.

(** ** C68: OPK_ESTSV *)

(** In exact arithmetic, for every upper triangular matrix R, singular or not: z has norm 1 and the result is the norm of R z *)
Theorem C68_estsv : forall (H I : R) n r ldr z (A : Z -> Z -> R) (M : Z -> option (NumR H I)),
  1 <= n <= ldr -> (forall i j k, 0 <= i <= j -> j < n -> 0 <= k < n -> entry r ldr i j <> z + k) ->
  (forall i j, 0 <= i <= j -> j < n -> M (entry r ldr i j) = Some (A i j)) ->
  (forall k, 0 <= k < n -> M (z + k) <> None) ->
  exists s M' F, estsv (N := NumR H I) n r ldr z M = Some (s, M') /\
    (forall k, 0 <= k < n -> M' (z + k) = Some (F k)) /\
    (forall p, (forall k, 0 <= k < n -> p <> z + k) -> M' p = M p) /\
    norm n F = 1%R /\ s = norm n (mulv n (fun i j => if i <=? j then A i j else 0%R) F).
Proof.
  intros H I n r ldr z A M Hn Ha HU Hz.
  assert (Xz : forall p, Up r ldr n p -> ~ V z n p).
  { intros p [i [j [Hi [Hj ->]]]] [k [Hk E]]. exact (Ha i j k Hi Hj Hk E). }
  destruct (estsv_exact H I n r ldr z A Hn Xz M HU Hz) as [s [M' [F [E [K [VF [NF SF]]]]]]].
  exists s, M', F. split; [exact E|]. split; [exact VF|]. split.
  - intros p Hp. apply (proj1 K). intros [k [Hk Ep]]. exact (Hp k Hk Ep).
  - split; [exact NF|]. rewrite SF. apply norm_ext. intros i Hi. unfold mulv. apply sumz_ext. intros j Hj. f_equal.
    unfold tri_mat. destruct (Z.eqb_spec i j) as [->|Hne]; [rewrite Z.leb_refl|]; cbn; try reflexivity.
    destruct (Z.leb_spec i j); destruct (Z.ltb_spec i j); try reflexivity; lia.
Qed.
Print Assumptions C68_estsv.

(** For a positive definite matrix this is an upper bound of the smallest singular value: it is the norm of R z at a unit vector.
    Example: R = (2 1; 0 1/2) in exact arithmetic, and the value in double precision *)
Example C68_example : exists s M' F, estsv (N := NumR 1 0) 2 0 2 9 (gq_mem [4;0;2;1] 2) = Some (s, M') /\
  norm 2 F = 1%R /\ (forall k, 0 <= k < 2 -> M' (9 + k) = Some (F k)).
Proof.
  destruct (C68_estsv 1 0 2 0 2 9 (fun i j => (IZR (nth (Z.to_nat (0 + (i + 2 * j))) [4;0;2;1] 0)%Z / 2)%R) (gq_mem [4;0;2;1] 2)) as [s [M' [F [E [VF [_ [NF _]]]]]]].
  - lia.
  - intros i j k Hi Hj Hk. unfold entry. lia.
  - intros i j Hi Hj. unfold gq_mem, entry. rewrite win_in by lia. reflexivity.
  - intros k Hk. unfold gq_mem. rewrite win_in by lia. discriminate.
  - exists s, M', F. auto.
Qed.

Example C68_example_double :
  match estsv (N := NumD) 2 0 2 9 (gq_mem [4;0;2;1] 2) with
  | Some (s, _) => nlt (nQ 4 10) s && nlt s (nQ 45 100)
  | None => false
  end = true.
Proof. vm_compute. reflexivity. Qed.
