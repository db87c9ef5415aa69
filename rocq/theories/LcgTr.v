(** * Executions of OPK_TRCG in exact arithmetic *)
From Coq Require Import ZArith Reals List Bool Lia Lra.
From Flocq Require Import Core.
From Verif Require Import Base Num NumFacts OrdFacts LaModel LaLoops LaSpec LaMem LaBlas1 LaBlas1R LaBlas2
  LcgModel LcgSpec LcgVec LcgCalls LcgRun.
Import ListNotations.
Local Open Scope Z_scope.

Lemma norm_ext : forall n u v, same n u v -> norm n u = norm n v.
Proof. intros n u v E. unfold norm. f_equal. apply dotp_ext; exact E. Qed.

Lemma norm_sq : forall n u, (norm n u * norm n u = dotp n u u)%R.
Proof. intros n u. apply sqrt_sqrt. apply dotp_sq. Qed.

Lemma norm_nonneg : forall n u, (0 <= norm n u)%R.
Proof. intros n u. apply sqrt_pos. Qed.

Lemma norm_along : forall n X P (t : R),
  dotp n (fun i => X i + t * P i)%R (fun i => X i + t * P i)%R = (dotp n P P * t * t + 2 * dotp n X P * t + dotp n X X)%R.
Proof.
  intros n X P t. rewrite dotp_lin_l, !dotp_lin_r. rewrite (dotp_comm n P X). ring.
Qed.

Section Run.
Variables H I : R.
Notation NR := (NumR H I).
Notation mem := (Z -> option NR).
Notation has := (has_vec (N := NR)).
Notation result := (@result NR).
Variables (n p q r x : Z) (z : option Z) (A : Z -> Z -> R) (b : Z -> R) (delta : R).
Hypothesis Hn : 0 <= n.
Hypothesis Hap : arrays_apart n p q r x z.
Hypothesis Hdelta : (0 < delta)%R.
Hypothesis SA : symmetric n A.
Notation contents := (contents H I n p q r x).
Notation call := (trcg (N := NR) n p q r x z delta).
Notation Av := (mulv n A).

Ltac aps := unfold arrays_apart in Hap; destruct Hap as [Apq [Apr [Apx [Aqr [Aqx [Arx Az]]]]]].

Lemma scal1 : forall (a : R) u (M : mem) (U : Z -> R), has M u n 1 U ->
  exists M', scal (N := NR) n a u 1 M = Some M' /\ has M' u n 1 (fun i => a * U i)%R /\ only_vec M M' u n 1.
Proof.
  intros a u M U HU. destruct (scal_spec (N := NR) n a u 1 M U ltac:(lia) HU) as [M' [E [B F]]].
  exists M'. split; [exact E|]. split; [|exact F]. intros i Hi. rewrite (B i Hi). f_equal. apply scal_elt_exact.
Qed.

Lemma nrm2_1 : forall u (M : mem) (U : Z -> R), has M u n 1 U -> nrm2 (N := NR) n u 1 M = Some (norm n U).
Proof. intros u M U HU. apply (nrm2_spec H I n u 1 M U ltac:(lia) HU). Qed.

(** ** Truncated step *)
Lemma call_trunc : forall (rho : @rhos NR) M P Q V X, contents M P Q V X -> rho4 rho = norm n X -> (norm n X < delta)%R ->
  (0 < dotp n P P)%R ->
  exists al M', truncated_step (N := NR) n p q r x delta rho M
    = Some (mkrho (N := NR) (rho1 rho) (rho1 rho) al (rho3 rho) delta, CG_TRUNCATED, M') /\
    (0 < al)%R /\ norm n (fun i => X i + al * P i)%R = delta /\
    (forall s, (0 < s)%R -> ((delta < norm n (fun i => X i + s * P i)%R)%R <-> (al < s)%R)) /\
    contents M' P Q (fun i => V i + - al * Q i)%R (fun i => X i + al * P i)%R.
Proof.
  intros rho M P Q V X C Hr4 Hx Hpp. pose proof C as [C1 [C2 [C3 C4]]].
  unfold truncated_step.
  rewrite (dot1 H I n p p M P P C1 C1), (dot1 H I n x p M X P C4 C1). unfold ZERO. nrg.
  destruct (Rle_bool_spec (dotp n P P) 0) as [L|_]; [lra|].
  set (c := ((rho4 rho + delta) * (rho4 rho - delta))%R).
  assert (Ec : c = (dotp n X X - delta * delta)%R).
  { unfold c. rewrite Hr4. rewrite <- norm_sq. ring. }
  assert (Hc : (c < 0)%R).
  { rewrite Ec, <- norm_sq. pose proof (norm_nonneg n X). nra. }
  change ((rho4 rho + delta) * (rho4 rho - delta))%R with c.
  destruct (Rle_bool_spec 0 c) as [L|_]; [lra|].
  destruct (root_spec H I (dotp n P P) (dotp n X P) c Hpp Hc) as [al [Er [Hal Eal]]]. rewrite Er.
  rewrite (Rlt_bool_true 0 al) by exact Hal.
  destruct (axpy1 H I n al p x M P X C1 C4) as [M1 [E1 [B1 F1]]]; [aps; apply apart_sym; assumption|].
  pose proof (cont_x H I n p q r x z Hap M M1 P Q V X _ C B1 F1) as C'. pose proof C' as [D1 [D2 [D3 D4]]].
  destruct (axpy1 H I n (- al) q r M1 Q V D2 D3) as [M2 [E2 [B2 F2]]]; [aps; apply apart_sym; assumption|].
  exists al, M2. rewrite E1, E2. split; [reflexivity|]. split; [exact Hal|].
  assert (Enorm : dotp n (fun i => X i + al * P i)%R (fun i => X i + al * P i)%R = (delta * delta)%R).
  { rewrite norm_along. rewrite Ec in Eal. lra. }
  split. { unfold norm. rewrite Enorm. apply sqrt_square. lra. }
  split.
  { intros s Hs0. set (f := (dotp n P P * s * s + 2 * dotp n X P * s + c)%R).
    assert (Ef : (al * f = (s - al) * (dotp n P P * s * al - c))%R).
    { unfold f. replace (al * (dotp n P P * s * s + 2 * dotp n X P * s + c))%R
        with ((s - al) * (dotp n P P * s * al - c) + s * (dotp n P P * al * al + 2 * dotp n X P * al + c))%R by ring.
      rewrite Eal. ring. }
    assert (Hpsa : (0 < dotp n P P * s * al)%R) by (apply Rmult_lt_0_compat; [apply Rmult_lt_0_compat|]; assumption).
    assert (Enf : (norm n (fun i => X i + s * P i)%R * norm n (fun i => X i + s * P i)%R = f + delta * delta)%R).
    { rewrite norm_sq, norm_along. unfold f. lra. }
    pose proof (norm_nonneg n (fun i => X i + s * P i)%R) as Hnn.
    split; intros Hs.
    - destruct (Rlt_or_le al s) as [|Hle]; [assumption|exfalso].
      assert (Hf : (0 < f)%R) by nra.
      assert (0 < al * f)%R by (apply Rmult_lt_0_compat; assumption).
      assert (0 <= (al - s) * (dotp n P P * s * al - c))%R by (apply Rmult_le_pos; lra). lra.
    - assert (0 < (s - al) * (dotp n P P * s * al - c))%R by (apply Rmult_lt_0_compat; lra).
      assert (Hf : (0 < f)%R) by (apply (Rmult_lt_reg_l al); lra).
      nra. }
  apply (cont_r H I n p q r x z Hap M1 M2 P Q V _ _ C' B2 F2).
Qed.

(** ** Calls *)
Ltac go := unfold trcg, CG_START, CG_RESTART, CG_NEWX, CG_PRECOND, CG_AP, ZERO; nrg;
  rewrite (Rle_bool_false delta 0) by exact Hdelta; cbn [Z.eqb Pos.eqb].

Lemma call_step_tr : forall (rho : @rhos NR) M P Q V X, contents M P Q V X -> (0 < rho1 rho)%R ->
  rho4 rho = norm n X -> (norm n X < delta)%R -> dotp n P V = rho1 rho ->
  exists al st M', call rho CG_AP M = Some (mkrho (N := NR) (rho1 rho) (rho1 rho) al (rho3 rho) (norm n (fun i => X i + al * P i)%R), st, M') /\
    (0 < al)%R /\ ((0 < dotp n P Q)%R -> (al <= rho1 rho / dotp n P Q)%R) /\
    ((0 < dotp n P Q)%R /\ al = (rho1 rho / dotp n P Q)%R \/
     forall s, (0 <= s)%R -> (norm n (fun i => X i + s * P i)%R <= delta)%R -> (s <= al)%R) /\
    contents M' P Q (fun i => V i + - al * Q i)%R (fun i => X i + al * P i)%R /\
    (st = CG_NEWX /\ (norm n (fun i => X i + al * P i)%R < delta)%R /\ (0 < dotp n P Q)%R /\ al = (rho1 rho / dotp n P Q)%R \/
     st = CG_TRUNCATED /\ norm n (fun i => X i + al * P i)%R = delta).
Proof.
  intros rho M P Q V X C Hr1 Hr4 Hx Hpv. pose proof C as [C1 [C2 [C3 C4]]].
  assert (Hpp : (0 < dotp n P P)%R).
  { pose proof (dotp_sq n P). destruct (Req_dec (dotp n P P) 0) as [E|E]; [|lra].
    rewrite (dotp_zero_l n P V (dotp_sq_0 n P E)) in Hpv. lra. }
  go. rewrite Rlt_bool_true by exact Hr1. rewrite (dot1 H I n p q M P Q C1 C2).
  destruct (Rlt_bool_spec 0 (dotp n P Q)) as [Hpq|Hpq].
  - set (al := (rho1 rho / dotp n P Q)%R).
    assert (Hal : (0 < al)%R) by (apply Rdiv_lt_0_compat; assumption).
    change (rho1 rho / dotp n P Q)%R with al.
    destruct (Req_bool_spec al 0) as [L|_]; [lra|].
    rewrite (next_norm_spec H I n p x al M P X Hn C1 C4).
    change (sqrt (dotp n (fun i => X i + al * P i)%R (fun i => X i + al * P i)%R)) with (norm n (fun i => X i + al * P i)%R).
    destruct (Rle_bool_spec (norm n (fun i => X i + al * P i)%R) delta) as [Hle|Hgt].
    + destruct (axpy1 H I n al p x M P X C1 C4) as [M1 [E1 [B1 F1]]]; [aps; apply apart_sym; assumption|].
      pose proof (cont_x H I n p q r x z Hap M M1 P Q V X _ C B1 F1) as C'. pose proof C' as [D1 [D2 [D3 D4]]].
      destruct (axpy1 H I n (- al) q r M1 Q V D2 D3) as [M2 [E2 [B2 F2]]]; [aps; apply apart_sym; assumption|].
      exists al, (if Rlt_bool (norm n (fun i => X i + al * P i)%R) delta then CG_NEWX else CG_TRUNCATED), M2.
      rewrite E1, E2. cbn [rho0 rho1 rho2 rho3 rho4]. split; [reflexivity|]. split; [exact Hal|]. split; [intros _; lra|].
      split; [left; split; [exact Hpq|reflexivity]|].
      split; [apply (cont_r H I n p q r x z Hap M1 M2 P Q V _ _ C' B2 F2)|].
      destruct (Rlt_bool_spec (norm n (fun i => X i + al * P i)%R) delta) as [L|L].
      * left. split; [reflexivity|]. split; [exact L|]. split; [exact Hpq|reflexivity].
      * right. split; [reflexivity|]. lra.
    + destruct (call_trunc (mkrho (N := NR) (rho0 rho) (rho1 rho) al (rho3 rho) (rho4 rho)) M P Q V X C Hr4 Hx Hpp)
        as [a2 [M' [E [Ha2 [En [Hs C']]]]]].
      exists a2, CG_TRUNCATED, M'. cbn [rho0 rho1 rho2 rho3 rho4] in E. rewrite En. split; [exact E|].
      split; [exact Ha2|]. split; [intros _; apply Rlt_le, Hs; assumption|].
      split; [right; intros s Hs0 Hsd; destruct (Rle_or_lt s a2) as [|L]; [assumption|]; apply Hs in L; lra|]. split; [exact C'|]. right. split; reflexivity.
  - destruct (call_trunc rho M P Q V X C Hr4 Hx Hpp) as [a2 [M' [E [Ha2 [En [Hs C']]]]]].
    exists a2, CG_TRUNCATED, M'. rewrite En. split; [exact E|]. split; [exact Ha2|]. split; [intros L; lra|].
    split; [right; intros s Hs0 Hsd; destruct (Rle_or_lt s a2) as [|L]; [assumption|]; apply Hs in L; lra|].
    split; [exact C'|]. right. split; reflexivity.
Qed.

(** ** Invariant *)
Definition resid (V X : Z -> R) : Prop := same n V (fun i => b i - Av X i)%R.

Definition TInv (t : list result) : Prop :=
  match t with
  | [] => False
  | e :: _ =>
    let rho := rho_of e in
    let st := state_of e in
    exists P Q V X, contents (mem_of e) P Q V X /\ rho4 rho = norm n X /\
      (st = CG_AP /\ rho0 rho = 0%R /\ rho1 rho = 0%R /\ same n P X /\ same n V b /\ (norm n X < delta)%R
       \/ (st = CG_NEWX \/ st = CG_PRECOND /\ z <> None) /\ resid V X /\ (norm n X < delta)%R /\
          (rho0 rho = 0%R \/ (0 < rho0 rho)%R /\ dotp n P V = 0%R)
       \/ st = CG_AP /\ resid V X /\ (norm n X < delta)%R /\ (0 < rho1 rho)%R /\ dotp n P V = rho1 rho
       \/ st = CG_FINISH /\ resid V X /\ (norm n X < delta)%R /\ (z = None -> dotp n V V = 0%R)
       \/ st = CG_NON_CONVEX /\ resid V X /\ (norm n X < delta)%R /\ z <> None
       \/ st = CG_TRUNCATED /\ norm n X = delta /\ (resid V X \/ Forall (fun e => state_of e = CG_TRUNCATED) t))
  end.

Lemma first_inv_tr : forall (rho : @rhos NR) st M, st = CG_START \/ st = CG_RESTART -> cg_ready H I n p q r x z b M ->
  exists e, call rho st M = Some e /\ TInv [e].
Proof.
  intros rho st M Hst [[P HP] [[Q HQ] [HV [[X HX] _]]]].
  assert (C : contents M P Q b X) by (repeat split; assumption).
  destruct Hst as [->| ->].
  - destruct (zero1 H I n x M X) as [M' [E [B F]]]; [apply C|].
    eexists. split; [go; rewrite E; reflexivity|].
    exists P, Q, b, (fun _ => 0%R). split; [apply (cont_x H I n p q r x z Hap M M' P Q b X); assumption|].
    assert (E0 : norm n (fun _ => 0%R) = 0%R) by (unfold norm; rewrite dotp_zero_l by reflexivity; apply sqrt_0).
    split; [rewrite E0; reflexivity|]. right. left. split; [left; reflexivity|]. split.
    + intros i Hi. unfold mulv. rewrite sumz_zero; [ring|]. intros l _. ring.
    + rewrite E0. split; [exact Hdelta|left; reflexivity].
  - pose proof (nrm2_1 x M X HX) as En.
    destruct (Rle_or_lt delta (norm n X)) as [Hle|Hlt].
    + destruct (Rlt_or_le delta (norm n X)) as [Hlt|Hge].
      * destruct (scal1 (delta / norm n X)%R x M X HX) as [M' [E [B F]]].
        eexists. split.
        { go. rewrite En. rewrite (Rle_bool_true delta (norm n X)) by exact Hle. rewrite (Rlt_bool_true delta (norm n X)) by exact Hlt.
          rewrite E. reflexivity. }
        eexists P, Q, b, _. split; [apply (cont_x H I n p q r x z Hap M M' P Q b X _ C B F)|].
        assert (E1 : norm n (fun i => delta / norm n X * X i)%R = delta).
        { unfold norm at 1. rewrite dotp_scal_l, dotp_comm, dotp_scal_l, <- norm_sq.
          replace (delta / norm n X * (delta / norm n X * (norm n X * norm n X)))%R with (delta * delta)%R by (field; lra).
          apply sqrt_square. lra. }
        split; [rewrite E1; reflexivity|]. do 5 right. split; [reflexivity|]. split; [exact E1|]. right. repeat constructor.
      * eexists. split.
        { go. rewrite En. rewrite (Rle_bool_true delta (norm n X)) by exact Hle. rewrite (Rlt_bool_false delta (norm n X)) by exact Hge.
          reflexivity. }
        assert (E1 : norm n X = delta) by lra.
        exists P, Q, b, X. split; [exact C|]. split; [rewrite E1; reflexivity|]. do 5 right. split; [reflexivity|].
        split; [exact E1|]. right. repeat constructor.
    + destruct (copy1 H I n x p M X P) as [M' [E [B F]]]; [apply C|apply C|aps; assumption|].
      eexists. split.
      { go. rewrite En. rewrite (Rle_bool_false delta (norm n X)) by exact Hlt. rewrite E. reflexivity. }
      exists X, Q, b, X. split; [apply (cont_p H I n p q r x z Hap M M' P Q b X _ C B F)|]. split; [reflexivity|].
      left. repeat split; try reflexivity. exact Hlt.
Qed.

Lemma dir_inv_tr : forall zz (rho : @rhos NR) M P Q V X W t, contents M P Q V X -> has M zz n 1 W ->
  (z = None -> W = V) -> vec_apart zz n 1 p n 1 -> rho4 rho = norm n X -> resid V X -> (norm n X < delta)%R ->
  (rho0 rho = 0%R \/ (0 < rho0 rho)%R /\ dotp n P V = 0%R) ->
  exists rho' st M', direction (N := NR) n p r zz rho M = Some (rho', st, M') /\ TInv ((rho', st, M') :: t) /\ has M' x n 1 X.
Proof.
  intros zz rho M P Q V X W t C HW EW Hz Hr4 HR Hx Hr0.
  pose proof C as [C1 [C2 [C3 C4]]].
  destruct (direction_spec H I n p r zz rho M P V W Hn C1 C3 HW Hz)
    as [rho' [st [M' [E [R0 [R1 [R2 [R4 D]]]]]]]].
  exists rho', st, M'. split; [exact E|].
  destruct D as [[Hlt [-> ->]]|[[Hz0 [-> ->]]|[Hgt [-> [B [F Hbe]]]]]].
  - split; [|exact C4]. exists P, Q, V, X. unfold rho_of, state_of, mem_of. cbn [fst snd]. split; [exact C|]. split; [rewrite R4; exact Hr4|].
    do 4 right. left. split; [reflexivity|]. split; [exact HR|]. split; [exact Hx|]. intros Ez. rewrite (EW Ez) in Hlt.
    pose proof (dotp_sq n V). lra.
  - split; [|exact C4]. exists P, Q, V, X. unfold rho_of, state_of, mem_of. cbn [fst snd]. split; [exact C|]. split; [rewrite R4; exact Hr4|].
    do 3 right. left. split; [reflexivity|]. split; [exact HR|]. split; [exact Hx|]. intros Ez. rewrite (EW Ez) in Hz0. exact Hz0.
  - pose proof (cont_p H I n p q r x z Hap M M' P Q V X _ C B F) as C'. split; [|apply C'].
    eexists _, Q, V, X. unfold rho_of, state_of, mem_of. cbn [fst snd]. split; [exact C'|]. split; [rewrite R4; exact Hr4|].
    do 2 right. left. split; [reflexivity|]. split; [exact HR|]. split; [exact Hx|]. rewrite R1. split; [exact Hgt|].
    rewrite dotp_lin_l, (dotp_comm n W V). destruct Hbe as [[Hp Eb]|[Hp Eb]].
    + destruct Hr0 as [Hr0|[_ Hpv]]; [rewrite Hr0 in Hp; lra|]. rewrite Hpv. rring.
    + rewrite Eb. rring.
Qed.

Lemma step_best_core : forall (qx r1 pq al s : R), (0 < r1)%R -> (0 < al)%R -> (0 <= s)%R ->
  ((0 < pq)%R -> (al <= r1 / pq)%R) -> ((0 < pq)%R /\ al = (r1 / pq)%R \/ (s <= al)%R) ->
  (qx - al * r1 + al * al * pq / 2 <= qx - s * r1 + s * s * pq / 2)%R.
Proof.
  intros qx r1 pq al s Hr1 Hal Hs Hopt [[Hpq Eal]|Hsa].
  - assert (E : (al * pq = r1)%R) by (rewrite Eal; field; lra).
    assert (0 <= pq * ((s - al) * (s - al)))%R by (apply Rmult_le_pos; [lra|apply Rle_0_sqr]). nra.
  - assert (0 <= (al - s) * (2 * r1 - (al + s) * pq))%R; [|lra].
    apply Rmult_le_pos; [lra|]. destruct (Rlt_or_le 0 pq) as [L|L].
    + specialize (Hopt L). apply (Rmult_le_compat_r pq) in Hopt; [|lra].
      replace (r1 / pq * pq)%R with r1 in Hopt by (field; lra).
      assert (s * pq <= al * pq)%R by (apply Rmult_le_compat_r; lra). lra.
    + assert (0 <= (al + s) * - pq)%R by (apply Rmult_le_pos; lra). lra.
Qed.

(** One call: the invariant, and what happens to x *)
Lemma step_inv_tr : forall (e : result) t M, TInv (e :: t) ->
  cg_caller H I n p q r z A (fun _ _ => True) (state_of e) (mem_of e) M ->
  exists e' X X', call (rho_of e) (state_of e) M = Some e' /\ TInv (e' :: e :: t) /\
    has (mem_of e) x n 1 X /\ has (mem_of e') x n 1 X' /\
    (if is_dir e then
       (quad n A b X' < quad n A b X)%R /\
       exists P, (0 < rho2 (rho_of e'))%R /\ has (mem_of e) p n 1 P /\ same n X' (fun i => X i + rho2 (rho_of e') * P i)%R /\
         forall s, (0 <= s)%R -> (norm n (fun i => X i + s * P i)%R <= delta)%R ->
           (quad n A b X' <= quad n A b (fun i => X i + s * P i)%R)%R
     else same n X' X).
Proof.
  intros e t M [P [Q [V [X [C [Hr4 Hst]]]]]] Hc. unfold is_dir.
  assert (Keep : forall e', mem_of e' = mem_of e -> has (mem_of e') x n 1 X) by (intros e' ->; apply C).
  destruct Hst as [[Est [R0 [R1 [EP [EV Hx]]]]]|[[Est [HR [Hx Hr0]]]|[[Est [HR [Hx [Hr1 Hpv]]]]|[[Est [HR [Hx Hv]]]|[[Est [HR [Hx Hv]]]|[Est [Hx HR]]]]]]].
  - rewrite Est in *. unfold cg_caller in Hc. cbn [Z.eqb Pos.eqb CG_AP andb] in *. destruct Hc as [F [P' [HP' HQ]]].
    nrg. rewrite (Rlt_bool_false 0 (rho1 (rho_of e))) by (rewrite R1; apply Rle_refl).
    pose proof (has_fun H I _ _ _ _ _ (proj1 C) HP') as EPP.
    pose proof (cont_q H I n p q r x z Hap _ M P Q V X _ C HQ F) as C'.
    destruct (sub_loop_spec H I n q r M (Av P') V Hn) as [M' [E [B F']]]; [apply C'|apply C'|aps; apply apart_sym; assumption|].
    pose proof (cont_r H I n p q r x z Hap M M' P _ V X _ C' B F') as C''.
    eexists _, X, X. split.
    { go. rewrite (Rlt_bool_false 0 (rho1 (rho_of e))) by (rewrite R1; apply Rle_refl). rewrite E. reflexivity. }
    split; [|split; [apply C|split; [apply C''|apply same_refl]]].
    eexists P, _, _, X. split; [exact C''|]. split; [exact Hr4|]. right. left. split; [left; reflexivity|].
    split.
    + intros i Hi. rewrite (EV i Hi). rewrite (mulv_ext n A P' X (same_trans n P' P X (same_sym n P P' EPP) EP) i Hi). reflexivity.
    + split; [exact Hx|]. left. exact R0.
  - assert (Edir : (state_of e =? CG_AP) = false) by (destruct Est as [->|[-> _]]; reflexivity). rewrite Edir. cbn [andb].
    destruct Est as [Est|[Est Hz]].
    + rewrite Est in *. unfold cg_caller in Hc. cbn [Z.eqb Pos.eqb CG_AP CG_NEWX CG_PRECOND] in Hc. subst M.
      destruct (zcase n p q r x z Hap) as [[zz Ez]|Ez].
      * eexists _, X, X. split; [go; rewrite Ez; reflexivity|]. split; [|split; [apply C|split; [apply C|apply same_refl]]].
        exists P, Q, V, X. split; [exact C|]. split; [exact Hr4|]. right. left.
        split; [right; split; [reflexivity|rewrite Ez; discriminate]|]. split; [exact HR|]. split; [exact Hx|exact Hr0].
      * destruct (dir_inv_tr r (rho_of e) (mem_of e) P Q V X V (e :: t) C) as [rho' [st [M' [E [TI HX]]]]]; try assumption.
        -- apply C.
        -- reflexivity.
        -- aps. apply apart_sym. assumption.
        -- exists (rho', st, M'), X, X. split; [go; rewrite Ez; exact E|]. split; [exact TI|].
           split; [apply C|]. split; [exact HX|apply same_refl].
    + rewrite Est in *. unfold cg_caller in Hc. cbn [Z.eqb Pos.eqb CG_AP CG_NEWX CG_PRECOND] in Hc.
      destruct (zcase n p q r x z Hap) as [[zz Ez]|Ez]; [|contradiction]. rewrite Ez in Hc. destruct Hc as [F [U [W [HU [HW _]]]]].
      destruct (q_there H I n q zz _ M Q W (proj1 (proj2 C)) HW F) as [Q' HQ'].
      destruct (cont_z H I n p q r x z Hap zz _ M P Q V X Ez C F) as [G1 [G2 G3]].
      destruct (dir_inv_tr zz (rho_of e) M P Q' V X W (e :: t)) as [rho' [st [M' [E [TI HX]]]]]; try assumption.
      * repeat split; assumption.
      * intros E. contradiction.
      * aps. rewrite Ez in Az. apply Az.
      * exists (rho', st, M'), X, X. split; [go; rewrite Ez; exact E|]. split; [exact TI|].
        split; [apply C|]. split; [exact HX|apply same_refl].
  - rewrite Est in *. unfold cg_caller in Hc. cbn [Z.eqb Pos.eqb CG_AP andb] in *. destruct Hc as [F [P' [HP' HQ]]].
    nrg. rewrite (Rlt_bool_true 0 (rho1 (rho_of e))) by exact Hr1.
    pose proof (has_fun H I _ _ _ _ _ (proj1 C) HP') as EPP.
    assert (HQ' : has M q n 1 (Av P)) by (apply (has_ext H I M q n _ _ HQ); apply mulv_ext, same_sym; exact EPP).
    pose proof (cont_q H I n p q r x z Hap _ M P Q V X _ C HQ' F) as C'.
    destruct (call_step_tr (rho_of e) M P _ V X C' Hr1 Hr4 Hx Hpv) as [al [st [M' [E [Hal [Hopt [Hbd [C'' D]]]]]]]].
    eexists _, X, _. split; [exact E|]. split; [|split; [apply C|split; [apply C''|split]]].
    + eexists P, _, _, _. split; [exact C''|]. split; [reflexivity|].
      assert (HR' : resid (fun i => V i + - al * Av P i)%R (fun i => X i + al * P i)%R).
      { intros i Hi. rewrite (HR i Hi), mulv_lin. ring. }
      destruct D as [[-> [Hx' [Hpq Eal]]]|[-> Hx']].
      * right. left. split; [left; reflexivity|]. split; [exact HR'|]. split; [exact Hx'|]. right. split; [exact Hr1|].
        rewrite dotp_lin_r, Hpv, Eal. match goal with |- @eq _ ?a ?b => change (@eq R a b) end. field. apply Rgt_not_eq. exact Hpq.
      * do 5 right. split; [reflexivity|]. split; [exact Hx'|]. left. exact HR'.
    + clear Hbd. rewrite (quad_along n A b X V P al SA HR), (dotp_comm n V P), Hpv.
      set (s := (al * rho1 (rho_of e))%R). assert (Hs : (0 < s)%R) by (apply Rmult_lt_0_compat; assumption).
      assert (Hd : (al * al * dotp n P (Av P) <= s)%R).
      { destruct (Rlt_or_le 0 (dotp n P (Av P))) as [L|L].
        - specialize (Hopt L). unfold s. rewrite Rmult_assoc. apply Rmult_le_compat_l; [lra|].
          apply (Rmult_le_compat_r (dotp n P (Av P))) in Hopt; [|lra].
          replace (rho1 (rho_of e) / dotp n P (Av P) * dotp n P (Av P))%R with (rho1 (rho_of e)) in Hopt; [exact Hopt|].
          symmetry. refine (eq_trans (y := (rho1 (rho_of e) * / dotp n P (Av P) * dotp n P (Av P))%R) eq_refl _).
          rewrite Rmult_assoc, Rinv_l by lra. apply Rmult_1_r.
        - assert (0 <= al * al * - dotp n P (Av P))%R by (apply Rmult_le_pos; [apply Rle_0_sqr|lra]). lra. }
      change (al * rho1 (rho_of e))%R with s. lra.
    + exists P. unfold rho_of at 1 2. cbn [fst rho2]. split; [exact Hal|]. split; [apply C|]. split; [apply same_refl|].
      intros s Hs0 Hsd. rewrite !(quad_along n A b X V P _ SA HR), (dotp_comm n V P), Hpv.
      clear E C'' D. apply (step_best_core (quad n A b X) (rho1 (rho_of e)) (dotp n P (Av P)) al s Hr1 Hal Hs0 Hopt).
      destruct Hbd as [Hbd|Hbd]; [left; exact Hbd|right; apply Hbd; assumption].
  - rewrite Est in *. unfold cg_caller in Hc. cbn [Z.eqb Pos.eqb CG_AP CG_FINISH CG_PRECOND andb] in *. subst M.
    eexists _, X, X. split; [go; reflexivity|]. split; [|split; [apply C|split; [apply C|apply same_refl]]].
    exists P, Q, V, X. split; [exact C|]. split; [exact Hr4|]. do 3 right. left. split; [reflexivity|]. split; [exact HR|]. split; assumption.
  - rewrite Est in *. unfold cg_caller in Hc. cbn [Z.eqb Pos.eqb CG_AP CG_NON_CONVEX CG_PRECOND andb] in *. subst M.
    eexists _, X, X. split; [go; reflexivity|]. split; [|split; [apply C|split; [apply C|apply same_refl]]].
    exists P, Q, V, X. split; [exact C|]. split; [exact Hr4|]. do 4 right. left. split; [reflexivity|]. split; [exact HR|]. split; assumption.
  - pose proof Est as Est'. rewrite Est in *. unfold cg_caller in Hc. cbn [Z.eqb Pos.eqb CG_AP CG_TRUNCATED CG_PRECOND andb] in *. subst M.
    eexists _, X, X. split; [go; reflexivity|]. split; [|split; [apply C|split; [apply C|apply same_refl]]].
    exists P, Q, V, X. split; [exact C|]. split; [exact Hr4|]. do 5 right. split; [reflexivity|]. split; [exact Hx|].
    destruct HR as [HR|HR]; [left; exact HR|right]. constructor; [reflexivity|exact HR].
Qed.

Lemma exec_inv_tr : forall t, trcg_exec H I n p q r x z A b delta t -> TInv t.
Proof.
  intros t E. induction E as [rho st M e Hst Hr Hc|e t M e' E IH Hcl Hc].
  - destruct (first_inv_tr rho st M Hst Hr) as [e0 [E0 P0]]. rewrite E0 in Hc. injection Hc as <-. exact P0.
  - destruct (step_inv_tr e t M IH Hcl) as [e0 [X0 [X1 [E0 [P0 _]]]]]. rewrite E0 in Hc. injection Hc as <-. exact P0.
Qed.

End Run.
