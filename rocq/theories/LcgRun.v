(** * Executions of OPK_PLCG in exact arithmetic *)
From Coq Require Import ZArith Reals List Bool Lia Lra.
From Flocq Require Import Core.
From Verif Require Import Base Num NumFacts OrdFacts LaModel LaLoops LaSpec LaMem LaBlas1 LaBlas1R LaBlas2
  LcgModel LcgSpec LcgVec LcgCalls LcgInv.
Import ListNotations.
Local Open Scope Z_scope.

Section Run.
Variables H I : R.
Notation NR := (NumR H I).
Notation mem := (Z -> option NR).
Notation has := (has_vec (N := NR)).
Notation result := (@result NR).
Variables (n p q r x : Z) (z : option Z) (A K : Z -> Z -> R) (b : Z -> R).
Hypothesis Hn : 0 <= n.
Hypothesis Hap : arrays_apart n p q r x z.

Definition contents (M : mem) (P Q V X : Z -> R) : Prop := has M p n 1 P /\ has M q n 1 Q /\ has M r n 1 V /\ has M x n 1 X.

Ltac aps := unfold arrays_apart in Hap; destruct Hap as [Apq [Apr [Apx [Aqr [Aqx [Arx Az]]]]]].

Lemma cont_p : forall M M' P Q V X P', contents M P Q V X -> has M' p n 1 P' -> only_vec M M' p n 1 -> contents M' P' Q V X.
Proof.
  intros M M' P Q V X P' [C1 [C2 [C3 C4]]] B F. aps.
  split; [exact B|]. split; [apply (keep H I M M' p q n Q F); assumption|].
  split; [apply (keep H I M M' p r n V F); assumption|apply (keep H I M M' p x n X F); assumption].
Qed.
Lemma cont_q : forall M M' P Q V X Q', contents M P Q V X -> has M' q n 1 Q' -> only_vec M M' q n 1 -> contents M' P Q' V X.
Proof.
  intros M M' P Q V X P' [C1 [C2 [C3 C4]]] B F. aps.
  split; [apply (keep H I M M' q p n P F); [apply apart_sym|]; assumption|]. split; [exact B|].
  split; [apply (keep H I M M' q r n V F); assumption|apply (keep H I M M' q x n X F); assumption].
Qed.
Lemma cont_r : forall M M' P Q V X V', contents M P Q V X -> has M' r n 1 V' -> only_vec M M' r n 1 -> contents M' P Q V' X.
Proof.
  intros M M' P Q V X P' [C1 [C2 [C3 C4]]] B F. aps.
  split; [apply (keep H I M M' r p n P F); [apply apart_sym|]; assumption|].
  split; [apply (keep H I M M' r q n Q F); [apply apart_sym|]; assumption|]. split; [exact B|].
  apply (keep H I M M' r x n X F); assumption.
Qed.
Lemma cont_x : forall M M' P Q V X X', contents M P Q V X -> has M' x n 1 X' -> only_vec M M' x n 1 -> contents M' P Q V X'.
Proof.
  intros M M' P Q V X P' [C1 [C2 [C3 C4]]] B F. aps.
  split; [apply (keep H I M M' x p n P F); [apply apart_sym|]; assumption|].
  split; [apply (keep H I M M' x q n Q F); [apply apart_sym|]; assumption|].
  split; [apply (keep H I M M' x r n V F); [apply apart_sym|]; assumption|exact B].
Qed.
(** [q] may change when it overlaps [z] *)
Lemma cont_z : forall zz M M' P Q V X, z = Some zz -> contents M P Q V X -> only_vec M M' zz n 1 ->
  has M' p n 1 P /\ has M' r n 1 V /\ has M' x n 1 X.
Proof.
  intros zz M M' P Q V X Ez [C1 [C2 [C3 C4]]] F. aps. subst z. destruct Az as [Azp [Azr Azx]].
  split; [apply (keep H I M M' zz p n P F); assumption|].
  split; [apply (keep H I M M' zz r n V F); assumption|apply (keep H I M M' zz x n X F); assumption].
Qed.

Lemma zcase : (exists zz, z = Some zz) \/ z = None.
Proof. destruct z as [zz|]; [left; exists zz; reflexivity|right; reflexivity]. Qed.

(** Whatever [q] contains, its cells are there *)
Lemma q_there : forall zz (M M' : mem) Q V, has M q n 1 Q -> has M' zz n 1 V -> only_vec M M' zz n 1 -> exists Q', has M' q n 1 Q'.
Proof.
  intros zz M M' Q V HQ HV F.
  exists (fun i => match M' (elt q n 1 i) with Some v => v | None => 0%R end). intros i Hi.
  assert (D : (exists j, 0 <= j < n /\ elt q n 1 i = elt zz n 1 j) \/ (forall j, 0 <= j < n -> elt q n 1 i <> elt zz n 1 j)).
  { rewrite elt_1. destruct (Z_le_gt_dec zz (q + i)); [destruct (Z_lt_le_dec (q + i) (zz + n))|].
    - left. exists (q + i - zz). rewrite elt_1. split; lia.
    - right. intros j Hj. rewrite elt_1. lia.
    - right. intros j Hj. rewrite elt_1. lia. }
  destruct D as [[j [Hj Ej]]|Hno]; [rewrite Ej, (HV j Hj); reflexivity|]. rewrite (F _ Hno), (HQ i Hi). reflexivity.
Qed.

(** ** Calls *)
Lemma call_start : forall (rho : @rhos NR) M P Q V X, contents M P Q V X ->
  exists M', plcg (N := NR) n p q r x z rho CG_START M = Some (mkrho (N := NR) 0%R 0%R 0%R 0%R (rho4 rho), CG_NEWX, M') /\
    contents M' P Q V (fun _ => 0%R).
Proof.
  intros rho M P Q V X C. destruct (zero1 H I n x M X) as [M' [E [B F]]]; [apply C|].
  exists M'. split; [|apply (cont_x M M' P Q V X); assumption].
  unfold plcg, CG_START. cbn [Z.eqb]. rewrite E. reflexivity.
Qed.

Lemma call_restart : forall (rho : @rhos NR) M P Q V X, contents M P Q V X ->
  exists M', plcg (N := NR) n p q r x z rho CG_RESTART M = Some (mkrho (N := NR) 0%R 0%R 0%R 0%R (rho4 rho), CG_AP, M') /\
    contents M' X Q V X.
Proof.
  intros rho M P Q V X C. destruct (copy1 H I n x p M X P) as [M' [E [B F]]]; [apply C|apply C|aps; assumption|].
  exists M'. split; [|apply (cont_p M M' P Q V X); assumption].
  unfold plcg, CG_START, CG_RESTART. cbn [Z.eqb Pos.eqb]. rewrite E. reflexivity.
Qed.

Lemma call_step : forall (rho : @rhos NR) M P Q V X, contents M P Q V X -> (0 < rho1 rho)%R -> (0 < dotp n P Q)%R ->
  let al := (rho1 rho / dotp n P Q)%R in
  exists M', plcg (N := NR) n p q r x z rho CG_AP M
    = Some (mkrho (N := NR) (rho1 rho) (rho1 rho) al (rho3 rho) (rho4 rho), CG_NEWX, M') /\
    contents M' P Q (fun i => V i + - al * Q i)%R (fun i => X i + al * P i)%R.
Proof.
  intros rho M P Q V X C Hr1 Hpq al. pose proof C as [C1 [C2 [C3 C4]]].
  assert (Hal : (0 < al)%R) by (apply Rdiv_lt_0_compat; assumption).
  pose proof (dot1 H I n p q M P Q C1 C2) as Ed. fold al in Ed.
  destruct (axpy1 H I n al p x M P X C1 C4) as [M1 [E1 [B1 F1]]]; [aps; apply apart_sym; assumption|].
  pose proof (cont_x M M1 P Q V X _ C B1 F1) as C'. pose proof C' as [D1 [D2 [D3 D4]]].
  destruct (axpy1 H I n (- al) q r M1 Q V D2 D3) as [M2 [E2 [B2 F2]]]; [aps; apply apart_sym; assumption|].
  exists M2. split; [|apply (cont_r M1 M2 P Q V _ _ C' B2 F2)].
  unfold plcg, CG_START, CG_RESTART, CG_NEWX, CG_PRECOND, CG_AP. cbn [Z.eqb Pos.eqb].
  unfold ZERO. nrg. destruct (Rlt_bool_spec 0 (rho1 rho)) as [_|L]; [|exfalso; clear - L Hr1; cbn [num NumR] in *; lra].
  rewrite Ed. destruct (Rle_bool_spec (dotp n P Q) 0) as [L|_]; [lra|].
  fold al. destruct (Req_bool_spec al 0) as [L|_]; [lra|]. cbn [rho0 rho1 rho2 rho3 rho4].
  rewrite E1, E2. reflexivity.
Qed.

Lemma call_first : forall (rho : @rhos NR) M P Q V X, contents M P Q V X -> rho1 rho = 0%R ->
  exists M', plcg (N := NR) n p q r x z rho CG_AP M = Some (rho, CG_NEWX, M') /\
    contents M' P Q (fun i => V i + -1 * Q i)%R X.
Proof.
  intros rho M P Q V X C Hr1. pose proof C as [C1 [C2 [C3 C4]]].
  destruct (axpy1 H I n (-1)%R q r M Q V C2 C3) as [M2 [E2 [B2 F2]]]; [aps; apply apart_sym; assumption|].
  exists M2. split; [|apply (cont_r M M2 P Q V X _ C B2 F2)].
  unfold plcg, CG_START, CG_RESTART, CG_NEWX, CG_PRECOND, CG_AP. cbn [Z.eqb Pos.eqb].
  unfold ZERO. nrg. rewrite Hr1. rewrite Rlt_bool_false by lra. rewrite E2. reflexivity.
Qed.

(** ** Invariant *)
Hypothesis SA : symmetric n A.
Hypothesis PA : pos_def n A.
Hypothesis SK : z <> None -> symmetric n K.
Hypothesis PK : z <> None -> pos_def n K.
Notation Kv := (pre n z K).

Definition lists_ok (t : list result) (Vs Ps : list (Z -> R)) : Prop :=
  Forall2 (fun e V => has (mem_of e) r n 1 V) (filter is_newx t) Vs /\
  Forall2 (fun e P => has (mem_of e) p n 1 P) (filter is_dir t) Ps.

Lemma lists_newx : forall (e : result) t Vs Ps V, lists_ok t Vs Ps -> state_of e = CG_NEWX -> has (mem_of e) r n 1 V ->
  lists_ok (e :: t) (V :: Vs) Ps.
Proof.
  intros e t Vs Ps V [L1 L2] E HV. unfold lists_ok. cbn [filter]. unfold is_newx at 1, is_dir at 1. rewrite E.
  cbn [Z.eqb Pos.eqb CG_NEWX CG_AP andb]. split; [constructor; assumption|exact L2].
Qed.

Lemma lists_dir : forall (e : result) t Vs Ps P, lists_ok t Vs Ps -> state_of e = CG_AP -> (0 < rho1 (rho_of e))%R -> has (mem_of e) p n 1 P ->
  lists_ok (e :: t) Vs (P :: Ps).
Proof.
  intros e t Vs Ps P [L1 L2] E Hr HP. unfold lists_ok. cbn [filter]. unfold is_newx at 1, is_dir at 1. rewrite E.
  cbn [Z.eqb Pos.eqb CG_NEWX CG_AP andb]. nrg. rewrite Rlt_bool_true by exact Hr. split; [exact L1|constructor; assumption].
Qed.

Lemma lists_other : forall (e : result) t Vs Ps, lists_ok t Vs Ps -> state_of e <> CG_NEWX ->
  state_of e <> CG_AP \/ (rho1 (rho_of e) <= 0)%R -> lists_ok (e :: t) Vs Ps.
Proof.
  intros e t Vs Ps [L1 L2] E1 E2. unfold lists_ok. cbn [filter]. unfold is_newx at 1, is_dir at 1.
  destruct (Z.eqb_spec (state_of e) CG_NEWX) as [|_]; [contradiction|]. split; [exact L1|].
  destruct E2 as [E2|E2].
  - destruct (Z.eqb_spec (state_of e) CG_AP) as [|_]; [contradiction|]. exact L2.
  - nrg. rewrite Rlt_bool_false by exact E2. rewrite andb_false_r. exact L2.
Qed.

Definition PInv (t : list result) : Prop :=
  match t with
  | [] => False
  | e :: _ =>
    let rho := rho_of e in
    let st := state_of e in
    exists hs P Q V X, contents (mem_of e) P Q V X /\
      (st = CG_AP /\ rho0 rho = 0%R /\ rho1 rho = 0%R /\ same n P X /\ same n V b /\ lists_ok t [] []
       \/ (st = CG_NEWX \/ st = CG_PRECOND /\ z <> None) /\ Nst n z A K b hs (rho0 rho) P X V /\
          lists_ok t (V :: map fst hs) (map snd hs)
       \/ st = CG_AP /\ Dst n z A K b hs (rho1 rho) P X V /\ lists_ok t (V :: map fst hs) (P :: map snd hs)
       \/ st = CG_FINISH /\ Base n z A K b hs X V /\ dotp n V (Kv V) = 0%R /\ lists_ok t (V :: map fst hs) (map snd hs))
  end.

Lemma first_inv : forall (rho : @rhos NR) st M, st = CG_START \/ st = CG_RESTART -> cg_ready H I n p q r x z b M ->
  exists e, plcg (N := NR) n p q r x z rho st M = Some e /\ PInv [e].
Proof.
  intros rho st M Hst [[P HP] [[Q HQ] [HV [[X HX] _]]]].
  assert (C : contents M P Q b X) by (repeat split; assumption).
  destruct Hst as [->| ->].
  - destruct (call_start rho M P Q b X C) as [M' [E C']]. eexists. split; [exact E|].
    exists [], P, Q, b, (fun _ => 0%R). split; [exact C'|]. right. left. split; [left; reflexivity|]. split.
    + apply start_N. intros i Hi. unfold mulv. rewrite sumz_zero; [ring|]. intros l _. ring.
    + apply lists_newx; [split; constructor|reflexivity|apply C'].
  - destruct (call_restart rho M P Q b X C) as [M' [E C']]. eexists. split; [exact E|].
    exists [], X, Q, b, X. split; [exact C'|]. left. split; [reflexivity|]. split; [reflexivity|]. split; [reflexivity|].
    split; [apply same_refl|]. split; [apply same_refl|].
    apply lists_other; [split; constructor|discriminate|]. right. cbn. lra.
Qed.

(** a new search direction *)
Lemma dir_inv : forall zz (rho : @rhos NR) M P Q V X W hs t, contents M P Q V X -> has M zz n 1 W -> same n W (Kv V) ->
  vec_apart zz n 1 p n 1 -> Nst n z A K b hs (rho0 rho) P X V -> lists_ok t (V :: map fst hs) (map snd hs) ->
  exists e, direction (N := NR) n p r zz rho M = Some e /\ PInv (e :: t).
Proof.
  intros zz rho M P Q V X W hs t C HW EW Hz NS L.
  pose proof C as [C1 [C2 [C3 C4]]].
  destruct (direction_spec H I n p r zz rho M P V W Hn C1 C3 HW Hz)
    as [rho' [st [M' [E [R0 [R1 [R2 [R4 D]]]]]]]].
  assert (Edot : dotp n V W = dotp n V (Kv V)) by (apply dotp_ext; [apply same_refl|exact EW]).
  exists (rho', st, M'). split; [exact E|]. unfold PInv, rho_of, state_of, mem_of. cbn [fst snd].
  destruct D as [[Hlt _]|[[Hz0 [-> ->]]|[Hgt [-> [B [F Hbe]]]]]].
  - exfalso. rewrite Edot in Hlt. pose proof (pre_nonneg n z K SK PK V). lra.
  - exists hs, P, Q, V, X. split; [exact C|]. right. right. right. split; [reflexivity|].
    split; [apply NS|]. split; [rewrite <- Edot; exact Hz0|].
    apply lists_other; [exact L|discriminate|left; discriminate].
  - exists hs, (fun i => W i + rho3 rho' * P i)%R, Q, V, X. split; [apply (cont_p M M' P Q V X _ C B F)|].
    right. right. left. split; [reflexivity|]. split.
    + rewrite R1. apply (N_to_D n z A K b SA PA SK PK hs (rho0 rho) P X V W _ _ (rho3 rho') NS EW eq_refl Hgt Hbe). apply same_refl.
    + apply lists_dir; [exact L|reflexivity| |exact B]. unfold rho_of. cbn [fst]. rewrite R1. exact Hgt.
Qed.

Lemma step_inv : forall (e : result) t M, PInv (e :: t) -> cg_caller H I n p q r z A (by_matrix n K) (state_of e) (mem_of e) M ->
  exists e', plcg (N := NR) n p q r x z (rho_of e) (state_of e) M = Some e' /\ PInv (e' :: e :: t).
Proof.
  intros e t M [hs [P [Q [V [X [C Hst]]]]]] Hc.
  destruct Hst as [[Est [R0 [R1 [EP [EV L]]]]]|[[Est [NS L]]|[[Est [DS L]]|[Est [BS [Hz L]]]]]].
  - (* first product *)
    rewrite Est in *. unfold cg_caller in Hc. cbn [Z.eqb Pos.eqb CG_AP] in Hc. destruct Hc as [F [P' [HP' HQ]]].
    pose proof (has_fun H I _ _ _ _ _ (proj1 C) HP') as EPP.
    pose proof (cont_q _ M P Q V X _ C HQ F) as C'.
    destruct (call_first (rho_of e) M P _ V X C' R1) as [M' [E C'']].
    eexists. split; [exact E|]. eexists [], P, _, _, X. split; [exact C''|]. right. left. split; [left; reflexivity|]. split.
    + cbn [rho_of fst]. rewrite R0. apply start_N. intros i Hi. rewrite (EV i Hi).
      rewrite (mulv_ext n A P' X (same_trans n P' P X (same_sym n P P' EPP) EP) i Hi). rring.
    + apply lists_newx; [exact L|reflexivity|]. apply C''.
  - (* new search direction *)
    destruct Est as [Est|[Est Hz]].
    + rewrite Est in *. unfold cg_caller in Hc. cbn [Z.eqb Pos.eqb CG_AP CG_NEWX CG_PRECOND] in Hc. subst M.
      unfold plcg, CG_START, CG_RESTART, CG_NEWX. cbn [Z.eqb Pos.eqb].
      destruct zcase as [[zz Ez]|Ez]; rewrite Ez.
      * eexists. split; [reflexivity|]. exists hs, P, Q, V, X. split; [exact C|]. right. left.
        split; [right; split; [reflexivity|rewrite Ez; discriminate]|]. split; [exact NS|].
        apply lists_other; [exact L|discriminate|left; discriminate].
      * apply (dir_inv r (rho_of e) (mem_of e) P Q V X V hs (e :: t) C); try assumption.
        -- apply C.
        -- rewrite Ez. apply same_refl.
        -- aps. apply apart_sym. assumption.
    + rewrite Est in *. unfold cg_caller in Hc. cbn [Z.eqb Pos.eqb CG_AP CG_NEWX CG_PRECOND] in Hc.
      destruct zcase as [[zz Ez]|Ez]; [|contradiction]. rewrite Ez in Hc. destruct Hc as [F [U [W [HU [HW EW]]]]].
      unfold plcg, CG_START, CG_RESTART, CG_NEWX, CG_PRECOND. cbn [Z.eqb Pos.eqb]. rewrite Ez.
      destruct (q_there zz _ M Q W (proj1 (proj2 C)) HW F) as [Q' HQ'].
      destruct (cont_z zz _ M P Q V X Ez C F) as [G1 [G2 G3]].
      apply (dir_inv zz (rho_of e) M P Q' V X W hs (e :: t)); try assumption.
      * repeat split; assumption.
      * red in EW. rewrite Ez. unfold pre. apply (same_trans n W (mulv n K U) (mulv n K V) EW). apply mulv_ext.
        apply (has_fun H I (mem_of e) r n); [exact HU|apply C].
      * aps. rewrite Ez in Az. apply Az.
  - (* step *)
    rewrite Est in *. unfold cg_caller in Hc. cbn [Z.eqb Pos.eqb CG_AP] in Hc. destruct Hc as [F [P' [HP' HQ]]].
    pose proof (has_fun H I _ _ _ _ _ (proj1 C) HP') as EPP.
    assert (HQ' : has M q n 1 (mulv n A P)) by (apply (has_ext H I M q n _ _ HQ); apply mulv_ext, same_sym; exact EPP).
    pose proof (cont_q _ M P Q V X _ C HQ' F) as C'.
    destruct (call_step (rho_of e) M P _ V X C' (d_r1_pos _ _ _ _ _ _ _ _ _ _ DS) (d_pos _ _ _ _ _ _ _ _ _ _ DS)) as [M' [E C'']].
    eexists. split; [exact E|]. eexists ((V, P) :: hs), P, _, _, _. split; [exact C''|]. right. left. split; [left; reflexivity|]. split.
    + cbn [rho_of fst rho0]. eapply (D_to_N n z A K b SA hs (rho1 (rho_of e)) P X V); [exact DS|reflexivity|apply same_refl|apply same_refl].
    + apply lists_newx; [exact L|reflexivity|]. apply C''.
  - rewrite Est in *. unfold cg_caller in Hc. cbn [Z.eqb Pos.eqb CG_AP CG_FINISH CG_PRECOND] in Hc. subst M.
    eexists. split; [reflexivity|]. exists hs, P, Q, V, X. split; [exact C|]. right. right. right. split; [reflexivity|].
    split; [exact BS|]. split; [exact Hz|]. apply lists_other; [exact L|discriminate|left; discriminate].
Qed.

Lemma exec_inv : forall t, plcg_exec H I n p q r x z A b K t -> PInv t.
Proof.
  intros t E. induction E as [rho st M e Hst Hr Hc|e t M e' E IH Hcl Hc].
  - destruct (first_inv rho st M Hst Hr) as [e0 [E0 P0]]. rewrite E0 in Hc. injection Hc as <-. exact P0.
  - destruct (step_inv e t M IH Hcl) as [e0 [E0 P0]]. rewrite E0 in Hc. injection Hc as <-. exact P0.
Qed.

End Run.
