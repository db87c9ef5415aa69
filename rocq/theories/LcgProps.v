(** * Properties of the linear conjugate gradients (lcg.c): C37 and C38

    An execution is the list of what the successive calls returned, the last one first: see [plcg_exec] and [trcg_exec] in
    LcgSpec.v, where the role of the caller is also defined.  The arithmetic is exact, the number of variables and the
    number of calls are arbitrary. *)
From Coq Require Import ZArith Reals List Bool Lia Lra Psatz.
From Flocq Require Import Core.
From Verif Require Import Base Num NumFacts OrdFacts LaModel LaLoops LaSpec LaMem LaBlas1 LaBlas1R LaBlas2
  LcgModel LcgSpec LcgVec LcgCalls LcgInv LcgRun LcgTr.
Import ListNotations.
Local Open Scope Z_scope.

(** The problem solved by OPK_PLCG: A, and the preconditioner K if any, are symmetric positive definite *)
Definition cg_problem (n p q r x : Z) (z : option Z) (A K : Z -> Z -> R) : Prop :=
  0 <= n /\ arrays_apart n p q r x z /\ symmetric n A /\ pos_def n A /\ (z <> None -> symmetric n K /\ pos_def n K).

(** The problem solved by OPK_TRCG: A is symmetric, the trust region is not empty *)
Definition tr_problem (n p q r x : Z) (z : option Z) (A : Z -> Z -> R) (delta : R) : Prop :=
  0 <= n /\ arrays_apart n p q r x z /\ symmetric n A /\ (0 < delta)%R.

(** ** Lists *)
Lemma FOP_Forall2 : forall {E V} (rel : E -> V -> Prop) (Q : V -> V -> Prop) es vs,
  Forall2 rel es vs -> ForallOrdPairs Q vs ->
  ForallOrdPairs (fun e e' => exists v v', rel e v /\ rel e' v' /\ Q v v') es.
Proof.
  intros E V rel Q es vs F. induction F as [|e v es vs Hev F IH]; intros P; [constructor|].
  inversion P as [|a l Ha Hl]; subst. constructor; [|apply IH; exact Hl].
  clear - Hev Ha F. induction F as [|e' v' es vs Hev' F IH]; [constructor|].
  inversion Ha; subst. constructor; [exists v, v'; repeat split; assumption|apply IH; assumption].
Qed.

Lemma Forall2_len : forall {E V} (rel : E -> V -> Prop) es vs, Forall2 rel es vs -> length es = length vs.
Proof. intros E V rel es vs F. induction F; cbn; congruence. Qed.

Lemma FOP_impl : forall {E} (Q Q' : E -> E -> Prop) es, (forall a b, Q a b -> Q' a b) -> ForallOrdPairs Q es -> ForallOrdPairs Q' es.
Proof.
  intros E Q Q' es HQ F. induction F as [|a l Ha Hl IH]; constructor; [|exact IH].
  eapply Forall_impl; [|exact Ha]. intros c. apply HQ.
Qed.

Lemma FOP_map : forall {E V} (f : E -> V) (Q : V -> V -> Prop) es,
  ForallOrdPairs (fun a b => Q (f a) (f b)) es -> ForallOrdPairs Q (map f es).
Proof.
  intros E V f Q es F. induction F as [|a l Ha Hl IH]; cbn; constructor; [|exact IH].
  apply Forall_forall. intros y Hy. apply in_map_iff in Hy as [c [<- Hc]].
  rewrite Forall_forall in Ha. apply Ha. exact Hc.
Qed.

Section Props.
Variables H I : R.
Notation NR := (NumR H I).
Notation has := (has_vec (N := NR)).
Notation result := (@result NR).

Ltac prob Hp := destruct Hp as [Hn [Hap [SA [PA HK]]]];
  assert (SK := fun h => proj1 (HK h)); assert (PK := fun h => proj2 (HK h)).
Ltac inv E := match type of E with plcg_exec _ _ ?n ?p ?q ?r ?x ?z ?A ?b ?K ?t =>
  pose proof (exec_inv H I n p q r x z A K b ltac:(assumption) ltac:(assumption) ltac:(assumption) ltac:(assumption)
                ltac:(assumption) ltac:(assumption) t E) as PI end.

Lemma exec_nil : forall n p q r x z A b K, ~ plcg_exec H I n p q r x z A b K [].
Proof. intros n p q r x z A b K E. inversion E. Qed.

(** ** C37: progress.  No call reads or writes out of the arrays *)
Theorem C37_start : forall n p q r x z A K b rho st M, cg_problem n p q r x z A K ->
  st = CG_START \/ st = CG_RESTART -> cg_ready H I n p q r x z b M ->
  exists e, plcg (N := NR) n p q r x z rho st M = Some e.
Proof.
  intros n p q r x z A K b rho st M Hp Hst Hr. prob Hp.
  destruct (first_inv H I n p q r x z A K b Hap rho st M Hst Hr) as [e [E _]]. exists e. exact E.
Qed.

Theorem C37_next : forall n p q r x z A K b e t M, cg_problem n p q r x z A K ->
  plcg_exec H I n p q r x z A b K (e :: t) ->
  cg_caller H I n p q r z A (by_matrix n K) (state_of e) (mem_of e) M ->
  exists e', plcg (N := NR) n p q r x z (rho_of e) (state_of e) M = Some e' /\
    plcg_exec H I n p q r x z A b K (e' :: e :: t).
Proof.
  intros n p q r x z A K b e t M Hp E Hc. prob Hp. inv E.
  destruct (step_inv H I n p q r x z A K b Hn Hap SA PA SK PK e t M PI Hc) as [e' [E' _]].
  exists e'. split; [exact E'|]. apply (exec_next _ _ _ e t M e' E Hc E').
Qed.

(** The caller can always do what is requested *)
Lemma write_there : forall n u (M : Z -> option NR) (U V : Z -> R), has M u n 1 U ->
  exists M', has M' u n 1 V /\ only_vec M M' u n 1.
Proof.
  intros n u M U V HU.
  exists (fun a => if (u <=? a) && (a <? u + n) then Some (V (a - u)) else M a). split.
  - intros i Hi. rewrite elt_1. destruct (Z.leb_spec u (u + i)); [|lia]. destruct (Z.ltb_spec (u + i) (u + n)); [|lia]. cbn [andb].
    replace (u + i - u) with i by lia. reflexivity.
  - intros a Ha. destruct (Z.leb_spec u a); [|reflexivity]. destruct (Z.ltb_spec a (u + n)); [|reflexivity].
    exfalso. apply (Ha (a - u)); [lia|]. rewrite elt_1. lia.
Qed.

(** ** C37: states *)
Theorem C37_states : forall n p q r x z A K b e t, cg_problem n p q r x z A K ->
  plcg_exec H I n p q r x z A b K (e :: t) ->
  state_of e = CG_NEWX \/ state_of e = CG_AP \/ (state_of e = CG_PRECOND /\ z <> None) \/ state_of e = CG_FINISH.
Proof.
  intros n p q r x z A K b e t Hp E. prob Hp. inv E.
  destruct PI as [hs [P [Q [V [X [C [[S _]|[[[S|[S Hz]] _]|[[S _]|[S _]]]]]]]]]]; rewrite S; tauto.
Qed.

(** ** C37: the residuals are those of the variables, in every state but when the product by A of the initial variables has
    still to be computed *)
Theorem C37_residual : forall n p q r x z A K b e t (V X : Z -> R), cg_problem n p q r x z A K ->
  plcg_exec H I n p q r x z A b K (e :: t) ->
  state_of e <> CG_AP \/ is_dir e = true ->
  has (mem_of e) r n 1 V -> has (mem_of e) x n 1 X ->
  forall i, 0 <= i < n -> V i = (b i - mulv n A X i)%R.
Proof.
  intros n p q r x z A K b e t V X Hp E Hd HV HX. prob Hp. inv E.
  destruct PI as [hs [P [Q [V0 [X0 [[C1 [C2 [C3 C4]]] D]]]]]].
  pose proof (has_fun H I _ _ _ _ _ C3 HV) as EV. pose proof (has_fun H I _ _ _ _ _ C4 HX) as EX.
  assert (B : Base n z A K b hs X0 V0).
  { destruct D as [[S [_ [R1 _]]]|[[S [B _]]|[[S [B _]]|[S [B _]]]]]; try apply B.
    exfalso. destruct Hd as [Hd|Hd]; [contradiction|]. unfold is_dir in Hd. cbn [nlt nZ NumR] in Hd. rewrite R1 in Hd.
    rewrite Rlt_bool_false in Hd by lra. rewrite andb_false_r in Hd. discriminate. }
  intros i Hi. rewrite <- (EV i Hi), (b_res _ _ _ _ _ _ _ _ B i Hi), (mulv_ext n A X0 X EX i Hi). reflexivity.
Qed.

(** ** C37: each step minimizes the quadratic function along the search direction, and decreases it *)
Theorem C37_step : forall n p q r x z A K b e' e t (X P : Z -> R), cg_problem n p q r x z A K ->
  plcg_exec H I n p q r x z A b K (e' :: e :: t) -> is_dir e = true ->
  has (mem_of e) x n 1 X -> has (mem_of e) p n 1 P ->
  state_of e' = CG_NEWX /\
  exists X' : Z -> R, has (mem_of e') x n 1 X' /\
    (forall i, 0 <= i < n -> X' i = (X i + rho2 (rho_of e') * P i)%R) /\
    (forall s, quad n A b X' <= quad n A b (fun i => X i + s * P i))%R /\
    (quad n A b X' < quad n A b X)%R.
Proof.
  intros n p q r x z A K b e' e t X P Hp E Hd HX HP. prob Hp.
  inversion E as [|e0 t0 M e0' E0 Hc Hcall]; subst. change (plcg_exec H I n p q r x z A b K (e :: t)) in E0. inv E0.
  destruct PI as [hs [P0 [Q0 [V0 [X0 [C D]]]]]]. pose proof C as [C1 [C2 [C3 C4]]].
  pose proof (has_fun H I _ _ _ _ _ C4 HX) as EX. pose proof (has_fun H I _ _ _ _ _ C1 HP) as EP.
  destruct D as [[S [_ [R1 _]]]|[[S [B _]]|[[S [DS _]]|[S [B _]]]]].
  - exfalso. unfold is_dir in Hd. cbn [nlt nZ NumR] in Hd. rewrite R1 in Hd. rewrite Rlt_bool_false in Hd by lra. rewrite andb_false_r in Hd. discriminate.
  - exfalso. unfold is_dir in Hd. destruct S as [S|[S _]]; rewrite S in Hd; discriminate.
  - rewrite S in *. unfold cg_caller in Hc. cbn [Z.eqb Pos.eqb CG_AP] in Hc. destruct Hc as [F [P' [HP' HQ]]].
    pose proof (has_fun H I _ _ _ _ _ C1 HP') as EPP.
    assert (HQ' : has M q n 1 (mulv n A P0)) by (apply (has_ext H I M q n _ _ HQ); apply mulv_ext, same_sym; exact EPP).
    pose proof (cont_q H I n p q r x z Hap _ M P0 Q0 V0 X0 _ C HQ' F) as C'.
    pose proof (d_r1_pos _ _ _ _ _ _ _ _ _ _ DS) as Hr1. pose proof (d_pos _ _ _ _ _ _ _ _ _ _ DS) as Hpap.
    destruct (call_step H I n p q r x z Hap (rho_of e) M P0 _ V0 X0 C' Hr1 Hpap) as [M' [Ecall C'']].
    rewrite Ecall in Hcall. injection Hcall as <-. unfold state_of, rho_of at 1, mem_of at 1. cbn [fst snd rho2].
    split; [reflexivity|].
    set (al := (rho1 (rho_of e) / dotp n P0 (mulv n A P0))%R) in *.
    exists (fun i => X0 i + al * P0 i)%R. split; [apply C''|].
    split. { intros i Hi. rewrite (EX i Hi), (EP i Hi). reflexivity. }
    assert (Hb := fun s => D_best n z A K b SA hs (rho1 (rho_of e)) P0 X0 V0 al s DS eq_refl).
    split.
    + intros s. destruct (Hb s) as [_ L]. refine (Rle_trans _ _ _ L _). apply Req_le. apply quad_ext.
      intros i Hi. rewrite (EX i Hi), (EP i Hi). reflexivity.
    + destruct (Hb 0%R) as [Eq _]. rewrite (quad_ext n A b X X0 (same_sym n X0 X EX)).
      refine (Rle_lt_trans _ _ _ (Req_le _ _ Eq) _).
      assert (0 < rho1 (rho_of e) * rho1 (rho_of e) / dotp n P0 (mulv n A P0))%R.
      { apply Rdiv_lt_0_compat; [apply Rmult_lt_0_compat|]; assumption. }
      cbn [num NumR] in *. lra.
  - exfalso. unfold is_dir in Hd. rewrite S in Hd. discriminate.
Qed.

(** ** C37: the residuals of the successive variables are orthogonal (with respect to the preconditioner if any) *)
Theorem C37_orthogonal : forall n p q r x z A K b t, cg_problem n p q r x z A K ->
  plcg_exec H I n p q r x z A b K t ->
  ForallOrdPairs (fun e e' : result => exists V V', has (mem_of e) r n 1 V /\ has (mem_of e') r n 1 V' /\
      dotp n V (pre n z K V') = 0%R) (filter is_newx t).
Proof.
  intros n p q r x z A K b t Hp E. prob Hp. inv E. destruct t as [|e t]; [destruct PI|].
  destruct PI as [hs [P [Q [V [X [C D]]]]]].
  assert (G : forall Ps, Base n z A K b hs X V -> lists_ok H I n p r (e :: t) (V :: map fst hs) Ps ->
    ForallOrdPairs (fun e e' : result => exists V V', has (mem_of e) r n 1 V /\ has (mem_of e') r n 1 V' /\
      dotp n V (pre n z K V') = 0%R) (filter is_newx (e :: t))).
  { intros Ps B [L _]. refine (FOP_Forall2 (fun (e : result) V => has (mem_of e) r n 1 V) (fun V V' => dotp n V (pre n z K V') = 0%R) _ _ L _).
    constructor.
    - apply Forall_forall. intros W HW. apply in_map_iff in HW as [h [<- Hh]]. apply (b_or _ _ _ _ _ _ _ _ B h Hh).
    - apply FOP_map. apply (b_pair_r _ _ _ _ _ _ _ _ B). }
  destruct D as [[S [_ [_ [_ [_ [L _]]]]]]|[[S [B L]]|[[S [B L]]|[S [B [_ L]]]]]].
  - change (filter is_newx (e :: t)) with (if is_newx e then e :: filter is_newx t else filter is_newx t).
    inversion L as [E0|]. constructor.
  - apply (G _ (n_base _ _ _ _ _ _ _ _ _ _ B) L).
  - apply (G _ (d_base _ _ _ _ _ _ _ _ _ _ B) L).
  - apply (G _ B L).
Qed.

(** The search directions: conjugate, with a positive curvature *)
Lemma directions : forall n p q r x z A K b t, cg_problem n p q r x z A K ->
  plcg_exec H I n p q r x z A b K t ->
  exists Ps, Forall2 (fun (e : result) P => has (mem_of e) p n 1 P) (filter is_dir t) Ps /\
    ForallOrdPairs (fun P P' => dotp n P (mulv n A P') = 0%R) Ps /\
    (forall P, In P Ps -> (0 < dotp n P (mulv n A P))%R).
Proof.
  intros n p q r x z A K b t Hp E. prob Hp. inv E. destruct t as [|e t]; [destruct PI|].
  destruct PI as [hs [P [Q [V [X [C D]]]]]].
  assert (G1 : Base n z A K b hs X V -> ForallOrdPairs (fun P P' => dotp n P (mulv n A P') = 0%R) (map snd hs)).
  { intros B. apply FOP_map. apply (b_pair_p _ _ _ _ _ _ _ _ B). }
  assert (G2 : Base n z A K b hs X V -> forall P, In P (map snd hs) -> (0 < dotp n P (mulv n A P))%R).
  { intros B W HW. apply in_map_iff in HW as [h [<- Hh]]. apply (b_pos _ _ _ _ _ _ _ _ B h Hh). }
  destruct D as [[S [_ [_ [_ [_ [_ L]]]]]]|[[S [B [_ L]]]|[[S [B [_ L]]]|[S [B [_ [_ L]]]]]]].
  - exists []. split; [exact L|]. split; [constructor|intros W []].
  - exists (map snd hs). split; [exact L|]. pose proof (n_base _ _ _ _ _ _ _ _ _ _ B) as B'. split; [apply G1|apply G2]; exact B'.
  - exists (P :: map snd hs). split; [exact L|]. pose proof (d_base _ _ _ _ _ _ _ _ _ _ B) as B'. split.
    + constructor; [|apply G1; exact B']. apply Forall_forall. intros W HW. apply in_map_iff in HW as [h [<- Hh]].
      apply (d_conj _ _ _ _ _ _ _ _ _ _ B h Hh).
    + intros W [<-|HW]; [apply (d_pos _ _ _ _ _ _ _ _ _ _ B)|apply (G2 B' W HW)].
  - exists (map snd hs). split; [exact L|]. split; [apply G1|apply G2]; exact B.
Qed.

(** ** C37: the search directions are conjugate *)
Theorem C37_conjugate : forall n p q r x z A K b t, cg_problem n p q r x z A K ->
  plcg_exec H I n p q r x z A b K t ->
  ForallOrdPairs (fun e e' : result => exists P P', has (mem_of e) p n 1 P /\ has (mem_of e') p n 1 P' /\
      dotp n P (mulv n A P') = 0%R) (filter is_dir t).
Proof.
  intros n p q r x z A K b t Hp E. destruct (directions n p q r x z A K b t Hp E) as [Ps [L [F _]]].
  exact (FOP_Forall2 (fun (e : result) P => has (mem_of e) p n 1 P) (fun P P' => dotp n P (mulv n A P') = 0%R) _ _ L F).
Qed.

(** ** C37: there are at most n steps *)
Theorem C37_count : forall n p q r x z A K b t, cg_problem n p q r x z A K ->
  plcg_exec H I n p q r x z A b K t -> Z.of_nat (length (filter is_dir t)) <= n.
Proof.
  intros n p q r x z A K b t Hp E. destruct (directions n p q r x z A K b t Hp E) as [Ps [L [F HP]]].
  rewrite (Forall2_len _ _ _ L). destruct Hp as [Hn [_ [SA _]]]. apply (conjugate_count n A Ps Hn SA HP F).
Qed.

(** ** C37: when the algorithm finishes the equations are solved *)
Theorem C37_finish : forall n p q r x z A K b e t (X : Z -> R), cg_problem n p q r x z A K ->
  plcg_exec H I n p q r x z A b K (e :: t) -> state_of e = CG_FINISH -> has (mem_of e) x n 1 X ->
  forall i, 0 <= i < n -> mulv n A X i = b i.
Proof.
  intros n p q r x z A K b e t X Hp E S HX. pose proof Hp as Hp'. prob Hp. inv E.
  destruct PI as [hs [P [Q [V0 [X0 [[C1 [C2 [C3 C4]]] D]]]]]].
  destruct D as [[S' _]|[[[S'|[S' _]] _]|[[S' _]|[_ [B [Hz _]]]]]]; try (rewrite S' in S; discriminate).
  intros i Hi.
  assert (R0 := C37_residual n p q r x z A K b e t V0 X Hp' E ltac:(left; rewrite S; discriminate) C3 HX i Hi).
  destruct (nonzero_or n V0) as [Hnz|Hz0]; [pose proof (pre_pos n z K SK PK V0 Hnz); lra|].
  rewrite (Hz0 i Hi) in R0. lra.
Qed.

(** ** C37: each iterate minimizes the quadratic function over all the combinations of the search directions so far *)
Theorem C37_optimal : forall n p q r x z A K b e t (X : Z -> R) (Ps : list (Z -> R)) c, cg_problem n p q r x z A K ->
  plcg_exec H I n p q r x z A b K (e :: t) -> state_of e = CG_NEWX -> has (mem_of e) x n 1 X ->
  Forall2 (fun (e : result) P => has (mem_of e) p n 1 P) (filter is_dir t) Ps ->
  (quad n A b X <= quad n A b (fun i => X i + lin c Ps i))%R.
Proof.
  intros n p q r x z A K b e t X Ps c Hp E S HX HPs. prob Hp. inv E.
  destruct PI as [hs [P [Q [V0 [X0 [[C1 [C2 [C3 C4]]] D]]]]]].
  pose proof (has_fun H I _ _ _ _ _ C4 HX) as EX.
  destruct D as [[S' _]|[[_ [B [_ L]]]|[[S' _]|[S' _]]]]; try (rewrite S' in S; discriminate).
  assert (Ef : filter is_dir (e :: t) = filter is_dir t) by (cbn [filter]; unfold is_dir at 1; rewrite S; reflexivity).
  rewrite Ef in L.
  assert (EL : forall c (es : list result) (ps ps' : list (Z -> R)), Forall2 (fun (e : result) P => has (mem_of e) p n 1 P) es ps ->
    Forall2 (fun (e : result) P => has (mem_of e) p n 1 P) es ps' -> same n (lin c ps) (lin c ps')).
  { clear. intros c es ps ps' F. revert c ps'. induction F as [|e v es vs Hv F IH]; intros c ps' F'; inversion F'; subst; [apply same_refl|].
    intros i Hi. destruct c as [|c0 c]; [reflexivity|]. cbn [lin].
    rewrite (has_fun H I _ _ _ _ _ Hv ltac:(eassumption) i Hi). f_equal. apply (IH c); assumption. }
  rewrite (quad_ext n A b X X0 (same_sym n X0 X EX)).
  refine (Rle_trans _ _ _ (base_best n z A K b SA PA hs X0 V0 c (n_base _ _ _ _ _ _ _ _ _ _ B)) _).
  apply Req_le. apply quad_ext. intros i Hi. rewrite (EX i Hi). f_equal. apply (EL c _ _ _ L HPs i Hi).
Qed.

(** ** C37: the algorithm terminates: it finishes in at most 3 n + 4 calls *)
Lemma direction_state : forall n p r z (rho : @rhos NR) M e, direction (N := NR) n p r z rho M = Some e ->
  state_of e = CG_NON_CONVEX \/ state_of e = CG_FINISH \/ is_dir e = true.
Proof.
  intros n p r z rho M e E. unfold direction in E. destruct (dot n r 1 z 1 M) as [rz|]; [|discriminate].
  cbn [rho0 rho1 rho2 rho3 rho4] in E. destruct (nle rz ZERO) eqn:L.
  - injection E as <-. unfold state_of. cbn [fst snd]. match goal with |- context [if ?c then _ else _] => destruct c end; [left|right; left]; reflexivity.
  - assert (G : forall o : option (NR * (Z -> option NR)), (do (beta, M0) <- o; Some (mkrho (N := NR) (rho0 rho) rz (rho2 rho) beta (rho4 rho), CG_AP, M0)) = Some e -> is_dir e = true).
    { intros [[be M0]|] G; [|discriminate]. injection G as <-. unfold is_dir, state_of, rho_of. cbn [fst snd rho1].
      unfold ZERO in L. cbn [nlt nle nZ NumR] in *. destruct (Rle_bool_spec rz 0) as [|Hlt]; [discriminate|].
      rewrite Rlt_bool_true by exact Hlt. reflexivity. }
    right. right. apply (G _ E).
Qed.

Theorem C37_terminates : forall n p q r x z A K b e t, cg_problem n p q r x z A K ->
  plcg_exec H I n p q r x z A b K (e :: t) -> 3 * n + 3 < Z.of_nat (length (e :: t)) -> state_of e = CG_FINISH.
Proof.
  intros n p q r x z A K b e t Hp E Hlen.
  pose proof (C37_count n p q r x z A K b (e :: t) Hp E) as Hcount.
  assert (G : forall t', plcg_exec H I n p q r x z A b K t' ->
    match t' with
    | [] => True
    | e' :: _ =>
      state_of e' = CG_FINISH \/
      length t' = 1%nat /\ (state_of e' = CG_NEWX \/ state_of e' = CG_AP) \/
      let c := length (filter is_dir t') in
      (state_of e' = CG_AP /\ is_dir e' = true /\ (length t' <= 3 * c + 1)%nat) \/
      (state_of e' = CG_NEWX /\ (length t' <= 3 * c + 2)%nat) \/
      (state_of e' = CG_PRECOND /\ (length t' <= 3 * c + 3)%nat)
    end).
  { clear e t E Hlen Hcount. intros t' E. induction E as [rho st M e Hst Hr Hc|e t M e' E IH Hcl Hc].
    - right. left. split; [reflexivity|].
      unfold plcg in Hc. destruct Hst as [->| ->]; cbn [Z.eqb CG_START CG_RESTART Pos.eqb] in Hc.
      + destruct (zero n x 1 M); [|discriminate]. injection Hc as <-. left. reflexivity.
      + destruct (copy n x 1 p 1 M); [|discriminate]. injection Hc as <-. right. reflexivity.
    - assert (E2 : plcg_exec H I n p q r x z A b K (e' :: e :: t)) by exact (exec_next _ _ _ e t M e' E Hcl Hc).
      pose proof (C37_states n p q r x z A K b e' (e :: t) Hp E2) as St.
      assert (Hdir : forall zz M0, direction (N := NR) n p r zz (rho_of e) M0 = Some e' ->
        state_of e' = CG_FINISH \/ (state_of e' = CG_AP /\ is_dir e' = true)).
      { intros zz M0 D. apply direction_state in D. destruct D as [D|[D|D]]; [|left; exact D|].
        - rewrite D in St. destruct St as [St|[St|[[St _]|St]]]; discriminate.
        - right. split; [|exact D]. unfold is_dir in D. apply andb_prop in D as [D _]. apply Z.eqb_eq. exact D. }
      assert (Hnd : is_dir e = true -> state_of e = CG_AP).
      { intros D. unfold is_dir in D. apply andb_prop in D as [D _]. apply Z.eqb_eq. exact D. }
      set (c := length (filter is_dir (e :: t))) in *.
      assert (Hc' : length (filter is_dir (e' :: e :: t)) = (if is_dir e' then S c else c)).
      { change (filter is_dir (e' :: e :: t)) with (if is_dir e' then e' :: filter is_dir (e :: t) else filter is_dir (e :: t)).
        unfold c. destruct (is_dir e'); reflexivity. }
      cbv zeta in IH |- *. rewrite Hc'. clear Hc'.
      replace (length (e' :: e :: t)) with (S (length (e :: t))) by reflexivity.
      set (l := length (e :: t)) in *. clearbody c l.
      (* the state before the call *)
      assert (Hs : state_of e = CG_FINISH \/ state_of e = CG_NEWX \/ state_of e = CG_AP \/ state_of e = CG_PRECOND) by (clear - IH; tauto).
      destruct Hs as [Hs|[Hs|[Hs|Hs]]]; rewrite Hs in Hc; unfold plcg in Hc; cbn [Z.eqb CG_START CG_RESTART CG_NEWX CG_PRECOND CG_AP CG_FINISH Pos.eqb orb] in Hc.
      + injection Hc as <-. left. reflexivity.
      + assert (Hl : (l <= 3 * c + 2)%nat).
        { destruct IH as [IH|[[IH _]|[[IH _]|[[_ IH]|[IH _]]]]]; try (rewrite Hs in IH; discriminate); lia. }
        destruct z as [zz|].
        * injection Hc as <-. right. right. right. right. split; [reflexivity|]. match goal with |- context [if ?d then _ else _] => destruct d end; lia.
        * destruct (Hdir r M Hc) as [D|[D1 D2]]; [left; exact D|]. right. right. left. split; [exact D1|]. split; [exact D2|].
          rewrite D2. lia.
      + assert (Hl : (l <= 3 * c + 1)%nat).
        { destruct IH as [IH|[[IH _]|[[_ [_ IH]]|[[IH _]|[IH _]]]]]; try (rewrite Hs in IH; discriminate); lia. }
        destruct (nlt ZERO (rho1 (rho_of e))).
        * destruct (dot n p 1 q 1 M) as [pq|]; [|discriminate]. destruct (nle pq ZERO).
          { injection Hc as <-. destruct St as [St|[St|[[St _]|St]]]; discriminate. }
          cbv zeta in Hc. match type of Hc with context [neq ?a ZERO] => set (al := a) in Hc end. destruct (neq al ZERO).
          { injection Hc as <-. left. reflexivity. }
          destruct (axpy n al p 1 x 1 M) as [M1|]; [|discriminate]. destruct (axpy n (nopp al) q 1 r 1 M1) as [M2|]; [|discriminate].
          injection Hc as <-. right. right. right. left. split; [reflexivity|]. match goal with |- context [if ?d then _ else _] => destruct d end; lia.
        * destruct (axpy n (nZ (-1)) q 1 r 1 M) as [M1|]; [|discriminate].
          injection Hc as <-. right. right. right. left. split; [reflexivity|]. match goal with |- context [if ?d then _ else _] => destruct d end; lia.
      + assert (Hl : (l <= 3 * c + 3)%nat).
        { destruct IH as [IH|[[_ [IH|IH]]|[[IH _]|[[IH _]|[_ IH]]]]]; try (rewrite Hs in IH; discriminate); lia. }
        destruct z as [zz|]; [|discriminate].
        destruct (Hdir zz M Hc) as [D|[D1 D2]]; [left; exact D|]. right. right. left. split; [exact D1|]. split; [exact D2|].
        rewrite D2. lia. }
  specialize (G (e :: t) E). cbv zeta in G. destruct Hp as [Hn _].
  destruct G as [G|[[G _]|[[_ [_ G]]|[[_ G]|[_ G]]]]]; [exact G|exfalso; lia..].
Qed.

(** ** C38: OPK_TRCG *)
Ltac tprob Hp := destruct Hp as [Hn [Hap [SA Hdelta]]].
Ltac tinv E := match type of E with trcg_exec _ _ ?n ?p ?q ?r ?x ?z ?A ?b ?delta ?t =>
  pose proof (exec_inv_tr H I n p q r x z A b delta ltac:(assumption) ltac:(assumption) ltac:(assumption) ltac:(assumption) t E) as TI end.

(** No call reads or writes out of the arrays *)
Theorem C38_start : forall n p q r x z A b delta rho st M, tr_problem n p q r x z A delta ->
  st = CG_START \/ st = CG_RESTART -> cg_ready H I n p q r x z b M ->
  exists e, trcg (N := NR) n p q r x z delta rho st M = Some e.
Proof.
  intros n p q r x z A b delta rho st M Hp Hst Hr. tprob Hp.
  destruct (first_inv_tr H I n p q r x z A b delta Hap Hdelta rho st M Hst Hr) as [e [E _]]. exists e. exact E.
Qed.

Theorem C38_next : forall n p q r x z A b delta e t M, tr_problem n p q r x z A delta ->
  trcg_exec H I n p q r x z A b delta (e :: t) ->
  cg_caller H I n p q r z A (fun _ _ => True) (state_of e) (mem_of e) M ->
  exists e', trcg (N := NR) n p q r x z delta (rho_of e) (state_of e) M = Some e' /\
    trcg_exec H I n p q r x z A b delta (e' :: e :: t).
Proof.
  intros n p q r x z A b delta e t M Hp E Hc. tprob Hp. tinv E.
  destruct (step_inv_tr H I n p q r x z A b delta Hn Hap Hdelta SA e t M TI Hc) as [e' [X [X' [E' _]]]].
  exists e'. split; [exact E'|]. apply (exec_next _ _ _ e t M e' E Hc E').
Qed.

(** There is never an error; the problem is never found to be non-convex without a preconditioner *)
Theorem C38_states : forall n p q r x z A b delta e t, tr_problem n p q r x z A delta ->
  trcg_exec H I n p q r x z A b delta (e :: t) ->
  state_of e = CG_NEWX \/ state_of e = CG_AP \/ (state_of e = CG_PRECOND /\ z <> None) \/ state_of e = CG_FINISH \/
  state_of e = CG_TRUNCATED \/ (state_of e = CG_NON_CONVEX /\ z <> None).
Proof.
  intros n p q r x z A b delta e t Hp E. tprob Hp. tinv E.
  destruct TI as [P [Q [V [X [C [R4 D]]]]]].
  destruct D as [[S _]|[[[S|[S Hz]] _]|[[S _]|[[S _]|[[S [_ [_ Hz]]]|[S _]]]]]]; rewrite S; tauto.
Qed.

(** ** C38: the iterates remain in the trust region, and they are on its boundary if and only if the state is
    OPK_CG_TRUNCATED.  The norm is available in rho[4]. *)
Theorem C38_norm : forall n p q r x z A b delta e t (X : Z -> R), tr_problem n p q r x z A delta ->
  trcg_exec H I n p q r x z A b delta (e :: t) -> has (mem_of e) x n 1 X ->
  (norm n X <= delta)%R /\ (state_of e = CG_TRUNCATED <-> norm n X = delta) /\ rho4 (rho_of e) = norm n X.
Proof.
  intros n p q r x z A b delta e t X Hp E HX. tprob Hp. tinv E.
  destruct TI as [P [Q [V [X0 [[C1 [C2 [C3 C4]]] [R4 D]]]]]].
  rewrite (norm_ext n X X0 (has_fun H I _ _ _ _ _ HX C4)).
  assert (G : (norm n X0 < delta)%R -> state_of e <> CG_TRUNCATED ->
    (norm n X0 <= delta)%R /\ (state_of e = CG_TRUNCATED <-> norm n X0 = delta) /\ rho4 (rho_of e) = norm n X0).
  { intros L S. split; [lra|]. split; [|exact R4]. split; intros F; [contradiction|lra]. }
  destruct D as [[S [_ [_ [_ [_ L]]]]]|[[[S|[S _]] [_ [L _]]]|[[S [_ [L _]]]|[[S [_ [L _]]]|[[S [_ [L _]]]|[S [L _]]]]]]];
    try (apply G; [exact L|rewrite S; discriminate]).
  split; [lra|]. split; [|exact R4]. tauto.
Qed.

(** ** C38: each step is the best one along the search direction inside of the trust region, and decreases the quadratic
    function, whatever A; nothing else changes the variables *)
Theorem C38_step : forall n p q r x z A b delta e' e t (X P : Z -> R), tr_problem n p q r x z A delta ->
  trcg_exec H I n p q r x z A b delta (e' :: e :: t) -> is_dir e = true ->
  has (mem_of e) x n 1 X -> has (mem_of e) p n 1 P ->
  (state_of e' = CG_NEWX \/ state_of e' = CG_TRUNCATED) /\ (0 < rho2 (rho_of e'))%R /\
  exists X' : Z -> R, has (mem_of e') x n 1 X' /\
    (forall i, 0 <= i < n -> X' i = (X i + rho2 (rho_of e') * P i)%R) /\
    (forall s, (0 <= s)%R -> (norm n (fun i => X i + s * P i)%R <= delta)%R ->
      (quad n A b X' <= quad n A b (fun i => X i + s * P i)%R)%R) /\
    (quad n A b X' < quad n A b X)%R.
Proof.
  intros n p q r x z A b delta e' e t X P Hp E Hd HX HP. pose proof Hp as Hp'. tprob Hp.
  inversion E as [|e0 t0 M e0' E0 Hc Hcall]; subst. change (trcg_exec H I n p q r x z A b delta (e :: t)) in E0.
  pose proof (exec_inv_tr H I n p q r x z A b delta Hn Hap Hdelta SA _ E0) as TI0.
  destruct (step_inv_tr H I n p q r x z A b delta Hn Hap Hdelta SA e t M TI0 Hc) as [e1 [X0 [X1 [E1 [TI1 [HX0 [HX1 D]]]]]]].
  rewrite E1 in Hcall. injection Hcall as <-. rewrite Hd in D. destruct D as [Hdec [P0 [Hal [HP0 [EX' Hbest]]]]].
  pose proof (has_fun H I _ _ _ _ _ HX0 HX) as EX. pose proof (has_fun H I _ _ _ _ _ HP0 HP) as EP.
  split; [|split; [exact Hal|]].
  - assert (S : state_of e = CG_AP) by (unfold is_dir in Hd; apply andb_prop in Hd as [S _]; apply Z.eqb_eq; exact S).
    destruct TI0 as [P2 [Q2 [V2 [X2 [C2 [R4 D2]]]]]].
    destruct D2 as [[_ [_ [R1 _]]]|[[[S'|[S' _]] _]|[[_ [HR [HL [Hr1 Hpv]]]]|[[S' _]|[[S' _]|[S' _]]]]]]; try (rewrite S in S'; discriminate).
    { exfalso. unfold is_dir in Hd. cbn [nlt nZ NumR] in Hd. rewrite R1 in Hd. rewrite Rlt_bool_false in Hd by lra. rewrite andb_false_r in Hd. discriminate. }
    rewrite S in Hc, E1. unfold cg_caller in Hc. cbn [Z.eqb Pos.eqb CG_AP] in Hc. destruct Hc as [F [P' [HP' HQ]]].
    pose proof (cont_q H I n p q r x z Hap _ M P2 Q2 V2 X2 _ C2 HQ F) as C'.
    destruct (call_step_tr H I n p q r x z delta Hn Hap Hdelta (rho_of e) M P2 _ V2 X2 C' Hr1 R4 HL Hpv) as [al [st [M' [Ec [_ [_ [_ [_ D3]]]]]]]].
    rewrite Ec in E1. injection E1 as <-. unfold state_of. cbn [fst snd]. destruct D3 as [[-> _]|[-> _]]; tauto.
  - exists X1. split; [exact HX1|]. split; [intros i Hi; rewrite (EX' i Hi), (EX i Hi), (EP i Hi); reflexivity|]. split.
    + intros s Hs Hns. assert (ES : same n (fun i => X0 i + s * P0 i)%R (fun i => X i + s * P i)%R).
      { intros i Hi. rewrite (EX i Hi), (EP i Hi). reflexivity. }
      rewrite <- (quad_ext n A b _ _ ES). apply Hbest; [exact Hs|]. rewrite (norm_ext n _ _ ES). exact Hns.
    + rewrite <- (quad_ext n A b _ _ EX). exact Hdec.
Qed.

Theorem C38_unchanged : forall n p q r x z A b delta e' e t (X : Z -> R), tr_problem n p q r x z A delta ->
  trcg_exec H I n p q r x z A b delta (e' :: e :: t) -> is_dir e = false ->
  has (mem_of e) x n 1 X -> has (mem_of e') x n 1 X.
Proof.
  intros n p q r x z A b delta e' e t X Hp E Hd HX. tprob Hp.
  inversion E as [|e0 t0 M e0' E0 Hc Hcall]; subst. change (trcg_exec H I n p q r x z A b delta (e :: t)) in E0. tinv E0.
  destruct (step_inv_tr H I n p q r x z A b delta Hn Hap Hdelta SA e t M TI Hc) as [e1 [X0 [X1 [E1 [TI1 [HX0 [HX1 D]]]]]]].
  rewrite E1 in Hcall. injection Hcall as <-. rewrite Hd in D.
  pose proof (has_fun H I _ _ _ _ _ HX0 HX) as EX. apply (has_ext H I _ x n _ _ HX1).
  exact (same_trans n X1 X0 X D EX).
Qed.

(** ** C38: the quadratic function decreases along the whole execution: strictly as soon as there is a step *)
Theorem C38_decrease : forall n p q r x z A b delta t, tr_problem n p q r x z A delta ->
  trcg_exec H I n p q r x z A b delta t ->
  forall t1 t2 e' e (X' X : Z -> R), t = t1 ++ e :: t2 -> hd e t1 = e' ->
  has (mem_of e') x n 1 X' -> has (mem_of e) x n 1 X ->
  (quad n A b X' <= quad n A b X)%R /\
  (existsb is_dir (tl (t1 ++ [e])) = true -> (quad n A b X' < quad n A b X)%R).
Proof.
  intros n p q r x z A b delta t Hp E t1. revert t E.
  induction t1 as [|e1 t1 IH]; intros t E t2 e' e X' X Et He HX' HX.
  - cbn in He. subst e'. rewrite (quad_ext n A b X' X (has_fun H I _ _ _ _ _ HX' HX)). split; [apply Rle_refl|discriminate].
  - cbn in He. subst e1. subst t. cbn [app tl].
    (* the previous call *)
    assert (Hprev : exists e2 l, t1 ++ e :: t2 = e2 :: l /\ hd e t1 = e2 /\
      (t1 ++ [e] = e2 :: tl (t1 ++ [e]))).
    { destruct t1 as [|e2 t1]; [exists e, t2|exists e2, (t1 ++ e :: t2)]; repeat split. }
    destruct Hprev as [e2 [l [El [Eh Etl]]]]. cbn [app] in E. rewrite El in E.
    assert (E' : trcg_exec H I n p q r x z A b delta (e2 :: l)) by (inversion E; assumption).
    rewrite <- El in E'.
    assert (HX2 : exists X2 : Z -> R, has (mem_of e2) x n 1 X2).
    { rewrite El in E'. tprob Hp. tinv E'. destruct TI as [P [Q [V [X2 [[C1 [C2 [C3 C4]]] _]]]]]. exists X2. exact C4. }
    destruct HX2 as [X2 HX2].
    destruct (IH _ E' t2 e2 e X2 X eq_refl Eh HX2 HX) as [Hle Hlt].
    rewrite Etl. cbn [existsb].
    assert (HP2 : exists P2 : Z -> R, has (mem_of e2) p n 1 P2).
    { rewrite El in E'. clear IH. tprob Hp. tinv E'. destruct TI as [P [Q [V [X3 [[C1 [C2 [C3 C4]]] _]]]]]. exists P. exact C1. }
    destruct HP2 as [P2 HP2].
    destruct (is_dir e2) eqn:D.
    + destruct (C38_step n p q r x z A b delta e' e2 l X2 P2 Hp E D HX2 HP2) as [_ [_ [X3 [HX3 [_ [_ Hd]]]]]].
      rewrite (quad_ext n A b X' X3 (has_fun H I _ _ _ _ _ HX' HX3)). split; [lra|intros _; lra].
    + pose proof (C38_unchanged n p q r x z A b delta e' e2 l X2 Hp E D HX2) as HX3.
      rewrite (quad_ext n A b X' X2 (has_fun H I _ _ _ _ _ HX' HX3)). split; [exact Hle|exact Hlt].
Qed.

(** ** C38: the residuals are those of the variables, unless the product by A of the initial variables has still to be
    computed or the initial variables are out of the trust region *)
Theorem C38_residual : forall n p q r x z A b delta e t (V X : Z -> R), tr_problem n p q r x z A delta ->
  trcg_exec H I n p q r x z A b delta (e :: t) ->
  state_of e <> CG_AP \/ is_dir e = true -> (exists e', In e' (e :: t) /\ state_of e' <> CG_TRUNCATED) ->
  has (mem_of e) r n 1 V -> has (mem_of e) x n 1 X ->
  forall i, 0 <= i < n -> V i = (b i - mulv n A X i)%R.
Proof.
  intros n p q r x z A b delta e t V X Hp E Hd [e' [He' He't]] HV HX. tprob Hp. tinv E.
  destruct TI as [P [Q [V0 [X0 [[C1 [C2 [C3 C4]]] [R4 D]]]]]].
  pose proof (has_fun H I _ _ _ _ _ C3 HV) as EV. pose proof (has_fun H I _ _ _ _ _ C4 HX) as EX.
  assert (G : same n V0 (fun i => b i - mulv n A X0 i)%R).
  { destruct D as [[S [_ [R1 _]]]|[[_ [HR _]]|[[_ [HR _]]|[[_ [HR _]]|[[_ [HR _]]|[_ [_ [HR|HR]]]]]]]]; try exact HR.
    - exfalso. destruct Hd as [Hd|Hd]; [contradiction|]. unfold is_dir in Hd. cbn [nlt nZ NumR] in Hd. rewrite R1 in Hd.
      rewrite Rlt_bool_false in Hd by lra. rewrite andb_false_r in Hd. discriminate.
    - exfalso. apply He't. rewrite Forall_forall in HR. apply HR. exact He'. }
  intros i Hi. rewrite <- (EV i Hi), (G i Hi), (mulv_ext n A X0 X EX i Hi). reflexivity.
Qed.

(** ** C38: without a preconditioner, the equations are solved when the algorithm finishes *)
Theorem C38_finish : forall n p q r x A b delta e t (X : Z -> R), tr_problem n p q r x None A delta ->
  trcg_exec H I n p q r x None A b delta (e :: t) -> state_of e = CG_FINISH -> has (mem_of e) x n 1 X ->
  forall i, 0 <= i < n -> mulv n A X i = b i.
Proof.
  intros n p q r x A b delta e t X Hp E S HX. tprob Hp. tinv E.
  destruct TI as [P [Q [V0 [X0 [[C1 [C2 [C3 C4]]] [R4 D]]]]]].
  destruct D as [[S' _]|[[[S'|[S' _]] _]|[[S' _]|[[_ [HR [_ Hv]]]|[[S' _]|[S' _]]]]]]; try (rewrite S' in S; discriminate).
  intros i Hi. pose proof (dotp_sq_0 n V0 (Hv eq_refl) i Hi) as Z0. rewrite (HR i Hi) in Z0.
  rewrite (mulv_ext n A X X0 (has_fun H I _ _ _ _ _ HX C4) i Hi). lra.
Qed.

End Props.

(** * Examples *)

(** 50 cells whose content is 0 but those of [b] which is at address 20 *)
Definition cells {N : Num} (b0 b1 : N) (a : Z) : option N :=
  if a =? 20 then Some b0 else if a =? 21 then Some b1 else if (0 <=? a) && (a <? 50) then Some (nZ 0) else None.

Definition exA (i j : Z) : Z := match i, j with 0, 0 => 4 | 1, 1 => 3 | _, _ => 1 end.
Definition exAR (i j : Z) : R := IZR (exA i j).
Definition exb (i : Z) : R := if i =? 0 then 1%R else 2%R.

Lemma ex_apart : arrays_apart 2 0 10 20 30 None.
Proof. repeat split; intros i j Hi Hj; rewrite !elt_1; lia. Qed.

Lemma ex_problem : cg_problem 2 0 10 20 30 None exAR exAR.
Proof.
  split; [lia|]. split; [apply ex_apart|]. split; [|split].
  - intros i j Hi Hj. assert (i = 0 \/ i = 1) as [->| ->] by lia; assert (j = 0 \/ j = 1) as [->| ->] by lia; reflexivity.
  - intros v [k [Hk Hv]]. repeat first [rewrite (sumz_left 0 2) by lia|rewrite (sumz_left (0 + 1) 2) by lia|rewrite (sumz_empty (0 + 1 + 1) 2) by lia].
    unfold exAR. cbn [exA]. change (exA 0 (0 + 1)) with 1. change (exA (0 + 1) (0 + 1)) with 3. change (exA (0 + 1) 0) with 1.
    change (0 + 1) with 1. pose proof (Rsqr_pos_lt _ Hv) as Hs. pose proof (Rle_0_sqr (v 0 + v 1)) as Ht.
    pose proof (Rle_0_sqr (v 0)). pose proof (Rle_0_sqr (v 1)). unfold Rsqr in *.
    assert (k = 0 \/ k = 1) as [->| ->] by lia; lra.
  - intros h. contradiction.
Qed.

Lemma ex_ready : forall H I, cg_ready H I 2 0 10 20 30 None exb (cells (N := NumR H I) 1%R 2%R).
Proof.
  intros H I.
  assert (G : forall a, (forall i, 0 <= i < 2 -> elt a 2 1 i <> 20 /\ elt a 2 1 i <> 21 /\ 0 <= elt a 2 1 i < 50) ->
    exists X, has_vec (N := NumR H I) (cells (N := NumR H I) 1%R 2%R) a 2 1 X).
  { intros a Ha. exists (fun _ => 0%R). intros i Hi. destruct (Ha i Hi) as [H1 [H2 H3]]. unfold cells.
    destruct (Z.eqb_spec (elt a 2 1 i) 20); [contradiction|]. destruct (Z.eqb_spec (elt a 2 1 i) 21); [contradiction|].
    destruct (Z.leb_spec 0 (elt a 2 1 i)); [|lia]. destruct (Z.ltb_spec (elt a 2 1 i) 50); [|lia]. reflexivity. }
  split; [apply G; intros i Hi; rewrite elt_1; lia|]. split; [apply G; intros i Hi; rewrite elt_1; lia|]. split.
  - intros i Hi. rewrite elt_1. assert (i = 0 \/ i = 1) as [->| ->] by lia; reflexivity.
  - split; [apply G; intros i Hi; rewrite elt_1; lia|exact Logic.I].
Qed.

(** An execution for A = (4 1; 1 3) and b = (1, 2) reaching the end of a step: the hypotheses of the theorems are met *)
Example C37_example : forall H I : R, exists e' e t,
  cg_problem 2 0 10 20 30 None exAR exAR /\ plcg_exec H I 2 0 10 20 30 None exAR exb exAR (e' :: e :: t) /\ is_dir e = true.
Proof.
  intros H I. pose proof ex_apart as Hap.
  pose proof (ex_ready H I) as Hr. pose proof Hr as [[P HP] [[Q HQ] [HV [[X HX] _]]]].
  destruct (call_start H I 2 0 10 20 30 None Hap (mkrho (N := NumR H I) 0%R 0%R 0%R 0%R 0%R) _ P Q exb X (conj HP (conj HQ (conj HV HX))))
    as [M1 [E1 [C1 [C2 [C3 C4]]]]].
  pose proof (exec_first (cg_ready H I 2 0 10 20 30 None exb) (plcg (N := NumR H I) 2 0 10 20 30 None)
    (cg_caller H I 2 0 10 20 None exAR (by_matrix 2 exAR)) _ CG_START _ _ (or_introl eq_refl) Hr E1) as X1.
  destruct (direction_spec H I 2 0 20 20 (mkrho (N := NumR H I) 0%R 0%R 0%R 0%R 0%R) M1 P exb exb ltac:(lia) C1 C3 C3)
    as [rho2 [st2 [M2 [E2 [_ [R1 [_ [_ D]]]]]]]]; [intros i j Hi Hj; rewrite !elt_1; lia|].
  pose proof (exec_next _ _ _ _ [] M1 (rho2, st2, M2) X1 eq_refl E2) as X2.
  assert (Hb : (0 < dotp 2 exb exb)%R).
  { unfold dotp. rewrite !(sumz_left 0 2), !(sumz_left (0 + 1) 2), !(sumz_empty (0 + 1 + 1) 2) by lia. unfold exb. cbn [Z.eqb Z.add]. lra. }
  destruct D as [[L _]|[[L _]|[_ [-> [HP2 [F2 _]]]]]]; [exfalso; lra|exfalso; lra|].
  assert (HQ2 : exists Q2, has_vec (N := NumR H I) M2 10 2 1 Q2).
  { exists Q. apply (keep H I M1 M2 0 10 2 Q F2); [|exact C2]. intros i j Hi Hj. rewrite !elt_1. lia. }
  destruct HQ2 as [Q2 HQ2].
  destruct (write_there H I 2 10 M2 Q2 (mulv 2 exAR (fun i => exb i + rho3 rho2 * P i)%R) HQ2) as [M3 [B3 F3]].
  destruct (C37_next H I 2 0 10 20 30 None exAR exAR exb _ _ M3 ex_problem X2) as [e' [_ X3]].
  { unfold cg_caller, state_of, mem_of. cbn [fst snd Z.eqb Pos.eqb CG_AP]. split; [exact F3|]. eexists. split; [exact HP2|exact B3]. }
  exists e'. eexists _, _. split; [apply ex_problem|]. split; [exact X3|].
  unfold is_dir, state_of, rho_of. cbn [fst snd nlt nZ NumR Z.eqb Pos.eqb CG_AP andb]. rewrite R1. apply Rlt_bool_true. exact Hb.
Qed.

(** Executions in double precision with the same A and b, the caller being played by [play] *)
Section Play.
Context {N : Num}.
Variable call : @rhos N -> Z -> (Z -> option N) -> option (@result N).

Definition play (M : Z -> option N) : Z -> option N :=
  let q i := match M 0, M 1 with Some a, Some b => Some (nZ (exA i 0) * a + nZ (exA i 1) * b)%num | _, _ => None end in
  fun a => if a =? 10 then q 0 else if a =? 11 then q 1 else M a.

Fixpoint run (k : nat) (rho : @rhos N) (st : Z) (M : Z -> option N) : list Z * option (N * N) :=
  match k with
  | O => ([], match M 30, M 31 with Some a, Some b => Some (a, b) | _, _ => None end)
  | S k => match call rho st M with
           | None => ([], None)
           | Some (rho, st, M) => let (l, x) := run k rho st (if st =? CG_AP then play M else M) in (st :: l, x)
           end
  end.
End Play.

Definition close {N : Num} (a : N) (u v : Z) : bool := (nabs (nZ v * a - nZ u) <? nQ 1 1000000)%num.

(** OPK_LCG finds (1/11, 7/11) in two steps *)
Example C37_run :
  let (l, x) := run (lcg (N := NumD) 2 0 10 20 30) 5 (mkrho (nZ 0) (nZ 0) (nZ 0) (nZ 0) (nZ 0)) CG_START (cells (nZ 1) (nZ 2)) in
  l = [CG_NEWX; CG_AP; CG_NEWX; CG_AP; CG_NEWX] /\
  match x with Some (a, b) => (close a 1 11 && close b 7 11)%bool = true | None => False end.
Proof. vm_compute. split; reflexivity. Qed.

(** OPK_TRCG with delta = 1/2 stops at the boundary *)
Example C38_run :
  let (l, x) := run (trcg (N := NumD) 2 0 10 20 30 None (nQ 1 2)) 5 (mkrho (nZ 0) (nZ 0) (nZ 0) (nZ 0) (nZ 0)) CG_START (cells (nZ 1) (nZ 2)) in
  l = [CG_NEWX; CG_AP; CG_TRUNCATED; CG_TRUNCATED; CG_TRUNCATED] /\
  match x with Some (a, b) => close (a * a + b * b)%num 1 4 = true | None => False end.
Proof. vm_compute. split; reflexivity. Qed.

Example C38_example : forall H I : R, exists e' e t,
  tr_problem 2 0 10 20 30 None exAR (1/2) /\ trcg_exec H I 2 0 10 20 30 None exAR exb (1/2) (e' :: e :: t) /\ is_dir e = true.
Proof.
  intros H I. pose proof ex_apart as Hap.
  assert (Hp : tr_problem 2 0 10 20 30 None exAR (1/2)).
  { destruct ex_problem as [H1 [H2 [H3 _]]]. split; [exact H1|]. split; [exact H2|]. split; [exact H3|lra]. }
  pose proof (ex_ready H I) as Hr.
  destruct (C38_start H I 2 0 10 20 30 None exAR exb (1/2) (mkrho (N := NumR H I) 0%R 0%R 0%R 0%R 0%R) CG_START _ Hp (or_introl eq_refl) Hr) as [e1 E1].
  pose proof (exec_first (cg_ready H I 2 0 10 20 30 None exb) (trcg (N := NumR H I) 2 0 10 20 30 None (1/2)%R)
    (cg_caller H I 2 0 10 20 None exAR (fun _ _ => True)) _ CG_START _ _ (or_introl eq_refl) Hr E1) as X1.
  pose proof (C38_residual H I 2 0 10 20 30 None exAR exb (1/2)) as Res.
  assert (S1 : state_of e1 = CG_NEWX).
  { unfold trcg in E1. destruct (nle _ ZERO) eqn:L in E1; [cbn [nle nZ NumR ZERO] in L; unfold ZERO in L; cbn [nle nZ NumR] in L; destruct (Rle_bool_spec (1/2) 0); [lra|discriminate]|].
    cbn [Z.eqb CG_START] in E1. destruct (zero 2 30 1 _) as [M1|]; [|discriminate]. injection E1 as <-. reflexivity. }
  destruct (C38_next H I 2 0 10 20 30 None exAR exb (1/2) e1 [] (mem_of e1) Hp X1) as [e2 [E2 X2]]; [unfold cg_caller; rewrite S1; reflexivity|].
  assert (D2 : is_dir e2 = true).
  { pose proof E2 as E2'. rewrite S1 in E2'. unfold trcg in E2'. destruct (nle _ ZERO) eqn:L in E2'; [unfold ZERO in L; cbn [nle nZ NumR] in L; destruct (Rle_bool_spec (1/2) 0); [lra|discriminate]|].
    cbn [Z.eqb CG_START CG_RESTART CG_NEWX Pos.eqb] in E2'. apply direction_state in E2'.
    destruct E2' as [S2|[S2|S2]]; [| |exact S2]; exfalso.
    - destruct (C38_states H I 2 0 10 20 30 None exAR exb (1/2) e2 [e1] Hp X2) as [S|[S|[[S _]|[S|[S|[_ S]]]]]]; try (rewrite S2 in S; discriminate). contradiction.
    - destruct (exec_inv_tr H I 2 0 10 20 30 None exAR exb (1/2) ltac:(lia) Hap ltac:(lra) (proj1 (proj2 (proj2 Hp))) _ X2) as [P [Q [V [X [C [R4 _]]]]]].
      pose proof (proj2 (proj2 (proj2 C))) as HX.
      assert (HX1 : exists X1 : Z -> R, has_vec (N := NumR H I) (mem_of e1) 30 2 1 X1 /\ same 2 X1 (fun _ => 0%R)).
      { unfold trcg in E1. destruct (nle _ ZERO) in E1; [injection E1 as <-; discriminate|]. cbn [Z.eqb CG_START] in E1.
        destruct (zero1 H I 2 30 (cells (N := NumR H I) 1%R 2%R) (fun _ => 0%R)) as [M1 [Ez [B1 _]]].
        - intros i Hi. rewrite elt_1. assert (i = 0 \/ i = 1) as [->| ->] by lia; reflexivity.
        - rewrite Ez in E1. injection E1 as <-. exists (fun _ => 0%R). split; [exact B1|apply same_refl]. }
      destruct HX1 as [X1' [HX1' EX1]].
      assert (D1 : is_dir e1 = false) by (unfold is_dir; rewrite S1; reflexivity).
      pose proof (C38_unchanged H I 2 0 10 20 30 None exAR exb (1/2) e2 e1 [] X1' Hp X2 D1 HX1') as HX2.
      pose proof (C38_finish H I 2 0 10 20 30 exAR exb (1/2) e2 [e1] X1' Hp X2 S2 HX2 0 ltac:(lia)) as F.
      rewrite (mulv_ext 2 exAR X1' _ EX1 0 ltac:(lia)) in F. unfold mulv in F. rewrite sumz_zero in F by (intros; ring).
      unfold exb in F. cbn [Z.eqb] in F. lra. }
  assert (S2 : state_of e2 = CG_AP) by (unfold is_dir in D2; apply andb_prop in D2 as [S2 _]; apply Z.eqb_eq; exact S2).
  destruct (exec_inv_tr H I 2 0 10 20 30 None exAR exb (1/2) ltac:(lia) Hap ltac:(lra) (proj1 (proj2 (proj2 Hp))) _ X2) as [P [Q [V [X [[C1 [C2 _]] _]]]]].
  destruct (write_there H I 2 10 _ Q (mulv 2 exAR P) C2) as [M3 [B3 F3]].
  destruct (C38_next H I 2 0 10 20 30 None exAR exb (1/2) e2 [e1] M3 Hp X2) as [e3 [_ X3]].
  { unfold cg_caller. rewrite S2. cbn [Z.eqb Pos.eqb CG_AP]. split; [exact F3|]. exists P. split; assumption. }
  exists e3, e2, [e1]. split; [exact Hp|]. split; [exact X3|exact D2].
Qed.

(** ** C38: after OPK_CG_RESTART with variables out of the trust region, [r] does not store the residuals of the returned
    variables, whatever its documentation says (optimpack-linalg.h 1171-1174): A = 1, b = 5, x = 2, delta = 1 *)
Theorem C38_residual_refuted : forall H I : R, exists e (V X : Z -> R),
  tr_problem 1 0 1 2 3 None (fun _ _ => 1%R) 1 /\
  trcg_exec H I 1 0 1 2 3 None (fun _ _ => 1%R) (fun _ => 5%R) 1 [e] /\ state_of e = CG_TRUNCATED /\
  has_vec (N := NumR H I) (mem_of e) 2 1 1 V /\ has_vec (N := NumR H I) (mem_of e) 3 1 1 X /\
  V 0 <> (5 - mulv 1 (fun _ _ => 1%R) X 0)%R.
Proof.
  intros H I. set (M := (fun a : Z => Some (if a =? 2 then 5%R else 2%R)) : Z -> option (NumR H I)).
  assert (Hap : arrays_apart 1 0 1 2 3 None) by (repeat split; intros i j Hi Hj; rewrite !elt_1; lia).
  assert (HX : has_vec (N := NumR H I) M 3 1 1 (fun _ => 2%R)) by (intros i Hi; rewrite elt_1; replace i with 0 by lia; reflexivity).
  assert (HV : has_vec (N := NumR H I) M 2 1 1 (fun _ => 5%R)) by (intros i Hi; rewrite elt_1; replace i with 0 by lia; reflexivity).
  assert (En : norm 1 (fun _ => 2%R) = 2%R).
  { unfold norm, dotp. rewrite (sumz_left 0 1), (sumz_empty (0 + 1) 1) by lia. rewrite Rplus_0_r. apply sqrt_square. lra. }
  destruct (scal1 H I 1 (1 / 2)%R 3 M (fun _ => 2%R) HX) as [M' [E [B F]]].
  assert (Ec : trcg (N := NumR H I) 1 0 1 2 3 None 1%R (mkrho (N := NumR H I) 0%R 0%R 0%R 0%R 0%R) CG_RESTART M
    = Some (mkrho (N := NumR H I) 0%R 0%R 0%R 0%R 1%R, CG_TRUNCATED, M')).
  { unfold trcg, ZERO. cbn [nle nlt nZ ndiv NumR Z.eqb CG_START CG_RESTART]. rewrite (Rle_bool_false 1 0) by lra.
    cbn [Z.eqb Pos.eqb]. rewrite (nrm2_1 H I 1 3 M (fun _ => 2%R) HX), En. rewrite (Rle_bool_true 1 2) by lra. rewrite (Rlt_bool_true 1 2) by lra.
    rewrite E. reflexivity. }
  exists (mkrho (N := NumR H I) 0%R 0%R 0%R 0%R 1%R, CG_TRUNCATED, M'), (fun _ => 5%R), (fun _ => 1 / 2 * 2)%R. split; [split; [lia|]; split; [exact Hap|]; split; [intros i j _ _; reflexivity|lra]|].
  split; [refine (exec_first _ _ _ _ CG_RESTART M _ (or_intror eq_refl) _ Ec)|].
  - split; [exists (fun _ => 2%R)|]; [|split; [exists (fun _ => 2%R)|]; [|split; [exact HV|split; [eexists; exact HX|exact Logic.I]]]];
      intros i Hi; rewrite elt_1; replace i with 0 by lia; reflexivity.
  - split; [reflexivity|]. split; [|split; [exact B|]].
    + apply (keep H I M M' 3 2 1 _ F); [|exact HV]. intros i j Hi Hj. rewrite !elt_1. lia.
    + unfold mulv. rewrite (sumz_left 0 1), (sumz_empty (0 + 1) 1) by lia. lra.
Qed.

Print Assumptions C37_start.
Print Assumptions C37_next.
Print Assumptions C37_states.
Print Assumptions C37_residual.
Print Assumptions C37_step.
Print Assumptions C37_orthogonal.
Print Assumptions C37_conjugate.
Print Assumptions C37_count.
Print Assumptions C37_finish.
Print Assumptions C37_optimal.
Print Assumptions C37_terminates.
Print Assumptions C38_start.
Print Assumptions C38_next.
Print Assumptions C38_states.
Print Assumptions C38_norm.
Print Assumptions C38_step.
Print Assumptions C38_unchanged.
Print Assumptions C38_decrease.
Print Assumptions C38_residual.
Print Assumptions C38_finish.
Print Assumptions C38_residual_refuted.
