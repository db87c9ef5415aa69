(** * The search direction of the quasi-Newton optimizer in any execution *)
From Coq Require Import List ZArith Bool Arith Lia Reals Lra.
From Flocq Require Import Core.
From Verif Require Import Num NumFacts OrdFacts ListFacts VecModel VecProofs Base LsModel LsSpec LsProofs LsReal BoxSpec BoxProofs OptSpace VmModel VmSpec VmProofs
  VmRealSpec VmReal LbfgsSpec LbfgsReal LbfgsProofs.
Import ListNotations.
Local Open Scope R_scope.

Section Run.
Variables H I : R.
Notation NR := (NumR H I).
Notation c := (cast_id NR).
Variable n : nat.
Notation SR := (list_space c n).
Notation el := (el H I n).
Notation el_length := (el_length H I n).
Notation hp := (hp H I n).
Notation rho_of := (rho_of H I n).

Definition at_slot (m : Z) (b : lbfgs SR) (j : Z) (s y : SR) : Prop := nthZ (b_s b) (slot m b j) = Some s /\ nthZ (b_y b) (slot m b j) = Some y.

(** The scalars memorized by the algorithms without free variables. *)
Definition rinv (m : Z) (b : lbfgs SR) : Prop :=
  (forall j s y, (1 <= j <= b_mp b)%Z -> at_slot m b j s y -> nthZ (b_rho b) (slot m b j) = Some (rho_of (s, y) : NR)) /\
  (forall j s y, (1 <= j <= b_mp b)%Z -> at_slot m b j s y -> 0 < ip (el s) (el y) ->
     (forall i s' y', (1 <= i < j)%Z -> at_slot m b i s' y' -> ip (el s') (el y') <= 0) -> (b_gamma b : R) = ip (el s) (el y) / ip (el y) (el y)).

Lemma rinv_frame m b b' : b_s b' = b_s b -> b_y b' = b_y b -> b_rho b' = b_rho b -> b_gamma b' = b_gamma b -> b_updates b' = b_updates b -> (b_mp b' <= b_mp b)%Z ->
  rinv m b -> rinv m b'.
Proof.
  intros E1 E2 E3 E4 E5 E6 [P1 P2].
  assert (A : forall j s y, at_slot m b' j s y -> at_slot m b j s y) by (unfold at_slot; intros j s y; rewrite (slot_same m b b') by exact E5; rewrite E1, E2; auto).
  assert (B : forall j s y, at_slot m b j s y -> at_slot m b' j s y) by (unfold at_slot; intros j s y; rewrite (slot_same m b b') by exact E5; rewrite E1, E2; auto).
  split.
  - intros j s y Hj Ha. rewrite E3, (slot_same m b b') by exact E5. apply P1; [lia|auto].
  - intros j s y Hj Ha Hc Hi. rewrite E4. apply (P2 j); [lia|auto|auto|]. intros i s' y' Hi' Ha'. apply (Hi i); auto.
Qed.

(** Changing the free slot. *)
Lemma rinv_pair m b b' : lb_ok m b -> (b_mp b' < m)%Z -> (b_mp b' <= b_mp b)%Z -> b_rho b' = b_rho b -> b_gamma b' = b_gamma b -> b_updates b' = b_updates b ->
  (forall i, i <> slot m b 0 -> nthZ (b_s b') i = nthZ (b_s b) i /\ nthZ (b_y b') i = nthZ (b_y b) i) -> rinv m b -> rinv m b'.
Proof.
  intros L M M' E3 E4 E5 Q [P1 P2]. pose proof (lbo_u _ _ L). pose proof (lbo_m _ _ L).
  assert (A : forall j s y, (1 <= j <= b_mp b')%Z -> (at_slot m b' j s y <-> at_slot m b j s y)).
  { intros j s y Hj. unfold at_slot. rewrite (slot_same m b b') by exact E5. destruct (Q (slot m b j)) as [-> ->]; [|tauto].
    intros X. symmetry in X. revert X. apply slot_neq; lia. }
  split.
  - intros j s y Hj Ha. rewrite E3, (slot_same m b b') by exact E5. apply P1; [lia|]. apply A; auto.
  - intros j s y Hj Ha Hc Hi. rewrite E4. apply (P2 j); [lia|apply A; auto|auto|]. intros i s' y' Hi' Ha'. apply (Hi i); auto. apply A; auto. lia.
Qed.

Lemma update_rinv (o : vm SR) x g o' : let m := c_m (v_cfg o) in is_vmlmb (c_method (v_cfg o)) = false -> lb_ok m (v_lb o) ->
  vm_update o x g = Some o' -> rinv m (v_lb o) -> rinv m (v_lb o').
Proof.
  intros m Hm L E [P1 P2]. unfold vm_update in E. fold m in E. set (b := v_lb o) in *. set (k := slot m b 0) in *.
  pose proof (lbo_mp _ _ L) as Mp. pose proof (lbo_u _ _ L) as Mu. pose proof (lbo_m _ _ L) as M1.
  destruct (get_x0 o) as [x0|]; [|discriminate]. set (sk := vaxpby (nZ 1) x (nZ (-1)) x0) in *.
  destruct (setZ (b_s b) k sk) as [s|] eqn:Es; [|discriminate]. cbv zeta in E. destruct (get_g0 _) as [g0|]; [|discriminate]. set (yk := vaxpby (nZ 1) g (nZ (-1)) g0) in *.
  cbn [v_lb set_lb set_pair b_y b_rho b_s b_gamma b_alpha b_mp b_updates v_cfg] in E.
  destruct (setZ (b_y b) k yk) as [y|] eqn:Ey; [|discriminate]. rewrite Hm in E.
  apply setZ_some in Es. destruct Es as (_ & Qs). apply setZ_some in Ey. destruct Ey as (_ & Qy).
  set (sty := ip (el sk) (el yk)) in *. assert (Est : (vdot sk yk : R) = sty) by apply vdot_el. rewrite Est in E.
  match type of E with match ?e with _ => _ end = _ => destruct e as [b1|] eqn:Eb; [|discriminate] end.
  assert (Hb1 : b_s b1 = s /\ b_y b1 = y /\ b_mp b1 = b_mp b /\ b_updates b1 = b_updates b /\
    (forall i, nthZ (b_rho b1) i = if (i =? k)%Z then Some (rho_of (sk, yk) : NR) else nthZ (b_rho b) i) /\
    (b_gamma b1 : R) = if Rlt_bool 0 sty then sty / ip (el yk) (el yk) else b_gamma b).
  { unfold LbfgsProofs.rho_of. cbn [fst snd]. fold sty. destruct (Rlt_bool_spec 0 sty) as [C|C].
    - assert (X : nle (sty : NR) (nZ 0) = false) by (simpl; apply Rle_bool_false; exact C). rewrite X in Eb.
      destruct (setZ (b_rho b) k _) as [rh|] eqn:Er; [|discriminate]. apply setZ_some in Er. destruct Er as (_ & Qr).
      assert (Ey : (vdot yk yk : R) = ip (el yk) (el yk)) by apply vdot_el. rewrite Ey in Eb.
      assert (Y : nlt (nZ 0 : NR) (ip (el yk) (el yk) : NR) = true).
      { simpl nlt. apply Rlt_bool_true. exact (ip_pos_yy n (el sk) (el yk) (el_length sk) (el_length yk) C). }
      rewrite Y in Eb. injection Eb as <-. repeat split. exact Qr.
    - assert (X : nle (sty : NR) (nZ 0) = true) by (simpl; apply Rle_bool_true; exact C). rewrite X in Eb.
      destruct (setZ (b_rho b) k _) as [rh|] eqn:Er; [|discriminate]. apply setZ_some in Er. destruct Er as (_ & Qr).
      injection Eb as <-. repeat split. exact Qr. }
  destruct Hb1 as (B1 & B2 & B3 & B4 & B5 & B6). injection E as <-.
  set (mp := if (b_mp b1 <? m)%Z then (b_mp b1 + 1)%Z else b_mp b1) in *.
  assert (Emp : (mp <= b_mp b + 1 /\ mp <= m)%Z) by (unfold mp; destruct (Z.ltb_spec (b_mp b1) m); lia).
  match goal with |- rinv m (v_lb (set_lb _ ?bb)) => set (b' := bb) end. cbn [v_lb set_lb].
  assert (Eu : b_updates b' = (b_updates b + 1)%Z) by (simpl; lia).
  assert (S1 : slot m b' 1 = k) by (apply (slot_shift m b b' 0); exact Eu).
  assert (Sj : forall j, (2 <= j)%Z -> slot m b' j = slot m b (j - 1)) by (intros j Hj; rewrite <- (slot_shift m b b' (j - 1)) by exact Eu; f_equal; lia).
  assert (Nk : forall j, (2 <= j <= mp)%Z -> slot m b (j - 1) <> k) by (intros j Hj X; symmetry in X; revert X; apply slot_neq; lia).
  assert (A1 : forall s0 y0, at_slot m b' 1 s0 y0 -> s0 = sk /\ y0 = yk).
  { intros s0 y0 [X Y]. rewrite S1 in X, Y. cbn [b_s b_y b'] in X, Y. rewrite B1, Qs, Z.eqb_refl in X. rewrite B2, Qy, Z.eqb_refl in Y. split; congruence. }
  assert (Aj : forall j s0 y0, (2 <= j <= mp)%Z -> (at_slot m b' j s0 y0 <-> at_slot m b (j - 1) s0 y0)).
  { intros j s0 y0 Hj. unfold at_slot. rewrite Sj by lia. cbn [b_s b_y b']. rewrite B1, B2, Qs, Qy. destruct (Z.eqb_spec (slot m b (j - 1)) k) as [X|X]; [destruct (Nk j Hj X)|tauto]. }
  split.
  - intros j s0 y0 Hj Ha. cbn [b_mp b'] in Hj. cbn [b_rho b']. destruct (Z.eq_dec j 1) as [->|Hj1].
    + rewrite S1, B5, Z.eqb_refl. destruct (A1 _ _ Ha) as [-> ->]. reflexivity.
    + rewrite Sj by lia. rewrite B5. destruct (Z.eqb_spec (slot m b (j - 1)) k) as [X|X]; [destruct (Nk j ltac:(lia) X)|].
      apply P1; [lia|]. apply Aj; [lia|exact Ha].
  - intros j s0 y0 Hj Ha Hc Hi. cbn [b_mp b'] in Hj. cbn [b_gamma b']. rewrite B6. destruct (Z.eq_dec j 1) as [->|Hj1].
    + destruct (A1 _ _ Ha) as [-> ->]. fold sty in Hc |- *. rewrite Rlt_bool_true by exact Hc. reflexivity.
    + assert (N1 : sty <= 0).
      { apply (Hi 1%Z); [lia|]. split; rewrite S1; cbn [b_s b_y b']; [rewrite B1, Qs|rewrite B2, Qy]; rewrite Z.eqb_refl; reflexivity. }
      rewrite Rlt_bool_false by exact N1. apply (P2 (j - 1)%Z); [lia|apply Aj; [lia|exact Ha]|exact Hc|].
      intros i s' y' Hi' Ha'. apply (Hi (i + 1)%Z); [lia|]. apply Aj; [lia|]. replace (i + 1 - 1)%Z with i by lia. exact Ha'.
Qed.

(** ** The pairs in memory *)
Fixpoint diffs (pts : list (SR * SR)) : list (SR * SR) :=
  match pts with p :: ((q :: _) as older) => pair_of p q :: diffs older | _ => [] end.
Lemma diffs_nth pts : forall i p q, nth_error pts i = Some p -> nth_error pts (Datatypes.S i) = Some q -> nth_error (diffs pts) i = Some (pair_of p q).
Proof.
  induction pts as [|p0 pts IH]; intros i p q Hp Hq; [destruct i; discriminate|]. destruct pts as [|q0 pts]; [destruct i as [|[|i]]; discriminate|].
  destruct i as [|i]; [simpl in Hp, Hq; injection Hp as ->; injection Hq as ->; reflexivity|]. change (nth_error (diffs (q0 :: pts)) i = Some (pair_of p q)). apply IH; assumption.
Qed.
Lemma diffs_length pts : length (diffs pts) = (length pts - 1)%nat.
Proof. induction pts as [|p pts IH]; [reflexivity|]. destruct pts as [|q pts]; [reflexivity|]. change (Datatypes.S (length (diffs (q :: pts))) = (length (p :: q :: pts) - 1)%nat). rewrite IH. simpl. lia. Qed.
Lemma diffs_hp pts : map hp (diffs pts) = differences (map hp pts).
Proof.
  induction pts as [|p pts IH]; [reflexivity|]. destruct pts as [|q pts]; [reflexivity|].
  change (hp (pair_of p q) :: map hp (diffs (q :: pts)) = differences (hp p :: hp q :: map hp pts)). rewrite IH. cbn [map differences]. f_equal.
  unfold LbfgsProofs.hp, pair_of. cbn [fst snd]. f_equal.
  - exact (l_axpby_R H I n 1 (-1) (el (fst p)) (el (fst q)) (el_length _) (el_length _)).
  - exact (l_axpby_R H I n 1 (-1) (el (snd p)) (el (snd q)) (el_length _) (el_length _)).
Qed.
Definition memory (b : lbfgs SR) (pts : list (SR * SR)) := firstn (Z.to_nat (b_mp b)) (diffs pts).

Lemma nth_error_firstn' {A} (l : list A) : forall i k, (i < k)%nat -> nth_error (firstn k l) i = nth_error l i.
Proof. induction l as [|a l IH]; intros i [|k] Hk; try lia; [destruct i; reflexivity|]. destruct i as [|i]; [reflexivity|]. simpl. apply IH. lia. Qed.

Lemma memory_reads m b pts : lb_ok m b -> pairs_ok m b pts -> length (memory b pts) = Z.to_nat (b_mp b) /\ reads m b 1 (memory b pts).
Proof.
  intros L P. pose proof (lbo_mp _ _ L) as Mp. assert (Hl : length (memory b pts) = Z.to_nat (b_mp b)).
  { unfold memory. rewrite firstn_length, diffs_length. destruct (Z.eq_dec (b_mp b) 0) as [E|E]; [rewrite E; reflexivity|].
    destruct (P (b_mp b)) as (p & q & _ & X & _); [lia|]. apply nth_error_lt in X. lia. }
  split; [exact Hl|]. intros i p Hi. assert (Li := nth_error_lt _ _ _ Hi). rewrite Hl in Li.
  destruct (P (1 + Z.of_nat i)%Z) as (p0 & q0 & A1 & A2 & A3 & A4); [lia|].
  replace (Z.to_nat (1 + Z.of_nat i - 1)) with i in A1 by lia. replace (Z.to_nat (1 + Z.of_nat i)) with (Datatypes.S i) in A2 by lia.
  assert (X : nth_error (memory b pts) i = Some (pair_of p0 q0)).
  { unfold memory. rewrite <- (diffs_nth pts i p0 q0 A1 A2). apply nth_error_firstn'. lia. }
  rewrite Hi in X. injection X as ->. split; assumption.
Qed.

Lemma memory_scalars m b pts : lb_ok m b -> pairs_ok m b pts -> rinv m b -> rhos H I n m b 1 (memory b pts) /\ scale_ok H I n b (memory b pts).
Proof.
  intros L P [P1 P2]. destruct (memory_reads m b pts L P) as [Hl Rd]. pose proof (lbo_mp _ _ L) as Mp. split.
  - intros i p Hi. assert (Li := nth_error_lt _ _ _ Hi). destruct p as [s y]. apply P1; [lia|]. apply (Rd i (s, y)). exact Hi.
  - unfold scale_ok.
    assert (G : forall prs k, (forall i p, nth_error prs i = Some p -> at_slot m b (Z.of_nat k + 1 + Z.of_nat i) (fst p) (snd p) /\ (Z.of_nat k + 1 + Z.of_nat i <= b_mp b)%Z) ->
       (forall i s' y', (1 <= i < Z.of_nat k + 1)%Z -> at_slot m b i s' y' -> ip (el s') (el y') <= 0) ->
       match filter curved (map hp prs) with [] => True | (s, y) :: _ => (b_gamma b : R) = ip s y / ip y y end).
    { induction prs as [|p prs IH]; intros k Q N; [exact Logic.I|]. cbn [map filter]. rewrite curved_good. destruct (goodb H I n ip p) eqn:Eg.
      - unfold goodb in Eg. destruct (Rlt_bool_spec 0 (ip (el (fst p)) (el (snd p)))) as [C|C]; [|discriminate].
        destruct (Q 0%nat p eq_refl) as [Q1 Q2]. rewrite Z.add_0_r in *. apply (P2 (Z.of_nat k + 1)%Z (fst p) (snd p)); auto. lia.
      - apply (IH (Datatypes.S k)).
        + intros i q Hq. destruct (Q (Datatypes.S i) q Hq) as [Q1 Q2]. replace (Z.of_nat (Datatypes.S k) + 1 + Z.of_nat i)%Z with (Z.of_nat k + 1 + Z.of_nat (Datatypes.S i))%Z by lia. auto.
        + intros i s' y' Hi Ha. destruct (Z.eq_dec i (Z.of_nat k + 1)) as [->|Hne]; [|apply (N i); [lia|exact Ha]].
          destruct (Q 0%nat p eq_refl) as [[Q1 Q2] _]. rewrite Z.add_0_r in *. destruct Ha as [Ha1 Ha2]. rewrite Q1 in Ha1. rewrite Q2 in Ha2. injection Ha1 as <-. injection Ha2 as <-.
          unfold goodb in Eg. destruct (Rlt_bool_spec 0 (ip (el (fst p)) (el (snd p)))) as [C|C]; [discriminate|exact C]. }
    apply (G _ 0%nat).
    + intros i p Hi. assert (Li := nth_error_lt _ _ _ Hi). split; [|lia]. replace (Z.of_nat 0 + 1 + Z.of_nat i)%Z with (1 + Z.of_nat i)%Z by lia. apply (Rd i p Hi).
    + intros i s' y' Hi. lia.
Qed.

(** ** The direction *)
Variable bnds : option (bounds NR NR n).
Notation box := (the_box c bnds).
Lemma box_ok' : box_works box.
Proof. destruct bnds as [b|]; [|intros b [=]]. intros bb [= <-]. split; [reflexivity|]. intros x d. eexists. reflexivity. Qed.
(** The direction after the projection. *)
Definition project (x d : list R) : list R :=
  match bnds with Some b => k_boxprojdir c false (lower b) (upper b) (x : list NR) (d : list NR) | None => d end.
Definition nrm (x : list R) : R := sqrt (ip x x).
Lemma norm2_el (x : SR) : vnorm2 x = nrm (el x).
Proof. refine (eq_trans (norm2_R H I (el x)) _). unfold nrm, ip. rewrite sumsq_dot. reflexivity. Qed.

Lemma binary_free (x g : SR) bx : box = Some bx -> binary (el (snd (freevar bx x g))).
Proof.
  unfold the_box. destruct bnds as [b|]; [|discriminate]. injection 1 as <-. apply Forall_forall. intros a Ha. apply In_nth_error in Ha. destruct Ha as (i & Hi).
  pose proof (freevar_nth c false (lower b) (upper b) (elts x) (elts g) i) as E.
  assert (Lx : length (elts x) = n) by (apply el_length). assert (Lg : length (elts g) = n) by (apply el_length).
  rewrite Lx, Lg in E. specialize (E eq_refl (lower_size b) (upper_size b)).
  change (nth_error (k_boxfreevar c false (lower b) (upper b) (elts x) (elts g)) i = Some a) in Hi. rewrite Hi in E.
  destruct (nth_error (elts x) i) as [xi|]; [|discriminate]. destruct (nth_error (elts g) i) as [gi|]; [|discriminate]. injection E as ->.
  apply (free_opt_dir H I).
Qed.

Definition used_pairs (o : vm SR) (prs : list (list R * list R)) := if is_vmlmb (c_method (v_cfg o)) then map (free_pair (el (v_w o))) prs else prs.
Definition used_grad (o : vm SR) (g : list R) := if is_vmlmb (c_method (v_cfg o)) then free_part (el (v_w o)) g else g.
Definition too_flat (o : vm SR) (d g : list R) : bool :=
  Rlt_bool 0 (c_epsilon (v_cfg o)) && Rlt_bool (ip d g) ((c_epsilon (v_cfg o) : R) * nrm d * (v_gnorm o : R)).

Lemma direction_value (o : vm SR) x g pts : c_box (v_cfg o) = box -> good_lb o (v_lb o) pts -> (v_iters o >= 1 <-> pts <> [])%Z ->
  (pts = [] \/ exists p pts', pts = p :: pts' /\ saved o p /\ (c_save (v_cfg o) = true -> b_mp (v_lb o) < c_m (v_cfg o))%Z) ->
  (is_vmlmb (c_method (v_cfg o)) = true -> binary (el (v_w o))) -> (is_vmlmb (c_method (v_cfg o)) = false -> rinv (c_m (v_cfg o)) (v_lb o)) ->
  exists b d dtg, vm_direction o x g = Some (mid o b d (v_stp o) (v_bsmin o) (v_restarts o), inl dtg) /\ good_lb o b ((x, gsave o g) :: pts) /\
    b_mp b = (if (v_iters o >=? 1)%Z then Z.min (c_m (v_cfg o)) (b_mp (v_lb o) + 1) else b_mp (v_lb o)) /\
    (is_vmlmb (c_method (v_cfg o)) = false -> rinv (c_m (v_cfg o)) b) /\
    let used := used_pairs o (map hp (memory b ((x, gsave o g) :: pts))) in
    if existsb curved used then
      el d = project (el x) (lbfgs_direction used (used_grad o (el g))) /\ (dtg : R) = (if too_flat o (el d) (el g) then 0 else - ip (el d) (el g))
    else (dtg : R) = 0.
Proof.
  intros Ebx (L & P & U) It Sv Hw Hri. unfold vm_direction.
  assert (exists b1, (if (v_iters o >=? 1)%Z then vm_update o x (gsave o g) else Some o) = Some (set_lb o b1) /\ good_lb o b1 ((x, gsave o g) :: pts) /\
    b_mp b1 = (if (v_iters o >=? 1)%Z then Z.min (c_m (v_cfg o)) (b_mp (v_lb o) + 1) else b_mp (v_lb o)) /\
    (is_vmlmb (c_method (v_cfg o)) = false -> rinv (c_m (v_cfg o)) b1))
    as (b1 & -> & (L1 & P1 & U1) & U3 & Hr1).
  { destruct Sv as [->|(p & pts' & -> & Hs & Hm)].
    - destruct (Z.geb_spec (v_iters o) 1) as [G|G]; [exfalso; exact (proj1 It ltac:(lia) eq_refl)|].
      exists (v_lb o). split; [destruct o; reflexivity|]. simpl in U. split; [|split; [reflexivity|exact Hri]]. split; [exact L|]. split; [|simpl; lia].
      intros j Hj. pose proof (lbo_u _ _ L). lia.
    - destruct (Z.geb_spec (v_iters o) 1) as [G|G].
      2: { exfalso. assert (v_iters o >= 1)%Z; [|lia]. apply (proj2 It). discriminate. }
      destruct (update_ok o x (gsave o g) p pts' L Hs P Hm) as (b1 & E1 & L1 & P1 & U1 & U4). exists b1. split; [exact E1|].
      rewrite U in U1. split; [|split; [exact U4|]]. { split; [exact L1|]. split; [exact P1|]. simpl length in *. lia. }
      intros Nv. exact (update_rinv o x (gsave o g) _ Nv L E1 (Hri Nv)). }
  cbn [v_cfg v_lb v_w set_lb]. set (m := c_m (v_cfg o)) in *. set (pts1 := (x, gsave o g) :: pts) in *.
  destruct (memory_reads m b1 pts1 L1 P1) as [Ml Mr].
  assert (exists b' d, vm_apply m (c_method (v_cfg o)) (v_w o) b1 g =
      Some (b', d, if existsb curved (used_pairs o (map hp (memory b1 pts1))) then SUCCESS else NOT_POSITIVE_DEFINITE) /\ lb_frame b1 b' /\
      (is_vmlmb (c_method (v_cfg o)) = false -> rinv m b') /\
      (existsb curved (used_pairs o (map hp (memory b1 pts1))) = true -> el d = lbfgs_direction (used_pairs o (map hp (memory b1 pts1))) (used_grad o (el g))))
    as (b' & d & -> & F & Hr' & Ed).
  { unfold used_pairs, used_grad. destruct (is_vmlmb (c_method (v_cfg o))) eqn:Em.
    - assert (Em' : c_method (v_cfg o) = VMLMB) by (destruct (c_method (v_cfg o)); try discriminate; reflexivity). rewrite Em'.
      destruct (apply_vmlmb H I n m (v_w o) b1 g (memory b1 pts1) (Hw eq_refl) L1 Ml Mr) as (b' & d & E & F & Ed). exists b', d. split; [exact E|]. split; [exact F|]. split; [discriminate|exact Ed].
    - destruct (memory_scalars m b1 pts1 L1 P1 (Hr1 eq_refl)) as [Rh Sc].
      destruct (apply_lbfgs H I n m (c_method (v_cfg o)) (v_w o) b1 g (memory b1 pts1) Em L1 Ml Mr Rh Sc) as (b' & d & E & F & G & Rr & Ed). exists b', d.
      split; [exact E|]. split; [exact F|]. split; [|exact Ed]. intros _. destruct F as (F1 & F2 & F3 & F4 & _). apply (rinv_frame m b1); auto; try lia. }
  assert (Emem : memory b' pts1 = memory b1 pts1) by (unfold memory; destruct F as (_ & _ & -> & _); reflexivity).
  assert (Gb : good_lb o b' pts1).
  { split; [eapply lb_frame_ok; eauto|]. split; [eapply lb_frame_pairs; eauto|]. destruct F as (_ & _ & _ & -> & _). exact U1. }
  assert (Mb : b_mp b' = (if (v_iters o >=? 1)%Z then Z.min m (b_mp (v_lb o) + 1) else b_mp (v_lb o))) by (destruct F as (_ & _ & -> & _); exact U3).
  set (used := used_pairs o (map hp (memory b1 pts1))) in *.
  destruct (existsb curved used) eqn:Ex.
  - cbn [ok]. cbn [set_d v_cfg set_lb v_gnorm v_d].
    assert (exists d2, match c_box (v_cfg o) with Some bx => projdir bx x d | None => (SUCCESS, d) end = (SUCCESS, d2) /\ el d2 = project (el x) (el d)) as (d2 & Ep & Ed2).
    { rewrite Ebx. unfold project, the_box. destruct bnds as [b|]; eexists; (split; [reflexivity|reflexivity]). }
    rewrite Ep. cbn [ok negb]. exists b', d2. eexists. split; [reflexivity|]. split; [exact Gb|]. split; [exact Mb|]. split; [exact Hr'|].
    cbv zeta. rewrite Emem. fold used. rewrite Ex. split; [rewrite Ed2, Ed by reflexivity; reflexivity|].
    assert (T : (nlt (nZ 0) (c_epsilon (v_cfg o)) && nlt (nopp (nopp (vdot d2 g))) (nmul (nmul (c_epsilon (v_cfg o)) (vnorm2 d2)) (v_gnorm o)))%bool = too_flat o (el d2) (el g)).
    { unfold too_flat. f_equal. rewrite vdot_el, norm2_el. simpl. f_equal. ring. }
    rewrite T. destruct (too_flat _ _ _); [reflexivity|]. rewrite vdot_el. reflexivity.
  - cbn [ok]. exists b', d. eexists. split; [reflexivity|]. split; [exact Gb|]. split; [exact Mb|]. split; [exact Hr'|].
    cbv zeta. rewrite Emem. fold used. rewrite Ex. reflexivity.
Qed.

Definition RI (o : vm SR) : Prop := v_task o <> ERROR -> is_vmlmb (c_method (v_cfg o)) = false -> rinv (c_m (v_cfg o)) (v_lb o).

Lemma save_lb (o : vm SR) b d stp bsmin r x f g o' : lb_ok (c_m (v_cfg o)) b -> vm_save (mid o b d stp bsmin r) x f g = Some o' ->
  v_d o' = d /\ v_cfg o' = v_cfg o /\ (rinv (c_m (v_cfg o)) b -> rinv (c_m (v_cfg o)) (v_lb o')).
Proof.
  intros L E. unfold vm_save in E. cbn [v_cfg mid v_lb v_x0 v_g0 v_k0 set_lb] in E. set (m := c_m (v_cfg o)) in *. destruct (c_save (v_cfg o)).
  - destruct (nthZ _ _); [|discriminate]. destruct (nthZ _ _); [|discriminate]. set (b1 := if (b_mp b =? m)%Z then set_mp b (b_mp b - 1) else b) in *.
    assert (E1 : b_s b1 = b_s b /\ b_y b1 = b_y b /\ b_updates b1 = b_updates b /\ b_rho b1 = b_rho b /\ b_gamma b1 = b_gamma b /\ (b_mp b1 < m)%Z /\ (b_mp b1 <= b_mp b)%Z).
    { pose proof (lbo_mp _ _ L). unfold b1. destruct (Z.eqb_spec (b_mp b) m); repeat split; simpl; lia. }
    destruct E1 as (Es & Ey & Eu & Er & Eg & Em & Em2).
    destruct (setZ (b_s b1) _ _) as [s|] eqn:X1; [|discriminate]. destruct (setZ (b_y b1) _ _) as [y|] eqn:X2; [|discriminate]. injection E as <-.
    split; [reflexivity|]. split; [reflexivity|]. apply setZ_some in X1. apply setZ_some in X2. destruct X1 as (_ & Q1). destruct X2 as (_ & Q2).
    intros Ri. cbn [v_lb set_start set_lb mid]. apply (rinv_pair m b); auto.
    intros i Hi. cbn [b_s b_y set_pair]. rewrite Q1, Q2, Es, Ey. destruct (Z.eqb_spec i (slot m b 0)); [contradiction|auto].
  - injection E as <-. split; [reflexivity|]. split; [reflexivity|auto].
Qed.

Lemma trial_form (o : vm SR) x o' y : vm_trial o x = Some (o', y) -> exists st tk, o' = set_vtask o st tk.
Proof.
  unfold vm_trial. destruct (get_x0 _); [|discriminate]. destruct (c_box _) as [bx|]; [|injection 1 as <- <-; eexists _, _; reflexivity].
  destruct (nlt _ _); [|injection 1 as <- <-; eexists _, _; reflexivity]. destruct (projvar _ _) as [st y']. destruct (ok st); injection 1 as <- <-; eexists _, _; reflexivity.
Qed.

(** The direction for a new line search. *)
Lemma new_x_value cfg (o : vm SR) t x (f : R) g o' x' : cfg_ok cfg -> c_box cfg = box -> vinv cfg o t -> RI o -> accepted (v_task o) = true ->
  vm_new_x o x f g = Some (o', x') -> RI o' /\
  (v_task o' = COMPUTE_FG ->
    let added := if (v_iters o >=? 1)%Z then Z.min (c_m cfg) (b_mp (v_lb o) + 1) else b_mp (v_lb o) in
    let used := used_pairs o (firstn (Z.to_nat added) (differences (map hp ((x, gsave o g) :: t_points t)))) in
    let q := project (el x) (lbfgs_direction used (used_grad o (el g))) in
    el (v_d o') = if existsb curved used && negb (too_flat o q (el g)) && Rlt_bool 0 (ip q (el g)) then q
                  else match c_method cfg with VMLMB => free_part (el (v_w o)) (el g) | BLMVM => el (v_gp o) | LBFGS => el g end).
Proof.
  intros K Eb (Ec & G & Il & Et & Ee & Ei & Er & Hc & Hgi & Hm) Ri A E.
  assert (Hm' : (1 <= t_evals t /\ t_accepted t = Z.of_nat (length (t_points t)) + 1)%Z /\
    (t_points t = [] \/ exists p pts, t_points t = p :: pts /\ saved o p /\ (c_save cfg = true -> b_mp (v_lb o) < c_m cfg)%Z) /\
    at_accepted o t) by (destruct (v_task o); try discriminate; tauto).
  clear Hm. destruct Hm' as ((H1 & H2) & Hp & (Agn & Aw & Agp)). subst cfg. set (pts := t_points t) in *.
  unfold vm_new_x in E.
  destruct (direction_value o x g pts Eb G) as (b & d & dtg & Edir & Gb & Mb & Rb & Hd).
  { rewrite Ei. destruct pts as [|p pts']; simpl length in *; split; intros; try discriminate; try lia. congruence. }
  { destruct Hp as [Hp|(p & pts' & E1 & E2)]; [left; exact Hp|right; exists p, pts'; auto]. }
  { intros Em. unfold weights in Aw. rewrite Eb in *. destruct box as [bx|] eqn:Ebx; [rewrite (Aw _ eq_refl); apply binary_free; exact Ebx|].
    unfold cfg_ok in K. rewrite Eb in K. pose proof (proj1 K eq_refl) as K'. rewrite K' in Em. discriminate. }
  { apply Ri. intros X. rewrite X in A. discriminate. }
  rewrite Edir in E. clear Edir.
  set (added := if (v_iters o >=? 1)%Z then Z.min (c_m (v_cfg o)) (b_mp (v_lb o) + 1) else b_mp (v_lb o)) in *.
  set (used := used_pairs o (map hp (memory b ((x, gsave o g) :: pts)))) in *. cbv zeta in Hd.
  assert (Eused : used = used_pairs o (firstn (Z.to_nat added) (differences (map hp ((x, gsave o g) :: pts))))).
  { unfold used. f_equal. unfold memory. rewrite Mb. rewrite <- firstn_map, diffs_hp. reflexivity. }
  set (q := project (el x) (lbfgs_direction used (used_grad o (el g)))) in *.
  set (sd := match c_method (v_cfg o) with VMLMB => free_part (el (v_w o)) (el g) | BLMVM => el (v_gp o) | LBFGS => el g end).
  assert (exists b1 d1 stp bs r1 dtg1, (if nlt dtg (nZ 0) then (set_steps (mid o b d (v_stp o) (v_bsmin o) (v_restarts o)) (nZ 1) (v_bsmin (mid o b d (v_stp o) (v_bsmin o) (v_restarts o))), dtg)
      else vm_steepest (mid o b d (v_stp o) (v_bsmin o) (v_restarts o)) x f g) = (mid o b1 d1 stp bs r1, dtg1) /\ lb_ok (c_m (v_cfg o)) b1 /\
      (is_vmlmb (c_method (v_cfg o)) = false -> rinv (c_m (v_cfg o)) b1) /\
      el d1 = if existsb curved used && negb (too_flat o q (el g)) && Rlt_bool 0 (ip q (el g)) then q else sd)
    as (b1 & d1 & stp & bs & r1 & dtg1 & Es & L1 & R1 & D1).
  { assert (Hs : nlt dtg (nZ 0) = existsb curved used && negb (too_flat o q (el g)) && Rlt_bool 0 (ip q (el g)) /\ (nlt dtg (nZ 0) = true -> el d = q)).
    { destruct (existsb curved used); cbn [andb].
      - destruct Hd as [Hd1 Hd2]. rewrite <- Hd1. split; [|auto]. simpl nlt. rewrite Hd2. destruct (too_flat o (el d) (el g)); cbn [negb andb].
        + apply Rlt_bool_false. change (IZR 0) with 0. lra.
        + destruct (Rlt_bool_spec 0 (ip (el d) (el g))) as [C|C]; [apply Rlt_bool_true|apply Rlt_bool_false]; change (IZR 0) with 0; lra.
      - assert (X : nlt dtg (nZ 0) = false) by (simpl nlt; rewrite Hd; apply Rlt_bool_false; change (IZR 0) with 0; lra). rewrite X. split; [reflexivity|discriminate]. }
    destruct Hs as [Hs1 Hs2]. rewrite <- Hs1. destruct (nlt dtg (nZ 0)).
    - eexists b, d, _, _, _, _. split; [reflexivity|]. split; [apply Gb|]. split; [exact Rb|]. apply Hs2. reflexivity.
    - destruct (steepest_ok o x f g b d (v_stp o) (v_bsmin o) (v_restarts o)) as (b' & d' & stp & dtg' & r' & -> & C & Ed' & Edt').
      eexists b', d', _, _, _, _. split; [reflexivity|].
      assert (Hb : lb_ok (c_m (v_cfg o)) b' /\ (is_vmlmb (c_method (v_cfg o)) = false -> rinv (c_m (v_cfg o)) b')).
      { destruct C as [(C1 & -> & _)|(C1 & -> & _)]; [|split; [apply Gb|exact Rb]]. pose proof (lbo_u _ _ (proj1 Gb)). pose proof (lbo_mp _ _ (proj1 Gb)).
        split; [apply (set_mp_good o b _ 0 Gb); lia|]. intros Nv. apply (rinv_frame (c_m (v_cfg o)) b); auto; simpl; lia. }
      destruct Hb as [Hb1 Hb2]. split; [exact Hb1|]. split; [exact Hb2|]. rewrite Ed'. unfold sd. destruct (c_method (v_cfg o)); reflexivity. }
  rewrite Es in E. clear Es Hd.
  assert (W : box_works (c_box (v_cfg o))) by (rewrite Eb; apply box_ok').
  destruct (limits_ok o b1 d1 stp bs r1 x W) as (stp' & bs' & res & El & _). rewrite El in E.
  destruct res as [[smin smax]|st].
  2: { injection E as <- <-. split; [intros X; destruct X; reflexivity|discriminate]. }
  destruct (vm_save _ x f g) as [o2|] eqn:Esv; [|discriminate]. destruct (save_lb _ _ _ _ _ _ _ _ _ _ L1 Esv) as (S1 & S2 & S3).
  destruct (ls_start (v_ls o2) f dtg1 (v_stp o2) smin smax) as [l|]; [|discriminate].
  assert (Fin : forall st tk, RI (set_vtask (set_lnsrch o2 l) st tk) /\ v_d (set_vtask (set_lnsrch o2 l) st tk) = d1).
  { intros st tk. split; [|exact S1]. intros _ Nv. cbn [v_cfg v_lb set_vtask set_lnsrch] in *. rewrite S2 in *. apply S3, R1, Nv. }
  assert (Fin2 : (exists st tk, o' = set_vtask (set_lnsrch o2 l) st tk) -> RI o' /\
    (v_task o' = COMPUTE_FG -> el (v_d o') = if existsb curved used && negb (too_flat o q (el g)) && Rlt_bool 0 (ip q (el g)) then q else sd)).
  { intros (st & tk & ->). destruct (Fin st tk) as [F1 F2]. split; [exact F1|]. intros _. rewrite F2. exact D1. }
  cbv zeta. rewrite <- Eused. fold q. fold sd. apply Fin2.
  assert (Tr : forall y, vm_trial (set_lnsrch o2 l) x = Some (o', y) -> exists st tk, o' = set_vtask (set_lnsrch o2 l) st tk).
  { intros y Ey. apply (trial_form _ _ _ _ Ey). }
  destruct (l_task l); try (injection E as <- <-; eexists _, _; reflexivity). apply (Tr x' E).
Qed.

(** The evaluation of a trial point does not change the memory. *)
Lemma accept_lb (o : vm SR) x g : v_lb (vm_accept o x g) = v_lb o.
Proof.
  unfold vm_accept. destruct (match c_box (v_cfg o) with Some _ => _ | None => _ end) as [st w]. destruct (negb _); [reflexivity|].
  match goal with |- context [let '(gp, gnorm) := ?e in _] => destruct e as [gp gnorm] end. reflexivity.
Qed.
Lemma trial_lb (o : vm SR) x o' x' : vm_trial o x = Some (o', x') -> v_lb o' = v_lb o.
Proof.
  unfold vm_trial. destruct (get_x0 _); [|discriminate]. destruct (c_box _) as [bx|]; [|injection 1 as <- <-; reflexivity].
  destruct (nlt _ _); [|injection 1 as <- <-; reflexivity]. destruct (projvar _ _) as [st y']. destruct (ok st); injection 1 as <- <-; reflexivity.
Qed.
Lemma check_lb (o : vm SR) x f g o' x' : vm_check o x f g = Some (o', x') -> v_lb o' = v_lb o.
Proof.
  unfold vm_check. cbv zeta. cbn [v_evals set_counts v_ls v_cfg v_stp v_d v_iters v_restarts]. destruct (v_evals o + 1 >? 1)%Z.
  - match goal with |- context [match ?e with Some dtg => _ | None => None end] => destruct e as [dtg|]; [|discriminate] end.
    destruct (ls_iterate (v_ls o) (v_stp o) f dtg) as [l stp] eqn:E. destruct (l_task l).
    + injection 1 as <- <-. reflexivity.
    + intros T. apply trial_lb in T. exact T.
    + injection 1 as <- <-. rewrite accept_lb. reflexivity.
    + destruct (is_rounding _); injection 1 as <- <-; [rewrite accept_lb; reflexivity|reflexivity].
  - injection 1 as <- <-. rewrite accept_lb. reflexivity.
Qed.

Lemma start_mp (o : vm SR) x o' x' : vm_start o x = (o', x') -> b_mp (v_lb o') = 0%Z.
Proof.
  unfold vm_start. cbv zeta. destruct (c_box _) as [bx|]; [|injection 1 as <- <-; reflexivity]. destruct (projvar _ _) as [st y]. destruct (ok st); injection 1 as <- <-; reflexivity.
Qed.

Lemma RI_run cfg cs : cfg_ok cfg -> c_box cfg = box -> forall (o : vm SR) t o' rs, vinv cfg o t -> RI o -> vrun o cs = Some (o', rs) ->
  vinv cfg o' (count_calls (is_blmvm (c_method cfg)) (c_box cfg) t cs rs) /\ RI o'.
Proof.
  intros K Eb. assert (W : box_works (c_box cfg)) by (rewrite Eb; apply box_ok').
  induction cs as [|cl cs IH]; intros o t o' rs V J E.
  - injection E as <- <-. cbn. auto.
  - cbn [vrun] in E. destruct (vdo o cl) as [[o1 [r x1]]|] eqn:E1; [|discriminate]. destruct (vrun o1 cs) as [[o2 rs2]|] eqn:E2; [|discriminate]. injection E as <- <-.
    destruct (vdo_ok cfg o t cl K W V) as (o1' & x1' & E1' & V1). rewrite E1 in E1'. injection E1' as <- -> <-.
    cbn [count_calls]. refine (IH o1 _ o2 rs2 V1 _ E2). clear IH E2.
    destruct cl as [x|x f g].
    + unfold vdo in E1. destruct (vm_start o x) as [oo xx] eqn:E. injection E1 as <- _. 
      assert (X : b_mp (v_lb oo) = 0%Z).
      { apply (start_mp _ _ _ _ E). }
      intros _ _. split; intros j s y Hj; lia.
    + unfold vdo, vm_iterate in E1. destruct (v_task o) eqn:Et.
      * injection E1 as <- _. exact J.
      * injection E1 as <- _. exact J.
      * destruct (vm_check o x f g) as [[oo xx]|] eqn:E; [|discriminate]. injection E1 as <- _. pose proof (check_lb _ _ _ _ _ _ E) as Lb. destruct (check_frame _ _ _ _ _ _ E) as (Cf & _).
        intros _ Nv. rewrite Lb, Cf in *. apply J; [rewrite Et; discriminate|exact Nv].
      * destruct (vm_new_x o x f g) as [[oo xx]|] eqn:E; [|discriminate]. injection E1 as <- _. eapply (proj1 (new_x_value cfg o t x f g oo xx K Eb V J ltac:(rewrite Et; reflexivity) E)).
      * destruct (vm_new_x o x f g) as [[oo xx]|] eqn:E; [|discriminate]. injection E1 as <- _. eapply (proj1 (new_x_value cfg o t x f g oo xx K Eb V J ltac:(rewrite Et; reflexivity) E)).
      * injection E1 as <- _. exact J.
Qed.

Lemma RI_new opts size lnsrch bx (o : vm SR) : new_optimizer opts size lnsrch bx o -> RI o.
Proof.
  intros (E & _). unfold new_vmlmb in E. destruct (negb _); [discriminate|]. destruct (_ || _); [discriminate|].
  match goal with H : (match ?e with Some _ => _ | None => None end) = _ |- _ => destruct e as [l|]; [|discriminate] end.
  injection E as <-. intros X. destruct X. reflexivity.
Qed.
End Run.
