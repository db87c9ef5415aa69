(** * The two-loop recursion computes the limited memory BFGS product *)
From Coq Require Import List ZArith Bool Arith Lia Reals Lra.
From Flocq Require Import Core.
From Verif Require Import Num NumFacts OrdFacts ListFacts VecModel VecProofs Base LsModel LsSpec LsProofs LsReal OptSpace VmModel VmSpec VmProofs VmRealSpec VmReal
  LbfgsSpec LbfgsReal.
Import ListNotations.
Local Open Scope R_scope.

(** ** Second loop: the same passes counted from the other end *)
Section Ups.
Context {N : Num} {S : Space N}.
Definition ustep (m : Z) (dot : S -> S -> N) (j : Z) (b : lbfgs S) (d : S) : option S :=
  let i := slot m b j in
  do rho <- nthZ (b_rho b) i;
  if nlt (nZ 0) rho then
    do s <- nthZ (b_s b) i; do y <- nthZ (b_y b) i; do a <- nthZ (b_alpha b) i;
    Some (UPDATE d (a - rho * dot d y)%num s)
  else Some d.
Fixpoint ups (m : Z) (dot : S -> S -> N) (k : nat) (j : Z) (b : lbfgs S) (d : S) : option S :=
  match k with
  | O => Some d
  | Datatypes.S k => do d1 <- ups m dot k (j + 1)%Z b d; ustep m dot j b d1
  end.
Lemma ups_last m dot k : forall j b d, ups m dot (Datatypes.S k) j b d = do d1 <- ustep m dot (j + Z.of_nat k)%Z b d; ups m dot k j b d1.
Proof.
  induction k as [|k IH]; intros j b d.
  - simpl. rewrite Z.add_0_r. destruct (ustep m dot j b d); reflexivity.
  - change (ups m dot (Datatypes.S (Datatypes.S k)) j b d) with (do d1 <- ups m dot (Datatypes.S k) (j + 1)%Z b d; ustep m dot j b d1).
    rewrite IH. replace (j + 1 + Z.of_nat k)%Z with (j + Z.of_nat (Datatypes.S k))%Z by lia. destruct (ustep m dot (j + Z.of_nat (Datatypes.S k)) b d); reflexivity.
Qed.
Lemma loop_up_ups m dot k b : forall d, loop_up m dot k b d = ups m dot k 1 b d.
Proof.
  induction k as [|k IH]; intros d; [reflexivity|]. rewrite ups_last. cbn [loop_up]. unfold ustep.
  replace (1 + Z.of_nat k)%Z with (Z.of_nat (Datatypes.S k)) by lia. destruct (nthZ (b_rho b) _); [|reflexivity]. destruct (nlt _ _); [|apply IH].
  destruct (nthZ (b_s b) _); [|reflexivity]. destruct (nthZ (b_y b) _); [|reflexivity]. destruct (nthZ (b_alpha b) _); [|reflexivity]. apply IH.
Qed.
Definition view (b : lbfgs S) (i : Z) := (nthZ (b_s b) i, nthZ (b_y b) i, nthZ (b_rho b) i, nthZ (b_alpha b) i).
Lemma view_inv b i s y r a : view b i = (s, y, r, a) -> nthZ (b_s b) i = s /\ nthZ (b_y b) i = y /\ nthZ (b_rho b) i = r /\ nthZ (b_alpha b) i = a.
Proof. unfold view. injection 1 as <- <- <- <-. auto. Qed.
(** The pairs in memory: [k] pairs from the [j]-th most recent one. *)
Definition reads (m : Z) (b : lbfgs S) (j : Z) (prs : list (S * S)) : Prop :=
  forall i p, nth_error prs i = Some p ->
    nthZ (b_s b) (slot m b (j + Z.of_nat i)) = Some (fst p) /\ nthZ (b_y b) (slot m b (j + Z.of_nat i)) = Some (snd p).
End Ups.

Section Real.
Variables H I : R.
Notation NR := (NumR H I).
Notation c := (cast_id NR).
Variable n : nat.
Notation SR := (list_space c n).
Notation el := (el H I n).
Notation el_length := (el_length H I n).

Lemma vdot_el (u v : SR) : vdot u v = ip (el u) (el v).
Proof. exact (dot_R H I (el u) (el v)). Qed.
Definition ipw (w u v : list R) : R := rsum (map3 (fun a b e => a * b * e) w u v).
Lemma vdot3_el (w u v : SR) : vdot3 w u v = ipw (el w) (el u) (el v).
Proof. exact (dot3_R H I (el w) (el u) (el v)). Qed.
Lemma ipw_sym w u v : ipw w u v = ipw w v u.
Proof.
  unfold ipw. f_equal. apply list_eq_nth_error. intros i. unfold map3. rewrite !map2_nth_error, !combine_nth_error.
  destruct (nth_error w i), (nth_error u i), (nth_error v i); auto. f_equal. simpl. ring.
Qed.
Lemma UPDATE_el (d s : SR) (a : R) : el (UPDATE d (a : NR) s) = lin 1 (el d) a (el s).
Proof. exact (l_axpby_R H I n 1 a (el d) (el s) (el_length d) (el_length s)). Qed.
Lemma scale_el (d : SR) (a : R) : el (vscale (a : NR) d) = map (Rmult a) (el d).
Proof. exact (l_scale_R H I n a (el d) (el_length d)). Qed.
Lemma product_el (w d : SR) : el (vproduct w d) = free_part (el w) (el d).
Proof. reflexivity. Qed.
Lemma lin_lin a b (x s : list R) : lin 1 (lin 1 x a s) b s = lin 1 x (a + b) s.
Proof.
  apply list_eq_nth_error. intros i. unfold lin. rewrite !map2_nth_error. destruct (nth_error x i), (nth_error s i); auto. f_equal. ring.
Qed.

Definition hp (p : SR * SR) : list R * list R := (el (fst p), el (snd p)).

Section Dot.
Variable bl : SR -> SR -> NR.
Variable blr : list R -> list R -> R.
Hypothesis Hbl : forall u v, bl u v = blr (el u) (el v).
Hypothesis Hsym : forall u v, blr u v = blr v u.

Definition goodb (p : SR * SR) : bool := Rlt_bool 0 (blr (el (fst p)) (el (snd p))).
Definition Hprod (gm : R) (prs : list (SR * SR)) := gen_product blr gm (map hp (filter goodb prs)).

Definition agree (m j : Z) (k : nat) (b b2 : lbfgs SR) : Prop :=
  b_updates b2 = b_updates b /\ forall i, (j <= i < j + Z.of_nat k)%Z -> view b2 (slot m b i) = view b (slot m b i).

Definition up_ok (m j : Z) (b : lbfgs SR) (d' : SR) (prs : list (SR * SR)) (d : SR) : Prop :=
  forall b2, agree m j (length prs) b b2 -> forall (gm : R) d2, el d2 = map (Rmult gm) (el d') ->
    exists r, ups m bl (length prs) j b2 d2 = Some r /\ el r = Hprod gm prs (el d).

Lemma up_nil m j b d : up_ok m j b d [] d.
Proof. intros b2 _ gm d2 E. exists d2. split; [reflexivity|exact E]. Qed.

(** A pair that is skipped. *)
Lemma up_bad m j b d' p prs d (rho : R) : goodb p = false -> nthZ (b_rho b) (slot m b j) = Some (rho : NR) -> rho <= 0 ->
  up_ok m (j + 1) b d' prs d -> up_ok m j b d' (p :: prs) d.
Proof.
  intros Hp Hr Hr0 U b2 [A1 A2] gm d2 E. destruct (U b2) with (gm := gm) (d2 := d2) as (r & E1 & E2); auto.
  { split; [exact A1|]. intros i Hi. apply A2. cbn [length]. lia. }
  cbn [length ups]. rewrite E1. specialize (A2 j ltac:(cbn [length]; lia)). apply view_inv in A2. destruct A2 as (_ & _ & A3 & _).
  exists r. split.
  - unfold ustep. rewrite (slot_same m b b2) by exact A1. rewrite A3, Hr. simpl. rewrite Rlt_bool_false by (change (IZR 0) with 0; lra). reflexivity.
  - unfold Hprod. cbn [filter]. rewrite Hp. exact E2.
Qed.

(** A pair that is used. *)
Lemma up_good m j b d' p prs d : goodb p = true -> 
  let rho := 1 / blr (el (fst p)) (el (snd p)) in let a := rho * blr (el d) (el (fst p)) in
  view b (slot m b j) = (Some (fst p), Some (snd p), Some (rho : NR), Some (a : NR)) ->
  up_ok m (j + 1) b d' prs (UPDATE d (- a : NR) (snd p)) -> up_ok m j b d' (p :: prs) d.
Proof.
  intros Hp rho a V U b2 [A1 A2] gm d2 E. destruct (U b2) with (gm := gm) (d2 := d2) as (r & E1 & E2); auto.
  { split; [exact A1|]. intros i Hi. apply A2. cbn [length]. lia. }
  cbn [length ups]. rewrite E1. specialize (A2 j ltac:(cbn [length]; lia)). rewrite V in A2. apply view_inv in A2. destruct A2 as (A3 & A4 & A5 & A6).
  unfold ustep. rewrite (slot_same m b b2) by exact A1. rewrite A3, A4, A5, A6.
  assert (Hc : 0 < blr (el (fst p)) (el (snd p))) by (unfold goodb in Hp; destruct (Rlt_bool_spec 0 (blr (el (fst p)) (el (snd p)))); [assumption|discriminate]).
  assert (Hrho : 0 < rho) by (unfold rho, Rdiv; rewrite Rmult_1_l; apply Rinv_0_lt_compat; exact Hc).
  assert (L : nlt (nZ 0 : NR) (rho : NR) = true) by (simpl; apply Rlt_bool_true; exact Hrho). rewrite L. eexists. split; [reflexivity|].
  rewrite Hbl. refine (eq_trans (UPDATE_el r (fst p) (a - rho * blr (el r) (el (snd p)))) _).
  unfold Hprod. cbn [filter]. unfold goodb at 1. rewrite Rlt_bool_true by exact Hc. cbn [map gen_product hp]. unfold gen_update. cbn [hp fst snd].
  rewrite UPDATE_el in E2. fold rho.
  assert (Ea : rho * blr (el (fst p)) (el d) = a) by (unfold a; rewrite Hsym; reflexivity). rewrite Ea.
  unfold Hprod in E2. rewrite <- E2, lin_lin. f_equal. rewrite (Hsym (el (snd p))). ring.
Qed.

Definition outside (m : Z) (b b' : lbfgs SR) (j : Z) (k : nat) : Prop :=
  forall i, (forall q, (j <= q < j + Z.of_nat k)%Z -> slot m b q <> i) -> view b' i = view b i.
Lemma outside_step m (b b1 b' : lbfgs SR) j k : lb_frame b b1 -> (forall i, i <> slot m b j -> view b1 i = view b i) -> outside m b1 b' (j + 1) k ->
  outside m b b' j (Datatypes.S k).
Proof.
  intros (_ & _ & _ & U & _) F O i Hi. rewrite O; [apply F; intros ->; apply (Hi j); [lia|reflexivity]|].
  intros q Hq. rewrite (slot_same m b b1) by exact U. apply Hi. lia.
Qed.
(** The first slot is not changed by the passes that follow. *)
Lemma outside_first m (b b' : lbfgs SR) j k : (1 <= m)%Z -> (Z.of_nat k < m)%Z -> (1 <= j)%Z -> (j + Z.of_nat k <= b_updates b)%Z -> outside m b b' (j + 1) k ->
  view b' (slot m b j) = view b (slot m b j).
Proof.
  intros M K J U O. apply O. intros q Hq E. symmetry in E. revert E. apply slot_neq; lia.
Qed.
Lemma reads_cons m (b b' : lbfgs SR) j (p : SR * SR) prs : lb_frame b b' -> reads m b j (p :: prs) ->
  (nthZ (b_s b) (slot m b j) = Some (fst p) /\ nthZ (b_y b) (slot m b j) = Some (snd p)) /\ reads m b' (j + 1) prs.
Proof.
  intros (F1 & F2 & _ & F4 & _) P. split.
  - specialize (P 0%nat p eq_refl). rewrite Z.add_0_r in P. exact P.
  - intros i q Hq. rewrite F1, F2, (slot_same m b b') by exact F4. specialize (P (Datatypes.S i) q Hq).
    replace (j + Z.of_nat (Datatypes.S i))%Z with (j + 1 + Z.of_nat i)%Z in P by lia. exact P.
Qed.
End Dot.

(** ** First loop *)
Definition rho_of (p : SR * SR) : R := if Rlt_bool 0 (ip (el (fst p)) (el (snd p))) then 1 / ip (el (fst p)) (el (snd p)) else 0.
Definition rhos (m : Z) (b : lbfgs SR) (j : Z) (prs : list (SR * SR)) : Prop :=
  forall i p, nth_error prs i = Some p -> nthZ (b_rho b) (slot m b (j + Z.of_nat i)) = Some (rho_of p : NR).
Notation good1 := (goodb ip).

Lemma down_ok m prs : forall j b d res, lb_ok m b -> (1 <= j)%Z -> (j + Z.of_nat (length prs) <= b_updates b + 1)%Z -> (Z.of_nat (length prs) <= m)%Z ->
  reads m b j prs -> rhos m b j prs ->
  exists b' d', loop_down m (length prs) j b d res = Some (b', d', if existsb good1 prs then SUCCESS else res) /\
    lb_frame b b' /\ b_gamma b' = b_gamma b /\ b_rho b' = b_rho b /\ outside m b b' j (length prs) /\ up_ok vdot ip m j b' d' prs d.
Proof.
  induction prs as [|p prs IH]; intros j b d res L J U K Rd Rh.
  - exists b, d. split; [reflexivity|]. split; [apply lb_frame_refl|]. split; [reflexivity|]. split; [reflexivity|]. split; [intros i _; reflexivity|apply up_nil].
  - cbn [length] in *. cbn [loop_down]. pose proof (slot_range m b j (lbo_m _ _ L) ltac:(lia)) as Hs. 
    pose proof (Rh 0%nat p eq_refl) as Er. rewrite Z.add_0_r in Er. set (i := slot m b j) in *. rewrite Er. unfold rho_of.
    assert (Rh1 : forall b1, lb_frame b b1 -> b_rho b1 = b_rho b -> rhos m b1 (j + 1) prs).
    { intros b1 (_ & _ & _ & F4 & _) Fr i0 q Hq. rewrite Fr, (slot_same m b b1) by exact F4. specialize (Rh (Datatypes.S i0) q Hq).
      replace (j + Z.of_nat (Datatypes.S i0))%Z with (j + 1 + Z.of_nat i0)%Z in Rh by lia. exact Rh. }
    destruct (Rlt_bool_spec 0 (ip (el (fst p)) (el (snd p)))) as [C|C].
    + set (rho := 1 / ip (el (fst p)) (el (snd p))).
      assert (Hrho : 0 < rho) by (unfold rho, Rdiv; rewrite Rmult_1_l; apply Rinv_0_lt_compat; exact C).
      assert (Lr : nlt (nZ 0 : NR) (rho : NR) = true) by (simpl; apply Rlt_bool_true; exact Hrho). rewrite Lr.
      destruct (reads_cons m b b j p prs (lb_frame_refl b) Rd) as ((Rs & Ry) & _). fold i in Rs, Ry. rewrite Rs, Ry.
      set (a := rho * ip (el d) (el (fst p))). 
      assert (Ea : (nmul (rho : NR) (vdot d (fst p)) : R) = a) by (rewrite vdot_el; reflexivity). rewrite Ea.
      destruct (setZ_ok (b_alpha b) i (a : NR)) as (al & Eal & La & Qa); [rewrite (lbo_a _ _ L); lia|]. rewrite Eal.
      set (b1 := set_alpha b al). assert (F : lb_frame b b1) by (repeat split; simpl; auto).
      destruct (reads_cons m b b1 j p prs F Rd) as (_ & Rd1).
      assert (V1 : forall q, q <> i -> view b1 q = view b q).
      { intros q Hq. unfold view, b1, set_alpha. cbn [b_s b_y b_rho b_alpha]. rewrite Qa. destruct (Z.eqb_spec q i); [contradiction|reflexivity]. }
      assert (V2 : view b1 i = (Some (fst p), Some (snd p), Some (rho : NR), Some (a : NR))).
      { unfold view, b1, set_alpha. cbn [b_s b_y b_rho b_alpha]. rewrite Rs, Ry, Qa, Z.eqb_refl, Er. unfold rho_of. rewrite Rlt_bool_true by exact C. reflexivity. }
      edestruct (IH (j + 1)%Z b1 (UPDATE d (- a : NR) (snd p)) SUCCESS) as (b' & d' & E & F' & G' & R' & O' & U').
      { eapply lb_frame_ok; eauto. } { lia. } { change (b_updates b1) with (b_updates b); lia. } { lia. } { exact Rd1. } { apply Rh1; auto. }
      assert (Gp : good1 p = true) by (unfold goodb; apply Rlt_bool_true; exact C).
      exists b', d'. split; [refine (eq_trans E _); cbn [existsb]; rewrite Gp; cbn [orb]; destruct (existsb _ _); reflexivity|].
      split; [eapply lb_frame_trans; eauto|]. split; [exact G'|]. split; [exact R'|]. split; [apply (outside_step m b b1); auto|].
      assert (Es : slot m b' j = i) by (apply slot_same; destruct F' as (_ & _ & _ & X & _); rewrite X; reflexivity).
      apply (up_good vdot ip vdot_el ip_sym); [unfold goodb; apply Rlt_bool_true; exact C| |exact U'].
      rewrite Es. refine (eq_trans _ V2). change i with (slot m b1 j). apply (outside_first m b1 b' j (length prs)); auto; try lia; try (apply (lbo_m _ _ L)); change (b_updates b1) with (b_updates b); lia.
    + assert (Lr : nlt (nZ 0 : NR) (0 : NR) = false) by (simpl; apply Rlt_bool_false; change (IZR 0) with 0; lra). rewrite Lr.
      destruct (reads_cons m b b j p prs (lb_frame_refl b) Rd) as (_ & Rd1).
      edestruct (IH (j + 1)%Z b d res) as (b' & d' & E & F' & G' & R' & O' & U').
      { exact L. } { lia. } { lia. } { lia. } { exact Rd1. } { apply Rh1; auto. apply lb_frame_refl. }
      exists b', d'. assert (Eg : good1 p = false) by (unfold goodb; apply Rlt_bool_false; exact C).
      split; [cbn [existsb]; rewrite Eg; exact E|]. split; [exact F'|]. split; [exact G'|]. split; [exact R'|]. 
      split; [apply (outside_step m b b); auto; apply lb_frame_refl|].
      apply (up_bad vdot ip) with (rho := 0); auto; try lra. rewrite (slot_same m b b') by (destruct F' as (_ & _ & _ & X & _); exact X).
      rewrite R'. fold i. rewrite Er. unfold rho_of. rewrite Rlt_bool_false by exact C. reflexivity.
Qed.

(** *** Restricted to the free variables *)
Section Free.
Variable w : SR.
Notation iw := (ipw (el w)).
Notation good3 := (goodb iw).
Definition first_gamma (prs : list (SR * SR)) (g0 : R) : R :=
  match filter good3 prs with p :: _ => iw (el (fst p)) (el (snd p)) / iw (el (snd p)) (el (snd p)) | [] => g0 end.
(** A pair of strictly positive curvature has a non zero y. *)
Hypothesis Hpos : forall p, good3 p = true -> 0 < iw (el (snd p)) (el (snd p)).

Lemma down_free_ok m prs : forall j b d res, lb_ok m b -> (1 <= j)%Z -> (j + Z.of_nat (length prs) <= b_updates b + 1)%Z -> (Z.of_nat (length prs) <= m)%Z ->
  reads m b j prs ->
  exists b' d', loop_down_free m w (length prs) j b d res = Some (b', d', if existsb good3 prs then SUCCESS else res) /\
    lb_frame b b' /\ (b_gamma b' : R) = (if Req_bool (b_gamma b) 0 then first_gamma prs (b_gamma b) else b_gamma b) /\
    outside m b b' j (length prs) /\ up_ok (vdot3 w) iw m j b' d' prs d.
Proof.
  induction prs as [|p prs IH]; intros j b d res L J U K Rd.
  - exists b, d. split; [reflexivity|]. split; [apply lb_frame_refl|]. split; [unfold first_gamma; simpl; destruct (Req_bool _ _); reflexivity|]. split; [intros i _; reflexivity|apply up_nil].
  - cbn [length] in *. cbn [loop_down_free]. pose proof (slot_range m b j (lbo_m _ _ L) ltac:(lia)) as Hs. set (i := slot m b j) in *.
    destruct (reads_cons m b b j p prs (lb_frame_refl b) Rd) as ((Rs & Ry) & _). fold i in Rs, Ry. rewrite Rs, Ry.
    set (sty := iw (el (fst p)) (el (snd p))).
    assert (Es : (vdot3 w (snd p) (fst p) : R) = sty) by (rewrite vdot3_el; apply ipw_sym). rewrite Es.
    destruct (Rlt_bool_spec 0 sty) as [C|C].
    + assert (Lr : nle (sty : NR) (nZ 0 : NR) = false) by (simpl; apply Rle_bool_false; exact C). rewrite Lr. cbv zeta.
      assert (Gp : good3 p = true) by (unfold goodb; apply Rlt_bool_true; exact C).
      set (rho := 1 / sty). change (ndiv (nZ 1) (sty : NR)) with (rho : NR).
      assert (Hrho : 0 < rho) by (unfold rho, Rdiv; rewrite Rmult_1_l; apply Rinv_0_lt_compat; exact C).
      destruct (setZ_ok (b_rho b) i (rho : NR)) as (rh & Erh & Lrh & Qr); [rewrite (lbo_r _ _ L); lia|]. rewrite Erh.
      set (a := rho * iw (el d) (el (fst p))).
      assert (Ea : (nmul (rho : NR) (vdot3 w d (fst p)) : R) = a) by (rewrite vdot3_el; reflexivity). rewrite Ea.
      destruct (setZ_ok (b_alpha b) i (a : NR)) as (al & Eal & La & Qa); [rewrite (lbo_a _ _ L); lia|]. rewrite Eal.
      set (b0 := set_alpha (set_rho b rh) al). set (yty := iw (el (snd p)) (el (snd p))).
      assert (Ey : (vdot3 w (snd p) (snd p) : R) = yty) by apply vdot3_el. rewrite Ey.
      match goal with |- context [loop_down_free m w _ _ ?bb _ _] => set (b1 := bb) end.
      assert (F : lb_frame b b1) by (unfold b1; destruct (neq _ _); repeat split; simpl; auto).
      assert (Eb1 : b_s b1 = b_s b /\ b_y b1 = b_y b /\ b_rho b1 = rh /\ b_alpha b1 = al) by (unfold b1; destruct (neq _ _); repeat split; reflexivity).
      destruct Eb1 as (B1 & B2 & B3 & B4).
      assert (Hyty : 0 < yty) by (apply Hpos; exact Gp).
      assert (Hq : 0 < sty / yty) by (apply Rdiv_lt_0_compat; assumption).
      assert (B5 : (b_gamma b1 : R) = if Req_bool (b_gamma b) 0 then sty / yty else b_gamma b).
      { unfold b1. change (neq (b_gamma b0) (nZ 0)) with (Req_bool (b_gamma b) 0). destruct (Req_bool (b_gamma b) 0); reflexivity. }
      destruct (reads_cons m b b1 j p prs F Rd) as (_ & Rd1).
      assert (V1 : forall q, q <> i -> view b1 q = view b q).
      { intros q Hq'. unfold view. rewrite B1, B2, B3, B4, Qa, Qr. destruct (Z.eqb_spec q i); [contradiction|reflexivity]. }
      assert (V2 : view b1 i = (Some (fst p), Some (snd p), Some (rho : NR), Some (a : NR))).
      { unfold view. rewrite B1, B2, B3, B4, Rs, Ry, Qa, Qr, Z.eqb_refl. reflexivity. }
      assert (Fu : b_updates b1 = b_updates b) by (destruct F as (_ & _ & _ & X & _); exact X).
      edestruct (IH (j + 1)%Z b1 (UPDATE d (- a : NR) (snd p)) SUCCESS) as (b' & d' & E & F' & G' & O' & U').
      { eapply lb_frame_ok; eauto. } { lia. } { lia. } { lia. } { exact Rd1. }
      exists b', d'. split; [refine (eq_trans E _); cbn [existsb]; rewrite Gp; cbn [orb]; destruct (existsb _ _); reflexivity|].
      split; [eapply lb_frame_trans; eauto|]. split.
      { rewrite G', B5. unfold first_gamma at 2. cbn [filter]. rewrite Gp. fold sty yty. destruct (Req_bool_spec (b_gamma b) 0) as [Z0|Z0].
        - rewrite Req_bool_false by lra. reflexivity.
        - rewrite Req_bool_false by exact Z0. reflexivity. }
      split; [apply (outside_step m b b1); auto|].
      assert (Esl : slot m b' j = i) by (rewrite (slot_same m b1 b'); [apply slot_same; exact Fu|destruct F' as (_ & _ & _ & X & _); exact X]).
      apply (up_good (vdot3 w) iw (vdot3_el w) (ipw_sym _)); [exact Gp| |exact U'].
      rewrite Esl. refine (eq_trans _ V2). assert (Ei : i = slot m b1 j) by (symmetry; apply slot_same; exact Fu). rewrite Ei.
      apply (outside_first m b1 b' j (length prs)); auto; try lia; try (apply (lbo_m _ _ L)).
    + assert (Lr : nle (sty : NR) (nZ 0 : NR) = true) by (simpl; apply Rle_bool_true; exact C). rewrite Lr.
      assert (Gp : good3 p = false) by (unfold goodb; apply Rlt_bool_false; exact C).
      destruct (setZ_ok (b_rho b) i (nZ 0 : NR)) as (rh & Erh & Lrh & Qr); [rewrite (lbo_r _ _ L); lia|]. rewrite Erh.
      set (b1 := set_rho b rh). assert (F : lb_frame b b1) by (repeat split; simpl; auto).
      destruct (reads_cons m b b1 j p prs F Rd) as (_ & Rd1).
      assert (V1 : forall q, q <> i -> view b1 q = view b q).
      { intros q Hq. unfold view, b1, set_rho. cbn [b_s b_y b_rho b_alpha]. rewrite Qr. destruct (Z.eqb_spec q i); [contradiction|reflexivity]. }
      edestruct (IH (j + 1)%Z b1 d res) as (b' & d' & E & F' & G' & O' & U').
      { eapply lb_frame_ok; eauto. } { lia. } { change (b_updates b1) with (b_updates b); lia. } { lia. } { exact Rd1. }
      exists b', d'. split; [cbn [existsb]; rewrite Gp; exact E|]. split; [eapply lb_frame_trans; eauto|]. split.
      { rewrite G'. unfold first_gamma. cbn [filter]. rewrite Gp. reflexivity. }
      split; [apply (outside_step m b b1); auto|].
      apply (up_bad (vdot3 w) iw) with (rho := 0); auto; try lra. 
      assert (Esl : slot m b' j = i) by (apply slot_same; destruct F' as (_ & _ & _ & X & _); rewrite X; reflexivity). rewrite Esl.
      assert (Vi : view b' i = view b1 i) by (change i with (slot m b1 j); apply (outside_first m b1 b' j (length prs)); auto; try lia; try (apply (lbo_m _ _ L)); change (b_updates b1) with (b_updates b); lia).
      apply view_inv in Vi. destruct Vi as (_ & _ & -> & _). unfold b1, set_rho. cbn [b_rho]. rewrite Qr, Z.eqb_refl. reflexivity.
Qed.
End Free.

(** ** The recursion *)
Definition binary (w : list R) : Prop := Forall (fun a => a = 0 \/ a = 1) w.
Lemma ipw_free w u v : binary w -> ipw w u v = ip (free_part w u) (free_part w v).
Proof.
  intros B. unfold ipw, ip, free_part. f_equal. apply list_eq_nth_error. intros i. unfold map3. rewrite !map2_nth_error, combine_nth_error.
  destruct (nth_error w i) as [a|] eqn:E, (nth_error u i), (nth_error v i); auto. f_equal. simpl.
  apply nth_error_In in E. unfold binary in B. rewrite Forall_forall in B. destruct (B a E) as [-> | ->]; ring.
Qed.
Lemma ip_pos_yy s y : length s = n -> length y = n -> 0 < ip s y -> 0 < ip y y.
Proof.
  intros Ls Ly Hc. pose proof (ip_pos y). destruct (Req_dec (ip y y) 0) as [E|E]; [|lra].
  apply (ip_zero n) in E; auto. rewrite E in Hc. change (repeat 0 n) with (zeros n) in Hc. rewrite ip_zeros in Hc by auto. lra.
Qed.
Lemma curved_good p : curved (hp p) = goodb ip p.
Proof. unfold curved, goodb, hp. cbn [fst snd]. case Rlt_dec; intro; symmetry; [apply Rlt_bool_true; auto|apply Rlt_bool_false; lra]. Qed.
Lemma curved_good3 w p : binary w -> curved (free_pair w (hp p)) = goodb (ipw w) p.
Proof.
  intros B. unfold curved, goodb, hp, free_pair. cbn [fst snd]. rewrite (ipw_free w) by exact B.
  case Rlt_dec; intro; symmetry; [apply Rlt_bool_true; auto|apply Rlt_bool_false; lra].
Qed.
Lemma filter_map_ext {A B} (f : A -> B) (P : B -> bool) (Q : A -> bool) l : (forall a, P (f a) = Q a) -> filter P (map f l) = map f (filter Q l).
Proof. intros E. induction l as [|a l IH]; simpl; [reflexivity|]. rewrite E. destruct (Q a); simpl; congruence. Qed.
Lemma gen_ip gm prs v : gen_product ip gm prs v = lbfgs_product gm prs v.
Proof. revert v. induction prs as [|[s y] prs IH]; intros v; simpl; [reflexivity|]. unfold gen_update, bfgs_update. rewrite !IH. reflexivity. Qed.
Lemma existsb_filter {A} (P : A -> bool) l : existsb P l = match filter P l with [] => false | _ => true end.
Proof. induction l as [|a l IH]; simpl; [reflexivity|]. destruct (P a); simpl; auto. Qed.

(** The scale is that of the most recent pair of positive curvature. *)
Definition scale_ok (b : lbfgs SR) (prs : list (SR * SR)) : Prop :=
  match filter curved (map hp prs) with [] => True | (s, y) :: _ => (b_gamma b : R) = ip s y / ip y y end.

Lemma ok_if (x : bool) : ok (if x then SUCCESS else NOT_POSITIVE_DEFINITE) = x.
Proof. destruct x; reflexivity. Qed.
Lemma scaled (b : lbfgs SR) (d : SR) : el (if negb (neq (b_gamma b) (nZ 1)) then vscale (b_gamma b) d else d) = map (Rmult (b_gamma b)) (el d).
Proof.
  simpl neq. destruct (Req_bool_spec (b_gamma b) 1) as [E|E]; cbn [negb].
  - symmetry. change (b_gamma b : R) with (b_gamma b : R). replace (map (Rmult (b_gamma b)) (el d)) with (map (fun x : R => x) (el d)); [apply map_id|].
    apply map_ext. intros a. change (num NR) with R in *. rewrite E. ring.
  - apply scale_el.
Qed.
Lemma agree_refl m j k (b : lbfgs SR) : agree m j k b b.
Proof. split; [reflexivity|]. intros; reflexivity. Qed.

Lemma apply_lbfgs m method w b g prs : is_vmlmb method = false -> lb_ok m b -> length prs = Z.to_nat (b_mp b) -> reads m b 1 prs -> rhos m b 1 prs -> scale_ok b prs ->
  exists b' d, vm_apply m method w b g = Some (b', d, if existsb curved (map hp prs) then SUCCESS else NOT_POSITIVE_DEFINITE) /\
    lb_frame b b' /\ b_gamma b' = b_gamma b /\ b_rho b' = b_rho b /\
    (existsb curved (map hp prs) = true -> el d = lbfgs_direction (map hp prs) (el g)).
Proof.
  intros Hm L Hl Rd Rh Sc. pose proof (lbo_mp _ _ L). pose proof (lbo_u _ _ L). unfold vm_apply. rewrite Hm, <- Hl.
  destruct (down_ok m prs 1 b g NOT_POSITIVE_DEFINITE L ltac:(lia) ltac:(lia) ltac:(lia) Rd Rh) as (b' & d' & E & F & G & Rr & _ & U). rewrite E, ok_if.
  assert (Ex : existsb curved (map hp prs) = existsb (goodb ip) prs) by (rewrite !existsb_filter, (filter_map_ext hp curved (goodb ip)) by apply curved_good; destruct (filter _ prs); reflexivity).
  rewrite Ex. destruct (existsb (goodb ip) prs) eqn:Eg.
  - rewrite loop_up_ups. destruct (U b' (agree_refl _ _ _ _) (b_gamma b') _ (scaled b' d')) as (r & -> & Er).
    exists b', r. split; [reflexivity|]. split; [exact F|]. split; [exact G|]. split; [exact Rr|]. intros _. rewrite Er. unfold Hprod. rewrite gen_ip.
    unfold lbfgs_direction. rewrite (filter_map_ext hp curved (goodb ip)) by apply curved_good. f_equal. 
    unfold scale_ok in Sc. rewrite (filter_map_ext hp curved (goodb ip)) in Sc by apply curved_good. rewrite existsb_filter in Eg. destruct (filter (goodb ip) prs) as [|q l]; [discriminate|].
    cbn [map hp initial_scale] in *. rewrite G. exact Sc.
  - exists b', d'. split; [reflexivity|]. split; [exact F|]. split; [exact G|]. split; [exact Rr|]. discriminate.
Qed.

Lemma apply_vmlmb m w b g prs : binary (el w) -> lb_ok m b -> length prs = Z.to_nat (b_mp b) -> reads m b 1 prs ->
  let prs' := map (free_pair (el w)) (map hp prs) in
  exists b' d, vm_apply m VMLMB w b g = Some (b', d, if existsb curved prs' then SUCCESS else NOT_POSITIVE_DEFINITE) /\ lb_frame b b' /\
    (existsb curved prs' = true -> el d = lbfgs_direction prs' (free_part (el w) (el g))).
Proof.
  intros Hb L Hl Rd prs'. pose proof (lbo_mp _ _ L). pose proof (lbo_u _ _ L). unfold vm_apply. cbn [is_vmlmb]. rewrite <- Hl.
  assert (Lw : length (el w) = n) by apply el_length.
  assert (Hpos : forall p, goodb (ipw (el w)) p = true -> 0 < ipw (el w) (el (snd p)) (el (snd p))).
  { intros p Hp. unfold goodb in Hp. destruct (Rlt_bool_spec 0 (ipw (el w) (el (fst p)) (el (snd p)))) as [C|C]; [|discriminate].
    rewrite ipw_free in * by exact Hb. eapply ip_pos_yy; [| |exact C]; apply (restrict_length n); auto; apply el_length. }
  set (b0 := set_gamma b (nZ 0)). assert (F0 : lb_frame b b0) by (repeat split).
  destruct (down_free_ok w Hpos m prs 1 b0 g NOT_POSITIVE_DEFINITE) as (b' & d' & E & F & G & _ & U).
  { eapply lb_frame_ok; eauto. } { lia. } { change (b_updates b0) with (b_updates b); lia. } { lia. } { exact Rd. }
  rewrite E, ok_if. pose proof (lb_frame_trans _ _ _ F0 F) as F1.
  assert (Ef : filter curved prs' = map (fun p => free_pair (el w) (hp p)) (filter (goodb (ipw (el w))) prs)).
  { unfold prs'. rewrite map_map. apply filter_map_ext. intros p. apply curved_good3. exact Hb. }
  assert (Ex : existsb curved prs' = existsb (goodb (ipw (el w))) prs) by (rewrite !existsb_filter, Ef; destruct (filter _ prs); reflexivity).
  rewrite Ex. destruct (existsb (goodb (ipw (el w))) prs) eqn:Eg.
  - rewrite loop_up_ups. destruct (U b' (agree_refl _ _ _ _) (b_gamma b') _ (scaled b' d')) as (r & -> & Er).
    exists b', (vproduct w r). split; [reflexivity|]. split; [exact F1|]. intros _. rewrite product_el, Er. unfold Hprod.
    rewrite (gen_restrict n (ipw (el w)) (el w) Lw); [| |apply Forall_forall; intros q Hq; apply in_map_iff in Hq; destruct Hq as (q0 & <- & _); split; apply el_length|apply el_length].
    2: { intros u v _ _. apply ipw_free. exact Hb. }
    unfold lbfgs_direction. rewrite Ef, map_map. f_equal. rewrite G. change (b_gamma b0 : R) with 0. rewrite Req_bool_true by reflexivity.
    unfold first_gamma. rewrite existsb_filter in Eg. destruct (filter (goodb (ipw (el w))) prs) as [|q l]; [discriminate|].
    cbn [map hp free_pair initial_scale fst snd]. rewrite !ipw_free by exact Hb. reflexivity.
  - exists b', d'. split; [reflexivity|]. split; [exact F1|]. discriminate.
Qed.
End Real.
