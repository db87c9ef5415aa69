(** * Bound constraints in exact arithmetic: small steps and step limits *)
From Coq Require Import List ZArith Bool Reals Lra Lia.
From Flocq Require Import Core.
From Verif Require Import Num NumFacts OrdFacts VecModel ListFacts BoxSpec BoxProofs.
Import ListNotations.

Section R.
Variables H I : R.
Notation N := (NumR H I).
Let c : Cast N N := cast_id N.
Notation bound := (bound N N).
Local Open Scope R_scope.

Definition ins (lo hi : option R) (z : R) : Prop :=
  (forall a, lo = Some a -> a <= z) /\ (forall b, hi = Some b -> z <= b).

Lemma inside_ins lo hi i (z : R) :
  inside c lo hi i (z : N) <-> ins (bound_at c lo i) (bound_at c hi i) z.
Proof.
  unfold inside, ins. simpl.
  split; intros [H1 H2]; split; intros e He; try apply H1 in He; try apply H2 in He;
    apply Rle_bool_true_iff; auto.
Qed.


(** ** Directions *)
Lemma dir_opt_R desc (lo hi : option R) (x d : R) :
  ins lo hi x ->
  let p : R := @dir_opt N desc lo hi x d in
  let v := sgn desc * d in
  (p = d \/ p = 0) /\
  (p <> d -> (v < 0 /\ exists a, lo = Some a /\ x = a) \/ (v > 0 /\ exists b, hi = Some b /\ x = b)) /\
  (v < 0 -> p <> 0 -> forall a, lo = Some a -> a < x) /\
  (v > 0 -> p <> 0 -> forall b, hi = Some b -> x < b).
Proof.
  intros [Hlo Hhi].
  unfold dir_opt, dir_lower, dir_upper, dir_boxed, sgn. simpl.
  destruct lo as [a|], hi as [b|]; try specialize (Hlo a eq_refl); try specialize (Hhi b eq_refl);
    destruct desc; simpl;
    repeat match goal with
    | |- context [Rlt_bool ?u ?v] => destruct (Rlt_bool_spec u v)
    | |- context [Rle_bool ?u ?v] => destruct (Rle_bool_spec u v)
    end; simpl; try lra;
    (split; [solve [auto | right; lra | left; lra]|split; [intros Hp; try (exfalso; lra)|split; intros Hv Hp e He; try discriminate; try (injection He as <-); lra]]).
  all: try solve [left; split; [lra|exists a; split; [reflexivity|lra]]].
  all: try solve [right; split; [lra|exists b; split; [reflexivity|lra]]].
Qed.

Lemma dir_small_step desc lo hi (x d : R) :
  ins lo hi x -> exists eps, 0 < eps /\ forall al, 0 <= al <= eps ->
    ins lo hi (x + sgn desc * al * (@dir_opt N desc lo hi x d : R)).
Proof.
  intros Hi. destruct (dir_opt_R desc lo hi x d Hi) as (Hp & _ & Hdn & Hup).
  set (p := @dir_opt N desc lo hi x d : R) in *. cbv zeta in *.
  destruct Hp as [Hp|Hp].
  2:{ exists 1. split; [lra|]. intros al _. rewrite Hp. replace (x + sgn desc * al * 0) with x by ring. exact Hi. }
  destruct Hi as [Hlo Hhi].
  set (v := sgn desc * d) in *.
  assert (Hv : forall al, x + sgn desc * al * p = x + al * v) by (intros; rewrite Hp; unfold v; ring).
  destruct (Rtotal_order v 0) as [Hneg|[Hz|Hpos]].
  - assert (Hp0 : p <> 0). { intros E0. rewrite Hp in E0. unfold v in Hneg. rewrite E0 in Hneg. lra. }
    destruct lo as [a|].
    + specialize (Hdn Hneg Hp0 a eq_refl). exists ((a - x) / v).
      assert (Hq : 0 < (a - x) / v). { replace ((a - x)/v) with ((x - a) / - v) by (field; lra). apply Rdiv_lt_0_compat; lra. }
      split; [exact Hq|]. intros al [H1 H2]. rewrite Hv. split; intros e He.
      * injection He as <-. assert (al * - v <= (a - x)/v * - v) by (apply Rmult_le_compat_r; lra).
        assert ((a - x)/v * - v = x - a) by (field; lra). lra.
      * specialize (Hhi e He). assert (al * v <= 0) by (apply Rmult_le_0_l || nra). lra.
    + exists 1. split; [lra|]. intros al [H1 H2]. rewrite Hv. split; intros e He; [discriminate|].
      specialize (Hhi e He). nra.
  - exists 1. split; [lra|]. intros al _. rewrite Hv, Hz. replace (x + al * 0) with x by ring. split; auto.
  - assert (Hp0 : p <> 0). { intros E0. rewrite Hp in E0. unfold v in Hpos. rewrite E0 in Hpos. lra. }
    destruct hi as [b|].
    + specialize (Hup Hpos Hp0 b eq_refl). exists ((b - x) / v).
      assert (Hq : 0 < (b - x) / v) by (apply Rdiv_lt_0_compat; lra).
      split; [exact Hq|]. intros al [H1 H2]. rewrite Hv. split; intros e He.
      * specialize (Hlo e He). nra.
      * injection He as <-. assert (al * v <= (b - x)/v * v) by (apply Rmult_le_compat_r; lra).
        assert ((b - x)/v * v = b - x) by (field; lra). lra.
    + exists 1. split; [lra|]. intros al [H1 H2]. rewrite Hv. split; intros e He; [|discriminate].
      specialize (Hlo e He). nra.
Qed.

(** A finite number of components: a common step. *)
Lemma common_step (n : nat) (P : nat -> R -> Prop) :
  (forall i, (i < n)%nat -> exists eps, 0 < eps /\ forall al, 0 <= al <= eps -> P i al) ->
  exists eps, 0 < eps /\ forall i al, (i < n)%nat -> 0 <= al <= eps -> P i al.
Proof.
  induction n as [|n IH]; intros Hi.
  - exists 1. split; [lra|]. intros; lia.
  - destruct IH as (e1 & He1 & H1). { intros; apply Hi; lia. }
    destruct (Hi n) as (e2 & He2 & H2); [lia|].
    exists (Rmin e1 e2). split. { apply Rmin_glb_lt; auto. }
    intros i al Hlt [Ha Hb].
    assert (A1 := Rmin_l e1 e2). assert (A2 := Rmin_r e1 e2).
    destruct (Nat.eq_dec i n) as [->|].
    + apply H2; lra.
    + apply H1; [lia|lra].
Qed.

(** The variables x +/- alpha*d. *)

Lemma projected_direction_feasible desc lo hi (x d : list R) :
  length d = length x -> bound_size (length x) lo -> bound_size (length x) hi ->
  feasible c lo hi (x : list N) ->
  let p : list R := k_boxprojdir c desc lo hi (x : list N) (d : list N) in
  exists eps, 0 < eps /\ forall al, 0 <= al <= eps -> feasible c lo hi (moved desc al x p : list N).
Proof.
  intros Hd Slo Shi Hf p.
  destruct (common_step (length x) (fun i al => forall xi di, nth_error x i = Some xi -> nth_error d i = Some di ->
     ins (bound_at c lo i) (bound_at c hi i) (xi + sgn desc * al * (@dir_opt N desc (bound_at c lo i) (bound_at c hi i) xi di : R)))) as (eps & He & Hs).
  { intros i Hi. destruct (nth_error_Some_ex x i Hi) as [xi Hx]. destruct (nth_error_Some_ex d i) as [di Hdi]; [lia|].
    destruct (dir_small_step desc (bound_at c lo i) (bound_at c hi i) xi di) as (e & He & Hs).
    { apply inside_ins. apply Hf. exact Hx. }
    exists e. split; auto. intros al Ha xi' di' Hx' Hdi'. rewrite Hx in Hx'; injection Hx' as <-.
    rewrite Hdi in Hdi'; injection Hdi' as <-. apply Hs; exact Ha. }
  exists eps. split; [exact He|]. intros al Ha i z Hz. apply inside_ins.
  unfold moved in Hz. rewrite map2_nth_error in Hz.
  destruct (nth_error x i) as [xi|] eqn:Hx; [|discriminate].
  assert (Hi : (i < length x)%nat) by (eapply nth_error_lt; eauto).
  destruct (nth_error_Some_ex d i) as [di Hdi]; [lia|].
  assert (Q := projdir_nth c desc lo hi x d i Hd Slo Shi). fold p in Q.
  change (num N) with R in Q. rewrite Hx, Hdi in Q. rewrite Q in Hz.
  injection Hz as <-. apply Hs; auto.
Qed.

(** ** Step limits *)
Definition lim_of (desc : bool) (lo hi : option R) (x d : R) : option (option R) :=
  let v := sgn desc * d in
  if Rlt_bool 0 v then Some (match hi with Some b => Some ((b - x) / v) | None => None end)
  else if Rlt_bool v 0 then Some (match lo with Some a => Some ((a - x) / v) | None => None end)
  else None.

Definition lim_step (o : option (option R)) (l : @lims N) : @lims N :=
  match o with None => l | Some None => lim_inf l | Some (Some s) => @lim_upd N s l end.

Definition lim_opt (desc : bool) (lo hi : option N) (xi p : N) (l : @lims N) : @lims N :=
  match lo, hi with
  | Some a, Some b => lim_boxed desc a b xi p l
  | Some a, None => lim_lower desc a xi p l
  | None, Some b => lim_upper desc b xi p l
  | None, None => l
  end.

Lemma lim_opt_of desc (lo hi : option R) (x p : R) l :
  lo <> None \/ hi <> None -> lim_opt desc lo hi x p l = lim_step (lim_of desc lo hi x p) l.
Proof.
  intros Hb. unfold lim_opt, lim_boxed, lim_lower, lim_upper, lim_of, lim_step, sgn. simpl.
  destruct lo as [a|], hi as [b|]; [| | |destruct Hb; congruence]; destruct desc;
  repeat match goal with
    | |- context [Rlt_bool ?u ?v] => destruct (Rlt_bool_spec u v)
    end; try lra; try reflexivity;
  match goal with |- lim_upd ?u _ = lim_upd ?v _ => replace u with v; [reflexivity|simpl; field; lra] end.
Qed.

Definition quads n (lo hi : bound) (x d : list R) := combine (combine (blist c n lo) (blist c n hi)) (combine x d).

Lemma fold_quads2 (F : option N -> option N -> N -> N -> @lims N -> @lims N) A B n (x d : list N) l :
  length x = n -> length d = n ->
  fold_left (fun l q => F (fst (fst q)) (snd (fst q)) (fst (snd q)) (snd (snd q)) l)
    (combine (combine (repeat A n) (repeat B n)) (combine x d)) l
  = fold_left (fun l p => F A B (fst p) (snd p) l) (combine x d) l.
Proof.
  revert x d l. induction n as [|n IH]; intros [|a x] [|e d] l Hx Hd; simpl in *; try discriminate; auto.
Qed.
Lemma fold_quads3l (F : option N -> option N -> N -> N -> @lims N -> @lims N) (xl : list N) B n (x d : list N) l :
  length xl = n -> length x = n -> length d = n ->
  fold_left (fun l q => F (fst (fst q)) (snd (fst q)) (fst (snd q)) (snd (snd q)) l)
    (combine (combine (map Some xl) (repeat B n)) (combine x d)) l
  = fold_left (fun l p => F (Some (fst p)) B (fst (snd p)) (snd (snd p)) l) (combine xl (combine x d)) l.
Proof.
  revert xl x d l. induction n as [|n IH]; intros [|u xl] [|a x] [|e d] l Hl Hx Hd; simpl in *; try discriminate; auto.
Qed.
Lemma fold_quads3u (F : option N -> option N -> N -> N -> @lims N -> @lims N) (xu : list N) A n (x d : list N) l :
  length xu = n -> length x = n -> length d = n ->
  fold_left (fun l q => F (fst (fst q)) (snd (fst q)) (fst (snd q)) (snd (snd q)) l)
    (combine (combine (repeat A n) (map Some xu)) (combine x d)) l
  = fold_left (fun l p => F A (Some (fst p)) (fst (snd p)) (snd (snd p)) l) (combine xu (combine x d)) l.
Proof.
  revert xu x d l. induction n as [|n IH]; intros [|u xl] [|a x] [|e d] l Hl Hx Hd; simpl in *; try discriminate; auto.
Qed.
Lemma fold_quads4 (F : option N -> option N -> N -> N -> @lims N -> @lims N) (xl xu : list N) n (x d : list N) l :
  length xl = n -> length xu = n -> length x = n -> length d = n ->
  fold_left (fun l q => F (fst (fst q)) (snd (fst q)) (fst (snd q)) (snd (snd q)) l)
    (combine (combine (map Some xl) (map Some xu)) (combine x d)) l
  = fold_left (fun l p => F (Some (fst (fst p))) (Some (snd (fst p))) (fst (snd p)) (snd (snd p)) l)
      (combine (combine xl xu) (combine x d)) l.
Proof.
  revert xl xu x d l. induction n as [|n IH]; intros [|w xl] [|u xu] [|a x] [|e d] l Hl Hu Hx Hd; simpl in *; try discriminate; auto.
Qed.

(** The limits of the components. *)
Definition comp_lims desc (lo hi : bound) (x d : list R) : list (option (option R)) :=
  map (fun q => lim_of desc (fst (fst q)) (snd (fst q)) (fst (snd q)) (snd (snd q))) (quads (length x) lo hi x d).

Lemma steplim_fold desc (lo hi : bound) (x d : list R) :
  length d = length x -> bound_size (length x) lo -> bound_size (length x) hi -> lo <> BNone \/ hi <> BNone ->
  k_boxsteplim c desc lo hi (x : list N) (d : list N)
  = fold_left (fun l o => lim_step o l) (comp_lims desc lo hi x d) ((H, H, 0) : @lims N).
Proof.
  intros Hd Slo Shi Hb.
  transitivity (fold_left (fun l q => lim_opt desc (fst (fst q)) (snd (fst q)) (fst (snd q)) (snd (snd q)) l)
                   (quads (length x) lo hi x d) ((H, H, 0) : @lims N)).
  - unfold k_boxsteplim, quads.
    destruct lo as [|a|xl], hi as [|b|xu]; cbn [blist bound_size] in *;
      try (destruct Hb; congruence);
      (etransitivity; [|symmetry; first
         [ apply (fold_quads2 (lim_opt desc)); auto | apply (fold_quads3l (lim_opt desc)); auto
         | apply (fold_quads3u (lim_opt desc)); auto | apply (fold_quads4 (lim_opt desc)) with (n := length x); auto ]]);
      unfold loop2, loop3, loop4, lim_opt; cbn [fst snd];
      match goal with |- (let '(_, _) := ?p in _) = _ => destruct p as [[s1 s2] s3] eqn:Hp end;
      (symmetry; exact Hp).
  - unfold comp_lims. generalize ((H, H, 0) : @lims N).
    assert (Q : forall q, In q (quads (length x) lo hi x d) -> fst (fst q) <> None \/ snd (fst q) <> None).
    { intros q Hq. apply In_nth_error in Hq. destruct Hq as [i Hi]. unfold quads in Hi. rewrite !combine_nth_error in Hi.
      destruct (nth_error x i) eqn:Hx.
      - assert ((i < length x)%nat) by (eapply nth_error_lt; eauto).
        rewrite !blist_nth in Hi by auto. destruct (nth_error d i); [|discriminate]. injection Hi as <-. simpl.
        destruct Hb as [Hb|Hb]; [left|right].
        + destruct lo as [|a|xl]; simpl in *; try congruence.
          destruct (nth_error_Some_ex xl i) as [z Hz]; [lia|]; congruence.
        + destruct hi as [|a|xl]; simpl in *; try congruence.
          destruct (nth_error_Some_ex xl i) as [z Hz]; [lia|]; congruence.
      - destruct (nth_error (blist c (length x) lo) i), (nth_error (blist c (length x) hi) i); discriminate. }
    induction (quads (length x) lo hi x d) as [|q qs IH]; intros l; simpl; auto.
    rewrite lim_opt_of by (apply Q; left; reflexivity). apply IH. intros q' Hq'. apply Q. right; exact Hq'.
Qed.

Lemma blist_nth_R n (b : bound) i : bound_size n b -> (i < n)%nat ->
  @nth_error (option R) (blist c n b) i = Some (bound_at c b i).
Proof. exact (blist_nth c n b i). Qed.

Lemma comp_lims_In desc lo hi (x d : list R) o :
  length d = length x -> bound_size (length x) lo -> bound_size (length x) hi ->
  In o (comp_lims desc lo hi x d) <->
  exists i xi di, nth_error x i = Some xi /\ nth_error d i = Some di /\
                  o = lim_of desc (bound_at c lo i) (bound_at c hi i) xi di.
Proof.
  intros Hd Slo Shi. unfold comp_lims. rewrite in_map_iff. split.
  - intros (q & <- & Hq). apply In_nth_error in Hq. destruct Hq as [i Hi]. unfold quads in Hi. rewrite !combine_nth_error in Hi.
    destruct (nth_error x i) as [xi|] eqn:Hx.
    + assert ((i < length x)%nat) by (eapply nth_error_lt; eauto).
      rewrite !blist_nth_R in Hi by auto. destruct (nth_error d i) as [di|] eqn:Hdi; [|discriminate Hi]. injection Hi as <-. simpl.
      exists i, xi, di. auto.
    + destruct (@nth_error (option R) (blist c (length x) lo) i), (@nth_error (option R) (blist c (length x) hi) i); discriminate Hi.
  - intros (i & xi & di & Hx & Hdi & ->).
    exists ((bound_at c lo i, bound_at c hi i), (xi, di)). split; [reflexivity|].
    apply nth_error_In with (n := i). unfold quads. rewrite !combine_nth_error.
    assert ((i < length x)%nat) by (eapply nth_error_lt; eauto).
    rewrite !blist_nth_R by auto. rewrite Hx, Hdi. reflexivity.
Qed.

Lemma oo_dec (a b : option (option R)) : {a = b} + {a <> b}.
Proof. repeat decide equality; apply Req_EM_T. Qed.

(** What the fold computes. *)
Lemma fold_lims (L : list (option (option R))) : forall (t1 t2 t3 s1 s2 s3 : R),
  fold_left (fun l o => lim_step o l) L ((t1, t2, t3) : @lims N) = ((s1, s2, s3) : @lims N) ->
  (s1 <= t1 /\ (forall s, In (Some (Some s)) L -> s1 <= s) /\ (s1 = t1 \/ In (Some (Some s1)) L)) /\
  (s2 <= t2 /\ (forall s, In (Some (Some s)) L -> 0 < s -> s2 <= s) /\ (s2 = t2 \/ (0 < s2 /\ In (Some (Some s2)) L))) /\
  (~ In (Some None) L -> t3 <= s3 /\ (forall s, In (Some (Some s)) L -> s <= s3) /\ (s3 = t3 \/ In (Some (Some s3)) L)) /\
  (In (Some None) L -> H <= s3).
Proof.
  induction L as [|o L IH]; intros t1 t2 t3 s1 s2 s3 Hf.
  - simpl in Hf. injection Hf as <- <- <-. repeat split; simpl; try lra; try tauto; auto.
  - cbn [fold_left] in Hf. destruct o as [[s|]|]; cbn [lim_step] in Hf.
    + unfold lim_upd in Hf. simpl in Hf.
      specialize (IH _ _ _ _ _ _ Hf). destruct IH as ((A1 & A2 & A3) & (B1 & B2 & B3) & C & U).
      split; [|split; [|split]].
      * destruct (Rlt_bool_spec s t1); (split; [lra|split]).
        -- intros s' [E|Hs']; [injection E as <-; lra|auto].
        -- destruct A3 as [->|A3]; right; [left; reflexivity|right; auto].
        -- intros s' [E|Hs']; [injection E as <-; lra|auto].
        -- destruct A3 as [->|A3]; [left; reflexivity|right; right; auto].
      * destruct (Rlt_bool_spec s t2); destruct (Rlt_bool_spec 0 s); simpl in *; (split; [lra|split]);
          try (intros s' [E|Hs'] Hp; [injection E as <-; lra|auto]);
          (destruct B3 as [->|[B3 B4]]; [first [left; reflexivity|right; split; [assumption|left; reflexivity]]|right; split; [assumption|right; assumption]]).
      * intros Hn. destruct C as (C1 & C2 & C3). { intros Hi; apply Hn; right; auto. }
        destruct (Rlt_bool_spec t3 s); (split; [lra|split]).
        -- intros s' [E|Hs']; [injection E as <-; lra|auto].
        -- destruct C3 as [->|C3]; right; [left; reflexivity|right; auto].
        -- intros s' [E|Hs']; [injection E as <-; lra|auto].
        -- destruct C3 as [->|C3]; [left; reflexivity|right; right; auto].
      * intros [E|Hi]; [discriminate|auto].
    + unfold lim_inf in Hf. simpl in Hf.
      specialize (IH _ _ _ _ _ _ Hf). destruct IH as ((A1 & A2 & A3) & (B1 & B2 & B3) & C & U).
      split; [|split; [|split]].
      * split; [lra|split]. { intros s [E|Hs]; [discriminate|auto]. } destruct A3; [left|right; right]; auto.
      * split; [lra|split]. { intros s [E|Hs] Hp; [discriminate|auto]. } destruct B3 as [|[]]; [left|right; split; [|right]]; auto.
      * intros Hn. exfalso. apply Hn. left; reflexivity.
      * intros _. destruct (in_dec oo_dec (Some None) L) as [Hi|Hi].
        -- auto.
        -- apply C in Hi. lra.
    + specialize (IH _ _ _ _ _ _ Hf). destruct IH as ((A1 & A2 & A3) & (B1 & B2 & B3) & C & U).
      split; [|split; [|split]].
      * split; [lra|split]. { intros s [E|Hs]; [discriminate|auto]. } destruct A3; [left|right; right]; auto.
      * split; [lra|split]. { intros s [E|Hs] Hp; [discriminate|auto]. } destruct B3 as [|[]]; [left|right; split; [|right]]; auto.
      * intros Hn. destruct C as (C1 & C2 & C3). { intros Hi; apply Hn; right; auto. }
        split; [lra|split]. { intros s [E|Hs]; [discriminate|auto]. } destruct C3; [left|right; right]; auto.
      * intros [E|Hi]; [discriminate|auto].
Qed.

(** One component: what its limit means. *)
Lemma lim_of_spec desc lo hi (x d : R) : ins lo hi x ->
  let v := sgn desc * d in
  match lim_of desc lo hi x d with
  | None => v = 0
  | Some None => v <> 0 /\ (forall al, 0 <= al -> ins lo hi (x + al * v))
                 /\ ((v > 0 /\ hi = None) \/ (v < 0 /\ lo = None))
  | Some (Some s) =>
      v <> 0 /\ 0 <= s /\
      (forall al, 0 <= al -> (ins lo hi (x + al * v) <-> al <= s)) /\
      (forall al, s <= al -> (@clip_opt N lo hi (x + al * v) : R) = x + s * v) /\
      (forall al, 0 <= al <= s -> (@clip_opt N lo hi (x + al * v) : R) = x + al * v) /\
      ((v > 0 /\ hi <> None /\ (s = 0 -> hi = Some x)) \/ (v < 0 /\ lo <> None /\ (s = 0 -> lo = Some x)))
  end.
Proof.
  intros [Hlo Hhi] v. unfold lim_of. fold v.
  destruct (Rlt_bool_spec 0 v) as [Hv|Hv].
  - destruct hi as [b|].
    + specialize (Hhi b eq_refl).
      assert (Es : (b - x) / v * v = b - x) by (field; lra).
      set (s := (b - x) / v) in *.
      assert (Hs : 0 <= s). { unfold s. apply Rmult_le_pos; [lra|]. left. apply Rinv_0_lt_compat; lra. }
      split; [lra|]. split; [exact Hs|]. split; [|split; [|split]].
      * intros al Ha. split.
        -- intros [_ H2]. specialize (H2 b eq_refl). nra.
        -- intros Hle. split; intros e He.
           ++ specialize (Hlo e He). nra.
           ++ injection He as <-. nra.
      * intros al Ha. unfold clip_opt, clip_lo, clip_hi. simpl.
        assert (Hxb : b <= x + al * v) by nra.
        destruct lo as [a|].
        -- specialize (Hlo a eq_refl). destruct (Rlt_bool_spec (x + al * v) a); [nra|].
           destruct (Rlt_bool_spec b (x + al * v)); nra.
        -- destruct (Rlt_bool_spec b (x + al * v)); nra.
      * intros al Ha. unfold clip_opt, clip_lo, clip_hi. simpl.
        assert (Hxb : x + al * v <= b) by nra.
        destruct lo as [a|].
        -- specialize (Hlo a eq_refl). destruct (Rlt_bool_spec (x + al * v) a); [nra|].
           destruct (Rlt_bool_spec b (x + al * v)); nra.
        -- destruct (Rlt_bool_spec b (x + al * v)); nra.
      * left. split; [lra|]. split; [discriminate|]. intros Hz. rewrite Hz in Es. f_equal. lra.
    + split; [lra|]. split; [|left; auto]. intros al Ha. split; intros e He; [|discriminate].
      specialize (Hlo e He). nra.
  - destruct (Rlt_bool_spec v 0) as [Hv'|Hv']; [|lra].
    destruct lo as [a|].
    + specialize (Hlo a eq_refl).
      assert (Es : (a - x) / v * v = a - x) by (field; lra).
      set (s := (a - x) / v) in *.
      assert (Hs : 0 <= s).
      { unfold s. replace ((a - x)/v) with ((x - a) * / (- v)) by (field; lra).
        apply Rmult_le_pos; [lra|]. left. apply Rinv_0_lt_compat; lra. }
      split; [lra|]. split; [exact Hs|]. split; [|split; [|split]].
      * intros al Ha. split.
        -- intros [H2 _]. specialize (H2 a eq_refl). nra.
        -- intros Hle. split; intros e He.
           ++ injection He as <-. nra.
           ++ specialize (Hhi e He). nra.
      * intros al Ha. unfold clip_opt, clip_lo, clip_hi. simpl.
        assert (Hxb : x + al * v <= a) by nra.
        assert (Hab : forall b, hi = Some b -> a <= b) by (intros b Hb; specialize (Hhi b Hb); lra).
        destruct (Rlt_bool_spec (x + al * v) a); destruct hi as [b|]; try (specialize (Hab b eq_refl); specialize (Hhi b eq_refl));
          try match goal with |- context [Rlt_bool ?p ?q] => destruct (Rlt_bool_spec p q) end; nra.
      * intros al Ha. unfold clip_opt, clip_lo, clip_hi. simpl.
        assert (Hxb : a <= x + al * v) by nra.
        assert (Hab : forall b, hi = Some b -> a <= b) by (intros b Hb; specialize (Hhi b Hb); lra).
        destruct (Rlt_bool_spec (x + al * v) a); destruct hi as [b|]; try (specialize (Hab b eq_refl); specialize (Hhi b eq_refl));
          try match goal with |- context [Rlt_bool ?p ?q] => destruct (Rlt_bool_spec p q) end; nra.
      * right. split; [lra|]. split; [discriminate|]. intros Hz. rewrite Hz in Es. f_equal. lra.
    + split; [lra|]. split; [|right; auto]. intros al Ha. split; intros e He; [discriminate|].
      specialize (Hhi e He). nra.
Qed.


Lemma moved_nth desc al (x d : list R) i :
  nth_error (moved desc al x d) i =
  match nth_error x i, nth_error d i with Some xi, Some di => Some (xi + al * (sgn desc * di)) | _, _ => None end.
Proof.
  unfold moved. rewrite map2_nth_error. destruct (nth_error x i), (nth_error d i); auto. f_equal. ring.
Qed.

Lemma moved_length desc al (x d : list R) : length d = length x -> length (moved desc al x d) = length x.
Proof. intros. apply map2_length; auto. Qed.

Lemma proj_moved_nth desc lo hi al (x d : list R) i :
  length d = length x -> bound_size (length x) lo -> bound_size (length x) hi ->
  @nth_error R (k_boxprojvar c lo hi (moved desc al x d : list N)) i =
  match nth_error x i, nth_error d i with
  | Some xi, Some di => Some (@clip_opt N (bound_at c lo i) (bound_at c hi i) (xi + al * (sgn desc * di)))
  | _, _ => None end.
Proof.
  intros Hd Slo Shi.
  assert (Q := projvar_nth c lo hi (moved desc al x d : list N) i).
  assert (LL : @length N (moved desc al x d) = length x) by exact (moved_length desc al x d Hd).
  rewrite LL in Q. specialize (Q Slo Shi).
  change (num N) with R in Q. rewrite Q. rewrite moved_nth.
  destruct (nth_error x i), (nth_error d i); reflexivity.
Qed.

Lemma step_limits_spec desc lo hi (x d : list R) :
  0 < H -> length d = length x -> bound_size (length x) lo -> bound_size (length x) hi ->
  feasible c lo hi (x : list N) ->
  forall smin1 smin2 smax : R, k_boxsteplim c desc lo hi (x : list N) (d : list N) = (smin1, smin2, smax) ->
  0 <= smin1 <= smin2 /\ 0 < smin2 /\
  (forall al, 0 <= al <= smin1 -> feasible c lo hi (moved desc al x d : list N)) /\
  (smin1 < H -> forall al, smin1 < al -> ~ feasible c lo hi (moved desc al x d : list N)) /\
  (bounded_motion desc lo hi d -> forall al, smax <= al ->
     k_boxprojvar c lo hi (moved desc al x d : list N) = k_boxprojvar c lo hi (moved desc smax x d : list N)) /\
  (bounded_motion desc lo hi d -> lo <> BNone \/ hi <> BNone -> forall al, 0 <= al < smax ->
     k_boxprojvar c lo hi (moved desc al x d : list N) <> k_boxprojvar c lo hi (moved desc smax x d : list N)) /\
  (~ bounded_motion desc lo hi d -> H <= smax) /\
  (forall d0 : list R, length d0 = length x -> d = k_boxprojdir c desc lo hi (x : list N) (d0 : list N) -> smin1 = smin2).
Proof.
  intros Hpos Hd Slo Shi Hf smin1 smin2 smax Hk.
  assert (HC : forall i xi, nth_error x i = Some xi -> ins (bound_at c lo i) (bound_at c hi i) xi)
    by (intros i xi Hi; apply inside_ins, Hf, Hi).
  destruct (match lo, hi with BNone, BNone => true | _, _ => false end) eqn:HNN.
  { (* no bounds *)
    destruct lo, hi; try discriminate. simpl in Hk. injection Hk as <- <- <-.
    assert (Hfeas : forall l : list N, feasible c BNone BNone l) by (intros l i z _; split; discriminate).
    assert (Hbm : @bounded_motion H I desc BNone BNone d -> forall i di, nth_error d i = Some di -> di = 0).
    { intros Hb i di Hi. specialize (Hb i di Hi). unfold sgn in Hb. destruct (Req_dec di 0) as [|Hnz]; auto.
      destruct Hb as [H1 H2]. simpl in *. destruct desc; destruct (Rtotal_order di 0) as [|[|]]; try lra;
      first [exfalso; apply H1; [lra|reflexivity] | exfalso; apply H2; [lra|reflexivity]]. }
    split; [lra|]. split; [lra|]. split; [auto|]. split; [lra|]. split; [|split; [|split]].
    - intros Hb al _. simpl. apply list_eq_nth_error. intros i. change (num N) with R. rewrite !moved_nth.
      destruct (nth_error x i); auto. destruct (nth_error d i) eqn:Hdi; auto. rewrite (Hbm Hb i r0 Hdi). f_equal. ring.
    - intros _ [Hb|Hb]; congruence.
    - lra.
    - reflexivity. }
  assert (Hb : lo <> BNone \/ hi <> BNone) by (destruct lo, hi; try discriminate; solve [left; discriminate|right; discriminate]).
  clear HNN. rewrite steplim_fold in Hk by auto.
  assert (HF := fold_lims _ _ _ _ _ _ _ Hk). destruct HF as ((A1 & A2 & A3) & (B1 & B2 & B3) & C & U).
  set (L := comp_lims desc lo hi x d) in *.
  assert (HL : forall o, In o L <-> exists i xi di, nth_error x i = Some xi /\ nth_error d i = Some di /\
                  o = lim_of desc (bound_at c lo i) (bound_at c hi i) xi di) by (intros; apply comp_lims_In; auto).
  assert (Hs0 : forall s, In (Some (Some s)) L -> 0 <= s).
  { intros s Hs. apply HL in Hs. destruct Hs as (i & xi & di & Hx & Hdi & Ho).
    assert (T := lim_of_spec desc _ _ xi di (HC i xi Hx)). cbv zeta in T. rewrite <- Ho in T. destruct T as (_ & T & _). exact T. }
  assert (P1 : 0 <= smin1). { destruct A3 as [->|A3]; [lra|auto]. }
  assert (P2 : 0 < smin2). { destruct B3 as [->|[B3 _]]; lra. }
  assert (P12 : smin1 <= smin2). { destruct B3 as [->|[_ B3]]; [exact A1|apply A2; exact B3]. }
  assert (HU : ~ In (Some None) L <-> bounded_motion desc lo hi d).
  { split.
    - intros Hn i di Hdi. destruct (nth_error_Some_ex x i) as [xi Hx]. { apply nth_error_lt in Hdi. lia. }
      assert (T := lim_of_spec desc _ _ xi di (HC i xi Hx)). cbv zeta in T.
      destruct (lim_of desc (bound_at c lo i) (bound_at c hi i) xi di) as [[s|]|] eqn:Ho.
      + destruct T as (_ & _ & _ & _ & _ & T). split; intros; destruct T as [(? & ? & _)|(? & ? & _)]; auto; lra.
      + exfalso. apply Hn. apply HL. exists i, xi, di. auto.
      + split; intros; lra.
    - intros Hbm Hin. apply HL in Hin. destruct Hin as (i & xi & di & Hx & Hdi & Ho).
      assert (T := lim_of_spec desc _ _ xi di (HC i xi Hx)). cbv zeta in T. rewrite <- Ho in T.
      destruct T as (_ & _ & T). destruct (Hbm i di Hdi) as [M1 M2]. destruct T as [[T1 T2]|[T1 T2]]; [apply M1|apply M2]; auto. }
  split; [lra|]. split; [exact P2|]. split; [|split; [|split; [|split; [|split]]]].
  - intros al Ha i z Hz. apply inside_ins. change (num N) with R in Hz. rewrite moved_nth in Hz.
    destruct (nth_error x i) as [xi|] eqn:Hx; [|discriminate]. destruct (nth_error d i) as [di|] eqn:Hdi; [|discriminate].
    injection Hz as <-.
    assert (T := lim_of_spec desc _ _ xi di (HC i xi Hx)). cbv zeta in T.
    destruct (lim_of desc (bound_at c lo i) (bound_at c hi i) xi di) as [[s|]|] eqn:Ho.
    + destruct T as (_ & _ & T & _). apply T; [lra|]. assert (smin1 <= s); [|lra]. apply A2, HL. exists i, xi, di. auto.
    + apply T; lra.
    + rewrite T. replace (xi + al * 0) with xi by ring. apply HC; auto.
  - intros Hlt al Ha Hfe. destruct A3 as [A3|A3]; [lra|]. apply HL in A3. destruct A3 as (i & xi & di & Hx & Hdi & Ho).
    assert (T := lim_of_spec desc _ _ xi di (HC i xi Hx)). cbv zeta in T. rewrite <- Ho in T. destruct T as (_ & _ & T & _).
    assert (Hm : @nth_error R (moved desc al x d) i = Some (xi + al * (sgn desc * di))) by (rewrite moved_nth, Hx, Hdi; reflexivity).
    apply Hfe in Hm. apply inside_ins in Hm. apply T in Hm; lra.
  - intros Hbm al Ha. apply HU in Hbm. destruct (C Hbm) as (C1 & C2 & C3).
    apply list_eq_nth_error. intros i. change (num N) with R. rewrite !proj_moved_nth by auto.
    destruct (nth_error x i) as [xi|] eqn:Hx; auto. destruct (nth_error d i) as [di|] eqn:Hdi; auto. f_equal.
    assert (T := lim_of_spec desc _ _ xi di (HC i xi Hx)). cbv zeta in T.
    destruct (lim_of desc (bound_at c lo i) (bound_at c hi i) xi di) as [[s|]|] eqn:Ho.
    + destruct T as (_ & _ & _ & T & _). assert (s <= smax). { apply C2, HL. exists i, xi, di. auto. }
      rewrite (T al), (T smax) by lra. reflexivity.
    + exfalso. apply Hbm, HL. exists i, xi, di. auto.
    + rewrite T. do 2 f_equal. ring.
  - intros Hbm _ al Ha Heq. apply HU in Hbm. destruct (C Hbm) as (C1 & C2 & C3).
    destruct C3 as [C3|C3]; [lra|]. apply HL in C3. destruct C3 as (i & xi & di & Hx & Hdi & Ho).
    assert (T := lim_of_spec desc _ _ xi di (HC i xi Hx)). cbv zeta in T. rewrite <- Ho in T.
    destruct T as (Hv & _ & _ & T1 & T2 & _).
    assert (E1 := proj_moved_nth desc lo hi al x d i Hd Slo Shi). assert (E2 := proj_moved_nth desc lo hi smax x d i Hd Slo Shi).
    rewrite Heq in E1. rewrite E1 in E2. rewrite Hx, Hdi in E2. injection E2 as E2.
    rewrite T2, T1 in E2 by lra. assert (E3 : (smax - al) * (sgn desc * di) = 0) by lra.
    apply Rmult_integral in E3. lra.
  - intros Hnb. apply U. destruct (in_dec oo_dec (Some None) L) as [|Hn]; auto. exfalso. apply Hnb, HU, Hn.
  - intros d0 Hd0 Hp. assert (Hpos' : forall s, In (Some (Some s)) L -> 0 < s).
    { intros s Hs. assert (T0 := Hs0 s Hs). destruct (Req_dec s 0) as [Hz|]; [|lra]. exfalso.
      apply HL in Hs. destruct Hs as (i & xi & di & Hx & Hdi & Ho).
      assert (T := lim_of_spec desc _ _ xi di (HC i xi Hx)). cbv zeta in T. rewrite <- Ho in T.
      destruct T as (Hv & _ & _ & _ & _ & T).
      assert (Q := projdir_nth c desc lo hi x d0 i Hd0 Slo Shi). change (num N) with R in Q. rewrite <- Hp, Hdi, Hx in Q.
      destruct (nth_error_Some_ex d0 i) as [d0i Hd0i]. { apply nth_error_lt in Hx. lia. }
      change (num N) with R in Q. rewrite Hd0i in Q. injection Q as Q.
      destruct (dir_opt_R desc (bound_at c lo i) (bound_at c hi i) xi d0i (HC i xi Hx)) as (Q1 & _ & Q2 & Q3).
      cbv zeta in *. change (num N) with R in *. rewrite <- Q in Q1, Q2, Q3.
      assert (Hnz : di <> 0). { intros E0. apply Hv. rewrite E0. ring. }
      destruct Q1 as [Q1|Q1]; [|contradiction]. rewrite <- Q1 in Q2, Q3.
      destruct T as [(T1 & _ & T2)|(T1 & _ & T2)].
      - specialize (Q3 T1 Hnz xi (T2 Hz)). lra.
      - specialize (Q2 T1 Hnz xi (T2 Hz)). lra. }
    apply Rle_antisym; [exact P12|]. destruct A3 as [->|A3]; [exact B1|]. apply B2; auto.
Qed.

Lemma projection_unique lo hi (x p q : list R) :
  is_projection c lo hi (x : list N) p -> is_projection c lo hi (x : list N) q -> p = q.
Proof.
  intros [Lp Hp] [Lq Hq]. change (@length R p = @length R x) in Lp. change (@length R q = @length R x) in Lq. apply list_eq_nth_error. intros i.
  destruct (nth_error x i) as [xi|] eqn:Hi.
  - destruct (nth_error_Some_ex p i) as [pi Ei]. { rewrite Lp. apply (nth_error_lt _ _ _ Hi). }
    destruct (nth_error_Some_ex q i) as [qi Ei']. { rewrite Lq. apply (nth_error_lt _ _ _ Hi). }
    rewrite Ei, Ei'. f_equal.
    destruct (Hp i xi pi Hi Ei) as (P1 & P2 & P3 & P4). destruct (Hq i xi qi Hi Ei') as (Q1 & Q2 & Q3 & Q4).
    assert (T : inside c lo hi i (xi : N) \/ (exists a, bound_at c lo i = Some a /\ nlt (xi : N) a = true) \/
                (exists b, bound_at c hi i = Some b /\ nlt b (xi : N) = true)).
    { unfold inside. destruct (bound_at c lo i) as [a|] eqn:Ha; destruct (bound_at c hi i) as [b|] eqn:Hb; simpl.
      - destruct (Rlt_bool_spec xi a) as [H1|H1]; [right; left; exists a; split; auto; apply Rlt_bool_true; auto|].
        destruct (Rlt_bool_spec b xi) as [H2|H2]; [right; right; exists b; split; auto; apply Rlt_bool_true; auto|].
        left. split; intros e [= <-]; apply Rle_bool_true; auto.
      - destruct (Rlt_bool_spec xi a) as [H1|H1]; [right; left; exists a; split; auto; apply Rlt_bool_true; auto|].
        left. split; intros e He; [injection He as <-|discriminate]; apply Rle_bool_true; auto.
      - destruct (Rlt_bool_spec b xi) as [H2|H2]; [right; right; exists b; split; auto; apply Rlt_bool_true; auto|].
        left. split; intros e He; [discriminate|injection He as <-]; apply Rle_bool_true; auto.
      - left. split; discriminate. }
    destruct T as [T|[(a & Ha & T)|(b & Hb & T)]].
    + rewrite P2, Q2; auto.
    + rewrite (P3 a), (Q3 a); auto.
    + rewrite (P4 b), (Q4 b); auto.
  - apply nth_error_None in Hi.
    transitivity (@None R); [|symmetry]; apply nth_error_None; [rewrite Lp|rewrite Lq]; exact Hi.
Qed.

Lemma projdir_dot desc lo hi (x d : list R) :
  length d = length x -> bound_size (length x) lo -> bound_size (length x) hi ->
  let p : list R := k_boxprojdir c desc lo hi (x : list N) (d : list N) in
  forall i di pi, nth_error d i = Some di -> nth_error p i = Some pi -> pi = di \/ pi = 0.
Proof.
  intros Hd Slo Shi p i di pi Hdi Hpi.
  unfold p in Hpi. change (@nth_error (num N) (k_boxprojdir c desc lo hi (x : list N) (d : list N)) i = Some pi) in Hpi.
  rewrite projdir_nth in Hpi by auto. change (num N) with R in Hpi. rewrite Hdi in Hpi.
  destruct (nth_error x i) as [xi|]; [|discriminate]. injection Hpi as <-.
  unfold dir_opt, dir_lower, dir_upper, dir_boxed.
  destruct (bound_at c lo i), (bound_at c hi i), desc; auto;
    repeat match goal with |- context [if ?q then _ else _] => destruct q end; auto.
Qed.

Lemma projvar_moved_is_projection desc lo hi al (x d : list R) :
  length d = length x -> bound_size (length x) lo -> bound_size (length x) hi -> feasible c lo hi (x : list N) ->
  is_projection c lo hi (moved desc al x d : list N) (k_boxprojvar c lo hi (moved desc al x d : list N)).
Proof.
  intros Hd Slo Shi Hf.
  assert (L : @length N (moved desc al x d) = length x) by exact (moved_length desc al x d Hd).
  apply (projvar_is_projection c (OrdR H I)).
  - rewrite L. split; [exact Slo|]. split; [exact Shi|].
    split; [|split]; try (intros; apply Req_bool_true; reflexivity).
    intros i a b Hi Ha Hb. destruct (nth_error_Some_ex x i Hi) as [xi Hxi].
    destruct (Hf i xi Hxi) as [H1 H2]. specialize (H1 a Ha). specialize (H2 b Hb). simpl in *.
    apply Rle_bool_true_iff in H1. apply Rle_bool_true_iff in H2. apply Rle_bool_true. lra.
  - intros; apply Req_bool_true; reflexivity.
Qed.

Lemma step_limits_spec' desc lo hi (x d : list R) :
  0 < H -> length d = length x -> bound_size (length x) lo -> bound_size (length x) hi ->
  feasible c lo hi (x : list N) ->
  forall smin1 smin2 smax : R, k_boxsteplim c desc lo hi (x : list N) (d : list N) = (smin1, smin2, smax) ->
  0 <= smin1 <= smin2 /\ 0 < smin2 /\
  (forall al, 0 <= al <= smin1 -> feasible c lo hi (moved desc al x d : list N)) /\
  (smin1 < H -> forall al, smin1 < al -> ~ feasible c lo hi (moved desc al x d : list N)) /\
  (bounded_motion desc lo hi d -> forall al p q, smax <= al ->
     is_projection c lo hi (moved desc al x d : list N) p -> is_projection c lo hi (moved desc smax x d : list N) q -> p = q) /\
  (bounded_motion desc lo hi d -> lo <> BNone \/ hi <> BNone -> forall al p q, 0 <= al < smax ->
     is_projection c lo hi (moved desc al x d : list N) p -> is_projection c lo hi (moved desc smax x d : list N) q -> p <> q) /\
  (~ bounded_motion desc lo hi d -> H <= smax) /\
  (forall d0 : list R, length d0 = length x -> d = k_boxprojdir c desc lo hi (x : list N) (d0 : list N) -> smin1 = smin2).
Proof.
  intros Hpos Hd Slo Shi Hf smin1 smin2 smax Hk.
  destruct (step_limits_spec desc lo hi x d Hpos Hd Slo Shi Hf smin1 smin2 smax Hk) as (S1 & S2 & S3 & S4 & S5 & S6 & S7 & S8).
  pose proof (fun al => projvar_moved_is_projection desc lo hi al x d Hd Slo Shi Hf) as P.
  assert (U : forall al p, is_projection c lo hi (moved desc al x d : list N) p -> p = k_boxprojvar c lo hi (moved desc al x d : list N))
    by (intros al p Hp; exact (projection_unique _ _ _ _ _ Hp (P al))).
  repeat (split; [solve [auto]|]). split; [|split; [|split]]; auto.
  - intros Hb al p q Hal Hp Hq. rewrite (U _ _ Hp), (U _ _ Hq). auto.
  - intros Hb Hn al p q Hal Hp Hq. rewrite (U _ _ Hp), (U _ _ Hq). auto.
Qed.
End R.
