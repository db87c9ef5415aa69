(** * Line searches in exact arithmetic: backtracking and the step update of More & Thuente *)
From Coq Require Import List ZArith Bool Arith Lia Reals Lra Psatz.
From Flocq Require Import Core.
From Verif Require Import Num NumFacts OrdFacts Base LsModel LsSpec ListFacts LsProofs LsOrd.
Import ListNotations.
Local Open Scope R_scope.

Ltac rb := repeat match goal with
  | H : Rle_bool _ _ = true |- _ => apply Rle_bool_true_iff in H
  | H : Rle_bool _ _ = false |- _ => apply Rle_bool_false_iff in H
  | H : Rlt_bool _ _ = true |- _ => apply Rlt_bool_true_iff in H
  | H : Rlt_bool _ _ = false |- _ => apply Rlt_bool_false_iff in H
  | H : Req_bool _ _ = true |- _ => apply Req_bool_true_iff in H
  | H : Req_bool _ _ = false |- _ => apply Req_bool_false_iff in H
  end.

Section Cstep.
Variables H I : R.
Notation NR := (NumR H I).

Lemma max3_ge (a b c : R) : a <= max3 (N := NR) a b c /\ b <= max3 (N := NR) a b c /\ c <= max3 (N := NR) a b c.
Proof. unfold max3. simpl. destruct (Rlt_bool_spec a b), (Rlt_bool_spec (if Rlt_bool a b then b else a) c); repeat match goal with |- context[Rlt_bool ?x ?y] => destruct (Rlt_bool_spec x y) end; lra. Qed.

Lemma gamma_eq (th d1 d2 : R) : d1 <> 0 -> cstep_gamma (N := NR) th d1 d2 = sqrt (th * th - d1 * d2).
Proof.
  intros Hd. unfold cstep_gamma. simpl. set (s := max3 (N := NR) (Rabs th) (Rabs d1) (Rabs d2)).
  assert (Hs : 0 < s). { pose proof (max3_ge (Rabs th) (Rabs d1) (Rabs d2)). pose proof (Rabs_pos_lt d1 Hd). unfold s. simpl in *. lra. }
  change (num NR) with R in s. clearbody s.
  replace (th * th - d1 * d2) with (s * s * (th / s * (th / s) - d1 / s * (d2 / s))) by (field; lra).
  rewrite (sqrt_mult_alt (s * s)) by nra. rewrite sqrt_square by lra. reflexivity.
Qed.

(** The minimizer of the cubic that interpolates [fa], [da] at [a] and [fb], [db] at [b]. *)
Definition cubic (a fa da b fb db : R) : R :=
  let th := 3 * (fa - fb) / (b - a) + da + db in
  let G := sqrt (th * th - da * db) in
  let g := if Rlt_bool b a then - G else G in
  a + ((g - da) + th) / (((g - da) + g) + db) * (b - a).

(** [x] lies strictly between [a] and [b]. *)
Definition inside (a x b : R) : Prop := a < x < b \/ b < x < a.

Lemma inside_ratio a b r : a <> b -> 0 < r < 1 -> inside a (a + r * (b - a)) b.
Proof. intros Hab Hr. unfold inside. destruct (Rtotal_order a b) as [L|[E|L]]; [left|contradiction|right]; nra. Qed.

Lemma cubic_ratio (th d1 d2 : R) : d1 < 0 -> (d2 > 0 \/ th <= d1 + d2 /\ d2 <= 0) ->
  let G := sqrt (th * th - d1 * d2) in 0 < G - d1 + th /\ 0 < G + d2 - th.
Proof.
  intros H1 H2 G. assert (G0 : 0 <= G) by apply sqrt_pos.
  destruct H2 as [H2|[H2 H3]].
  - assert (GG : G * G = th * th - d1 * d2) by (apply sqrt_sqrt; nra).
    assert (Rabs th < G). { apply Rsqr_incrst_0; [|apply Rabs_pos|exact G0]. rewrite <- Rsqr_abs. unfold Rsqr. nra. }
    pose proof (Rle_abs th). pose proof (Rle_abs (- th)). rewrite Rabs_Ropp in *. lra.
  - assert (GG : G * G = th * th - d1 * d2) by (apply sqrt_sqrt; nra). split; [|lra].
    assert (- th + d1 < G); [|lra]. apply Rsqr_incrst_0; [unfold Rsqr; nra|lra|exact G0].
Qed.

Lemma cubic_inside a fa da b fb db : da * (b - a) < 0 -> (fa <= fb \/ db * (b - a) > 0) -> inside a (cubic a fa da b fb db) b.
Proof.
  intros Hd Hc. assert (Hab : a <> b) by (intros ->; lra). unfold cubic. set (th := 3 * (fa - fb) / (b - a) + da + db).
  apply inside_ratio; [exact Hab|].
  destruct (Rlt_bool_spec b a) as [L|L].
  - assert (X := cubic_ratio (- th) (- da) (- db)). replace (- th * - th - - da * - db) with (th * th - da * db) in X by ring.
    set (G := sqrt _) in *. cbv zeta in X. destruct X as [X1 X2].
    + nra.
    + destruct (Rlt_le_dec 0 (- db)) as [Y|Y]; [left; lra|]. right. split; [|lra].
      destruct Hc as [Hc|Hc]; [|nra]. unfold th. assert (0 <= 3 * (fa - fb) / (b - a)); [|lra].
      replace (3 * (fa - fb) / (b - a)) with (3 * (fb - fa) * / (a - b)) by (field; lra). pose proof (Rinv_0_lt_compat (a - b)). apply Rmult_le_pos; lra.
    + replace ((- G - da + th) / (- G - da + - G + db)) with ((G - - da + - th) / ((G - - da + - th) + (G + - db - - th))) by (field; lra).
      split; [apply Rdiv_lt_0_compat; lra|]. apply Rmult_lt_reg_r with ((G - - da + - th) + (G + - db - - th)); [lra|].
      unfold Rdiv. rewrite Rmult_assoc, Rinv_l by lra. lra.
  - assert (X := cubic_ratio th da db).
    set (G := sqrt _) in *. cbv zeta in X. destruct X as [X1 X2].
    + nra.
    + destruct (Rlt_le_dec 0 db) as [Y|Y]; [left; lra|]. right. split; [|lra].
      destruct Hc as [Hc|Hc]; [|nra]. unfold th. assert (0 <= 3 * (fb - fa) / (b - a)).
      { pose proof (Rinv_0_lt_compat (b - a)). apply Rmult_le_pos; lra. }
      replace (3 * (fa - fb) / (b - a)) with (- (3 * (fb - fa) / (b - a))) by (field; lra). lra.
    + replace ((G - da + th) / (G - da + G + db)) with ((G - da + th) / ((G - da + th) + (G + db - th))) by (f_equal; ring).
      split; [apply Rdiv_lt_0_compat; lra|]. apply Rmult_lt_reg_r with ((G - da + th) + (G + db - th)); [lra|].
      unfold Rdiv. rewrite Rmult_assoc, Rinv_l by lra. lra.
Qed.

Lemma case1_inside stx fx dx stp fp dp : dx * (stp - stx) < 0 -> fx < fp -> inside stx (cstep_case1 (N := NR) stx fx dx stp fp dp) stp.
Proof.
  intros Hd Hf. unfold cstep_case1, cstep_theta. 
  assert (Hdx : dx <> 0) by (intros ->; lra). rewrite gamma_eq by exact Hdx. simpl.
  pose proof (cubic_inside stx fx dx stp fp dp Hd (or_introl (Rlt_le _ _ Hf))) as C. unfold cubic in C.
  set (stpc := _ + _ * _) in C |- *. change (num NR) with R. 
  set (stpq := stx + dx / ((fx - fp) / (stp - stx) + dx) / 2 * (stp - stx)).
  assert (Q : inside stx stpq stp).
  { apply inside_ratio; [intros ->; lra|].
    assert (D : dx / ((fx - fp) / (stp - stx) + dx) = 1 / (1 + (fp - fx) / - (dx * (stp - stx)))).
    { assert (stp - stx <> 0) by (intros E; rewrite E in Hd; lra).
      assert ((fx - fp) + dx * (stp - stx) <> 0) by lra.
      assert (- (dx * (stp - stx)) + (fp - fx) <> 0) by lra.
      field. repeat split; auto; lra. }
    rewrite D. assert (0 < (fp - fx) / - (dx * (stp - stx))) by (apply Rdiv_lt_0_compat; lra).
    set (u := (fp - fx) / _) in *. clearbody u.
    assert (0 < 1 / (1 + u)) by (apply Rdiv_lt_0_compat; lra).
    assert (1 / (1 + u) < 1). { apply Rmult_lt_reg_r with (1 + u); [lra|]. unfold Rdiv. rewrite Rmult_assoc, Rinv_l; lra. }
    lra. }
  clearbody stpc stpq. unfold inside in *. match goal with |- context[if ?b then _ else _] => destruct b end; [exact C|]. lra.
Qed.

Lemma quad_inside a da b db : da * (b - a) < 0 -> da * db < 0 -> inside a (a + da / (da - db) * (b - a)) b.
Proof.
  intros Hd Ho. apply inside_ratio; [intros ->; lra|].
  assert (D : da / (da - db) = 1 / (1 + (- (da * db)) / (da * da))).
  { assert (da <> 0) by (intros ->; lra). assert (da - db <> 0) by nra. field. repeat split; nra. }
  rewrite D. assert (0 < da * da) by nra. assert (0 < (- (da * db)) / (da * da)) by (apply Rdiv_lt_0_compat; lra).
  set (u := _ / (da * da)) in *. clearbody u. split; [apply Rdiv_lt_0_compat; lra|].
  apply Rmult_lt_reg_r with (1 + u); [lra|]. unfold Rdiv. rewrite Rmult_assoc, Rinv_l; lra.
Qed.

Lemma case2_inside stx fx dx stp fp dp : dx * (stp - stx) < 0 -> dp * dx < 0 -> fp <= fx ->
  inside stp (cstep_case2 (N := NR) stx fx dx stp fp dp) stx.
Proof.
  intros Hd Ho Hf. unfold cstep_case2, cstep_theta. 
  assert (Hdx : dx <> 0) by (intros ->; lra). rewrite gamma_eq by exact Hdx. simpl.
  assert (stp - stx <> 0) by (intros E; rewrite E in Hd; lra).
  assert (Hd' : dp * (stx - stp) < 0) by nra.
  pose proof (cubic_inside stp fp dp stx fx dx Hd' (or_introl Hf)) as C. unfold cubic in C.
  replace (3 * (fp - fx) / (stx - stp) + dp + dx) with (3 * (fx - fp) / (stp - stx) + dx + dp) in C by (field; lra).
  replace (dp * dx) with (dx * dp) in C by ring.
  set (stpc := _ + _ * _) in C |- *. 
  pose proof (quad_inside stp dp stx dx Hd' Ho) as Q. set (stpq := stp + dp / (dp - dx) * (stx - stp)) in *. change (num NR) with R.
  clearbody stpc stpq. match goal with |- context[if ?b then _ else _] => destruct b end; assumption.
Qed.

Lemma case4_inside stx sty fy dy stp fp dp s1 s2 : dp * (sty - stp) < 0 -> (fp <= fy \/ dy * (sty - stp) > 0) ->
  inside stp (cstep_case4 (N := NR) stx sty fy dy stp fp dp true s1 s2) sty.
Proof.
  intros Hd Hc. unfold cstep_case4, cstep_gamma. fold (cstep_gamma (N := NR)).
  pose proof (cubic_inside stp fp dp sty fy dy Hd Hc) as C. unfold cubic in C.
  assert (Hdp : dp <> 0) by (intros ->; lra).
  assert (G : forall th, cstep_gamma (N := NR) th dy dp = sqrt (th * th - dp * dy)).
  { intros th. unfold cstep_gamma. simpl. set (s := max3 (N := NR) (Rabs th) (Rabs dy) (Rabs dp)).
    assert (Hs : 0 < s). { pose proof (max3_ge (Rabs th) (Rabs dy) (Rabs dp)). pose proof (Rabs_pos_lt dp Hdp). unfold s. simpl in *. lra. }
    change (num NR) with R in s. clearbody s.
    replace (th * th - dp * dy) with (s * s * (th / s * (th / s) - dy / s * (dp / s))) by (field; lra).
    rewrite (sqrt_mult_alt (s * s)) by nra. rewrite sqrt_square by lra. reflexivity. }
  unfold cstep_gamma in G. simpl in G |- *. 
  replace (3 * (fp - fy) / (sty - stp) + dy + dp) with (3 * (fp - fy) / (sty - stp) + dp + dy) by ring.
  rewrite G. exact C.
Qed.

(** Third case: strictly beyond the current step, at most 66% of the way to the other end. *)
Lemma case3_inside stx fx dx sty stp fp dp s1 s2 : inside stx stp sty -> dx * (stp - stx) < 0 -> dp * dx > 0 -> Rabs dp < Rabs dx ->
  s1 <= Rmin stx sty -> Rmax stx sty <= s2 ->
  inside stp (cstep_case3 (N := NR) stx fx dx sty stp fp dp true s1 s2) sty.
Proof.
  intros Hin Hd Ho Ha H1 H2. unfold cstep_case3. cbv zeta. simpl.
  set (stpc := if _ && _ then _ else _).
  set (stpq := stp + dp / (dp - dx) * (stx - stp)).
  assert (Hx : forall x, Rmin stx x <= stx /\ Rmin stx x <= x /\ stx <= Rmax stx x /\ x <= Rmax stx x).
  { intros x. pose proof (Rmin_l stx x). pose proof (Rmin_r stx x). pose proof (Rmax_l stx x). pose proof (Rmax_r stx x). lra. }
  specialize (Hx sty).
  assert (Beyond : forall r, r < 0 -> (stx < stp -> stp < stp + r * (stx - stp)) /\ (stp < stx -> stp + r * (stx - stp) < stp)).
  { intros r Hr. split; nra. }
  assert (Q : (stx < stp -> stp < stpq) /\ (stp < stx -> stpq < stp)).
  { apply Beyond. assert (E : dp / (dp - dx) = - (dp * dx) / (dx * dx - dp * dx)).
    { assert (dx <> 0) by (intros ->; lra). assert (dp - dx <> 0) by (intros E; replace dp with dx in Ha by lra; lra).
      field. repeat split; auto; nra. }
    rewrite E. apply Ropp_lt_cancel. rewrite Ropp_0. replace (- (- (dp * dx) / (dx * dx - dp * dx))) with ((dp * dx) / (dx * dx - dp * dx)).
    2: { field. intros E0. apply Rmult_lt_compat_r with (r := Rabs dx) in Ha; [|apply Rabs_pos_lt; intros ->; lra].
         rewrite <- !Rabs_mult in Ha. rewrite !Rabs_pos_eq in Ha by nra. lra. }
    apply Rdiv_lt_0_compat; [lra|]. apply Rmult_lt_compat_r with (r := Rabs dx) in Ha; [|apply Rabs_pos_lt; intros ->; lra].
    rewrite <- !Rabs_mult in Ha. rewrite !Rabs_pos_eq in Ha by nra. lra. }
  assert (C : (stx < stp -> stp < stpc) /\ (stp < stx -> stpc < stp)).
  { unfold stpc. match goal with |- context[Rlt_bool ?r 0 && _] => remember r as rr eqn:Er; destruct (Rlt_bool_spec rr 0) as [L|L] end; cbn [andb].
    - destruct (negb _); [apply Beyond; exact L|]. destruct (Rlt_bool_spec stx stp); unfold inside in Hin; lra.
    - destruct (Rlt_bool_spec stx stp); unfold inside in Hin; lra. }
  clearbody stpc stpq. 
  assert (S : forall f, (stx < stp -> stp < f) /\ (stp < stx -> f < stp) ->
     inside stp (if (if Rlt_bool stx stp then Rlt_bool (stp + 66 / 100 * (sty - stp)) f else Rlt_bool f (stp + 66 / 100 * (sty - stp))) then stp + 66 / 100 * (sty - stp) else f) sty).
  { intros f Hf. unfold inside in *. destruct (Rlt_bool_spec stx stp).
    - destruct (Rlt_bool_spec (stp + 66 / 100 * (sty - stp)) f); lra.
    - destruct (Rlt_bool_spec f (stp + 66 / 100 * (sty - stp))); lra. }
  apply S. destruct (Rlt_bool (Rabs (stpc - stp)) (Rabs (stpq - stp))); [exact C|exact Q].
Qed.

(** Arguments accepted by [opk_cstep]. *)
Lemma cstep_accepts (b : bracket NR) s1 s2 : cstep_check b s1 s2 = SUCCESS <->
  (brackt b = true -> inside (stx b) (stp_ b) (sty b)) /\ dx b * (stp_ b - stx b) < 0 /\ s1 <= s2.
Proof.
  unfold cstep_check, inside. simpl.
  destruct (brackt b); cbn [andb].
  - destruct (Rlt_bool_spec (stx b) (sty b)); 
    repeat match goal with |- context[Rle_bool ?x ?y] => destruct (Rle_bool_spec x y) end; cbn [orb];
    repeat match goal with |- context[Rlt_bool ?x ?y] => destruct (Rlt_bool_spec x y) end;
    (split; [discriminate || (intros _; repeat split; try lra)|intros (X & Y & Z); try specialize (X eq_refl); try reflexivity; exfalso; lra]).
  - repeat match goal with |- context[Rle_bool ?x ?y] => destruct (Rle_bool_spec x y) end;
    repeat match goal with |- context[Rlt_bool ?x ?y] => destruct (Rlt_bool_spec x y) end;
    (split; [discriminate || (intros _; repeat split; try lra; discriminate)|intros (X & Y & Z); try reflexivity; exfalso; lra]).
Qed.

Lemma opposite_iff (d1 d2 : R) : cstep_opposite (N := NR) d1 d2 = true <-> d1 * d2 < 0.
Proof.
  unfold cstep_opposite. simpl. 
  repeat match goal with |- context[Rlt_bool ?x ?y] => destruct (Rlt_bool_spec x y) end; cbn [andb orb];
   (split; [discriminate || (intros _; nra)|intros X; try reflexivity; exfalso; nra]).
Qed.

(** The other endpoint is higher, or the function increases there. *)
Definition bracketing (b : bracket NR) : Prop :=
  brackt b = true -> fx b <= fy b \/ dy b * (sty b - stx b) > 0.

Lemma cstep_main (b : bracket NR) fp dp s1 s2 b' : opk_cstep b fp dp s1 s2 = (SUCCESS, b') ->
  (fx b' = Rmin (fx b) fp) /\
  ((stx b', fx b', dx b') = (stp_ b, fp, dp) /\
     ((sty b', fy b', dy b') = (stx b, fx b, dx b) \/ (sty b', fy b', dy b') = (sty b, fy b, dy b)) \/
   (stx b', fx b', dx b') = (stx b, fx b, dx b) /\ (sty b', fy b', dy b') = (stp_ b, fp, dp)) /\
  (brackt b = true -> brackt b' = true) /\
  (brackt b' = true -> dp <> 0 \/ fp > fx b -> dx b' * (sty b' - stx b') < 0) /\
  (bracketing b -> bracketing b') /\
  (brackt b' = false -> s1 <= stp_ b' <= s2) /\
  (brackt b' = true -> bracketing b -> dp <> 0 \/ fp > fx b ->
     (brackt b = true -> s1 <= Rmin (stx b) (sty b) /\ Rmax (stx b) (sty b) <= s2) ->
     inside (stx b') (stp_ b') (sty b')).
Proof.
  unfold opk_cstep. destruct (cstep_check b s1 s2) eqn:E; try discriminate. apply cstep_accepts in E. destruct E as (E1 & E2 & E3).
  intros X. injection X as <-. simpl. change (nlt (n := NR) (fx b) fp) with (Rlt_bool (fx b) fp). 
  destruct (Rlt_bool_spec (fx b) fp) as [L|L]; cbn [stx fx dx sty fy dy stp_ brackt].
  - (* first case *)
    split; [rewrite Rmin_left; lra|]. split; [right; auto|]. split; [auto|]. split; [intros; lra|].
    split; [intros _ _; left; simpl; lra|]. split; [discriminate|]. intros _ _ _ _. apply case1_inside; lra.
  - destruct (cstep_opposite dp (dx b)) eqn:Eo; cbn [stx fx dx sty fy dy stp_ brackt].
    + (* second case *)
      apply opposite_iff in Eo.
      assert (dp * (stx b - stp_ b) < 0) by nra.
      split; [rewrite Rmin_right; lra|]. split; [left; auto|]. split; [auto|]. split; [intros; lra|].
      split; [intros _ _; left; simpl; lra|]. split; [discriminate|]. intros _ _ _ _. apply case2_inside; lra.
    + assert (Eo' : ~ dp * dx b < 0) by (intros X; apply opposite_iff in X; congruence).
      split; [destruct (Rle_lt_or_eq_dec fp (fx b) L) as [|EE]; [rewrite Rmin_right|rewrite <- EE, Rmin_left]; lra|].
      split; [left; auto|]. split; [auto|].
      assert (Dir : brackt b = true -> 0 < (sty b - stp_ b) * (stp_ b - stx b)).
      { intros B. specialize (E1 B). unfold inside in E1. nra. }
      assert (Dp : dp <> 0 -> dp * dx b > 0). { intros D. assert (dx b <> 0) by (intros X; rewrite X in E2; lra). nra. }
      assert (DD : brackt b = true -> dp <> 0 -> dp * (sty b - stp_ b) < 0).
      { intros B D. specialize (Dir B). specialize (Dp D). 
        assert (X : (dp * dx b) * ((sty b - stp_ b) * (stp_ b - stx b)) > 0) by (apply Rmult_lt_0_compat; lra).
        replace ((dp * dx b) * ((sty b - stp_ b) * (stp_ b - stx b))) with ((dp * (sty b - stp_ b)) * (dx b * (stp_ b - stx b))) in X by ring. nra. }
      assert (J : bracketing b -> brackt b = true -> fp <= fy b \/ dy b * (sty b - stp_ b) > 0).
      { intros Jb B. destruct (Jb B) as [X|X]; [left; lra|right]. specialize (E1 B). unfold inside in E1. nra. }
      split; [intros B [D|D]; [apply DD; auto|lra]|].
      split; [intros Jb B; exact (J Jb B)|].
      destruct (Rlt_bool_spec (Rabs dp) (Rabs (dx b))) as [A|A].
      * (* third case *)
        split.
        -- intros B. rewrite B. unfold cstep_case3. cbv zeta. simpl. 
           match goal with |- s1 <= (if Rlt_bool (if Rlt_bool s2 ?z then _ else _) _ then _ else _) <= _ => set (zz := z) end. clearbody zz.
           destruct (Rlt_bool_spec s2 zz); [destruct (Rlt_bool_spec s2 s1); lra|]. destruct (Rlt_bool_spec zz s1); lra.
        -- intros B Jb [D|D] C; [|lra]. rewrite B. destruct (C B) as [C1 C2].
           apply case3_inside; auto. 
      * (* fourth case *)
        split.
        -- intros B. rewrite B. unfold cstep_case4. simpl. destruct (Rlt_bool (stx b) (stp_ b)); lra.
        -- intros B Jb [D|D] C; [|lra]. rewrite B. apply case4_inside; auto.
Qed.
End Cstep.

(** ** Backtracking *)
Section Backtrack.
Variables H I : R.
Notation NR := (NumR H I).

Definition rho_max (ftol amin : R) : R := if Rle_bool (1/2) amin then 1/2 else 1 / (2 * (1 - ftol)).

Lemma backtrack_method (l : ls NR) ftol amin s f : 
  0 < ftol <= 1/2 -> 0 < amin < 1 -> l_ginit l < 0 -> 0 <= l_stpmin l -> l_stpmin l < s -> l_finit l + ftol * s * l_ginit l < f ->
  exists rho, Rmin amin (1/2) <= rho <= rho_max ftol amin /\ rho < 1 /\
    (amin < 1/2 -> rho = 1/2 \/ rho = amin \/ rho = (- s * l_ginit l) / ((f - (l_finit l - - s * l_ginit l)) * 2)) /\
    (amin < 1/2 -> amin < (- s * l_ginit l) / ((f - (l_finit l - - s * l_ginit l)) * 2) -> rho = (- s * l_ginit l) / ((f - (l_finit l - - s * l_ginit l)) * 2)) /\
    backtrack_iterate l ftol amin s f = (success l LS_SEARCH, Rmax (l_stpmin l) (rho * s)).
Proof.
  intros Hft Ham Hg Hmin Hs A. unfold backtrack_iterate. simpl.
  rewrite (Rle_bool_false f) by exact A. rewrite (Rle_bool_false s) by exact Hs.
  assert (Es : forall u v, u = v -> (if Rlt_bool u (l_stpmin l) then l_stpmin l else u) = Rmax (l_stpmin l) v).
  { intros u v ->. destruct (Rlt_bool_spec v (l_stpmin l)); [rewrite Rmax_left|rewrite Rmax_right]; lra. }
  unfold rho_max. 
  assert (Hd : 1 / 2 <= 1 / (2 * (1 - ftol))).
  { apply Rmult_le_reg_r with (2 * (1 - ftol)); [lra|]. unfold Rdiv at 2. rewrite Rmult_assoc, Rinv_l by lra. lra. }
  destruct (Rle_bool_spec (1/2) amin) as [Q|Q].
  - exists (1/2). rewrite Rmin_right by lra. repeat split; try lra. f_equal. apply Es. ring.
  - rewrite Rmin_left by lra. set (q := - s * l_ginit l). set (r := (f - (l_finit l - q)) * 2).
    assert (q0 : 0 < q) by (unfold q; nra).
    assert (r0 : 2 * (1 - ftol) * q < r) by (unfold r, q in *; nra).
    assert (r1 : 0 < r) by nra.
    rewrite (Rle_bool_false r 0) by lra. destruct (Rle_bool_spec q (amin * r)) as [Y|Y].
    + exists amin. repeat split; try lra; [|f_equal; apply Es; ring].
      intros _ X. exfalso. apply Rmult_lt_compat_r with (r := r) in X; [|exact r1]. unfold Rdiv in X. rewrite Rmult_assoc, Rinv_l in X by lra. lra.
    + exists (q / r). 
      assert (Z1 : amin < q / r). { apply Rmult_lt_reg_r with r; [lra|]. unfold Rdiv. rewrite Rmult_assoc, Rinv_l by lra. lra. }
      assert (Z2 : q / r < 1). { apply Rmult_lt_reg_r with r; [lra|]. unfold Rdiv. rewrite Rmult_assoc, Rinv_l by lra. nra. }
      assert (Z3 : q / r <= 1 / (2 * (1 - ftol))).
      { apply Rmult_le_reg_r with (r * (2 * (1 - ftol))); [nra|].
        replace (q / r * (r * (2 * (1 - ftol)))) with (q * (2 * (1 - ftol))) by (field; lra).
        replace (1 / (2 * (1 - ftol)) * (r * (2 * (1 - ftol)))) with r by (field; lra). lra. }
      split; [lra|]. split; [exact Z2|]. split; [auto|]. split; [auto|]. f_equal. apply Es. ring.
Qed.

(** One iteration of a backtracking search in progress. *)
Lemma backtrack_one (l : ls NR) ftol amin f g : l_method l = Backtrack ftol amin ->
  0 < ftol <= 1/2 -> 0 < amin < 1 -> l_task l = LS_SEARCH -> l_ginit l < 0 -> 0 <= l_stpmin l -> l_stpmin l <= l_stp l <= l_stpmax l ->
  let l' := fst (ls_iterate l (l_stp l) f g) in
  if Rle_bool f (l_finit l + ftol * l_stp l * l_ginit l) then
    (l_stpmin l < l_stp l < l_stpmax l /\ l_task l' = LS_CONVERGENCE /\ l_stp l' = l_stp l) \/
    (~ l_stpmin l < l_stp l < l_stpmax l /\ l_task l' = LS_WARNING)
  else
    (l_stp l <= l_stpmin l /\ l_task l' = LS_WARNING) \/
    (l_stpmin l < l_stp l /\ l_task l' = LS_SEARCH /\
     exists rho, Rmin amin (1/2) <= rho <= rho_max ftol amin /\ rho < 1 /\ l_stp l' = Rmax (l_stpmin l) (rho * l_stp l) /\
      (amin < 1/2 -> amin < (- l_stp l * l_ginit l) / ((f - (l_finit l - - l_stp l * l_ginit l)) * 2) ->
        rho = (- l_stp l * l_ginit l) / ((f - (l_finit l - - l_stp l * l_ginit l)) * 2))).
Proof.
  intros Em Hft Ham Ht Hg Hmin Hs l'. subst l'.
  unfold ls_iterate. rewrite Ht. simpl lstask_eqb. cbn [negb]. 
  assert (neq (n := NR) (l_stp l) (l_stp l) = true) as -> by (apply Req_bool_true; reflexivity). cbn [negb].
  unfold method_iterate. rewrite Em. 
  destruct (Rle_bool_spec f (l_finit l + ftol * l_stp l * l_ginit l)) as [A|A].
  - unfold backtrack_iterate. simpl nle. simpl nmul. simpl nadd. rewrite (Rle_bool_true f) by exact A.
    simpl. destruct (Rle_bool_spec (l_stp l) (l_stpmin l)) as [B|B]; simpl.
    + right. split; [lra|reflexivity].
    + destruct (Rle_bool_spec (l_stpmax l) (l_stp l)) as [C|C]; simpl.
      * right. split; [lra|reflexivity].
      * left. repeat split; auto.
  - destruct (Rle_bool_spec (l_stp l) (l_stpmin l)) as [B|B].
    + unfold backtrack_iterate. simpl nle. simpl nmul. simpl nadd. rewrite (Rle_bool_false f) by exact A.
      simpl. rewrite !(Rle_bool_true (l_stp l)) by exact B. simpl. left. auto.
    + right. split; [exact B|].
      destruct (backtrack_method l ftol amin (l_stp l) f Hft Ham Hg Hmin B A) as (rho & R1 & R2 & _ & R3 & ->).
      assert (M : l_stpmin l <= Rmax (l_stpmin l) (rho * l_stp l) < l_stp l).
      { split; [apply Rmax_l|]. apply Rmax_lub_lt; [lra|]. nra. }
      set (s' := Rmax (l_stpmin l) (rho * l_stp l)) in *. cbn [l_stpmin l_stpmax success set_task]. simpl nle.
      rewrite (Rle_bool_false (l_stp l) (l_stpmin l)) by lra.
      destruct (Rle_bool_spec s' (l_stpmin l)) as [B1|B1].
      * destruct (Rle_bool (l_stpmax l) (l_stp l)); cbn -[Rmax]; (split; [reflexivity|]; exists rho; repeat split; try lra; auto; fold s'; lra).
      * rewrite (Rle_bool_false (l_stpmax l) s') by lra. cbn -[Rmax]. split; [reflexivity|]. exists rho; repeat split; try lra; auto.
Qed.

Definition bt_inv (ftol amin : R) (l : ls NR) : Prop :=
  l_method l = Backtrack (N := NR) ftol amin /\ l_ginit l < 0 /\ 0 <= l_stpmin l /\ l_stpmin l <= l_stp l <= l_stpmax l.

Lemma bt_inv_step ftol amin l f g : 0 < ftol <= 1/2 -> 0 < amin < 1 -> bt_inv ftol amin l -> l_task l = LS_SEARCH ->
  let l' := fst (ls_iterate l (l_stp l) f g) in
  l_stpmin l' = l_stpmin l /\ l_stpmax l' = l_stpmax l /\ l_finit l' = l_finit l /\ l_ginit l' = l_ginit l /\
  (l_task l' = LS_SEARCH -> bt_inv ftol amin l').
Proof.
  intros Hft Ham (Em & Hg & Hmin & Hs) Ht. pose proof (iterate_cases l (l_stp l) f g) as C.
  pose proof (backtrack_one l ftol amin f g Em Hft Ham Ht Hg Hmin Hs) as B1. cbv zeta in *.
  destruct (ls_iterate l (l_stp l) f g) as [l' s']. simpl in *.
  destruct C as [(? & _)|[(_ & _ & -> & _)|(_ & _ & Es & (E1 & E2 & E3 & E4) & P & _)]]; [congruence|simpl; repeat split; auto; discriminate|].
  split; [exact E1|]. split; [exact E2|]. split; [exact E3|]. split; [exact E4|]. intros Ht'.
  unfold bt_inv. rewrite E1, E2, E4. unfold same_params in P. rewrite Em in P. split; [exact P|]. split; [exact Hg|]. split; [exact Hmin|].
  destruct (Rle_bool f _); [destruct B1 as [(A1 & A2 & A3)|(A1 & A2)]; congruence|]. destruct B1 as [(A1 & A2)|B1]; [congruence|].
  destruct B1 as (B0 & _ & rho & R1 & R2 & -> & _). split; [apply Rmax_l|]. apply Rmax_lub; [lra|]. nra.
Qed.

Lemma stuck_iterate (l : ls NR) s f g : l_task l <> LS_SEARCH -> l_task (fst (ls_iterate l s f g)) <> LS_SEARCH.
Proof.
  intros Ht. pose proof (iterate_cases l s f g) as C. destruct (ls_iterate l s f g) as [l' s']. simpl.
  destruct C as [(_ & -> & _)|[(? & _)|(? & _)]]; [discriminate|congruence|congruence].
Qed.
Lemma stuck_feed (l : ls NR) fgs : l_task l <> LS_SEARCH -> l_task (feed l fgs) <> LS_SEARCH.
Proof. revert l; induction fgs as [|[f g] fgs IH]; intros l Ht; simpl; auto. apply IH, stuck_iterate, Ht. Qed.

Lemma rho_max_range ftol amin : 0 < ftol <= 1/2 -> 0 < rho_max ftol amin <= 1.
Proof.
  intros Hf. unfold rho_max. destruct (Rle_bool _ _); [lra|]. split; [apply Rdiv_lt_0_compat; lra|].
  apply Rmult_le_reg_r with (2 * (1 - ftol)); [lra|]. unfold Rdiv. rewrite Rmult_assoc, Rinv_l by lra. lra.
Qed.
Lemma rho_max_lt ftol amin : 0 < ftol < 1/2 \/ 0 < ftol <= 1/2 /\ 1/2 <= amin -> 0 < rho_max ftol amin < 1.
Proof.
  intros Hf. split; [apply rho_max_range; lra|]. unfold rho_max. destruct (Rle_bool_spec (1/2) amin); [lra|].
  apply Rmult_lt_reg_r with (2 * (1 - ftol)); [lra|]. unfold Rdiv. rewrite Rmult_assoc, Rinv_l by lra. lra.
Qed.

(** Number of iterations. *)
Lemma bt_terminates ftol amin k : 0 < ftol <= 1/2 -> 0 < amin < 1 -> forall (l : ls NR) fgs, bt_inv ftol amin l -> 
  rho_max ftol amin ^ k * l_stp l <= l_stpmin l -> length fgs = S k -> l_task (feed l fgs) <> LS_SEARCH.
Proof.
  intros Hft Ham. induction k as [|k IH]; intros l [|[f g] fgs] Hi Hk L; try discriminate; simpl.
  all: destruct (lstask_eqb_spec (l_task l) LS_SEARCH) as [Ht|Ht]; [|apply stuck_feed, stuck_iterate, Ht].
  all: pose proof (bt_inv_step ftol amin l f g Hft Ham Hi Ht) as (S1 & S2 & S3 & S4 & Si); cbv zeta in *.
  all: destruct Hi as (Em & Hg & Hmin & Hs).
  all: pose proof (backtrack_one l ftol amin f g Em Hft Ham Ht Hg Hmin Hs) as B1; cbv zeta in *.
  all: set (l' := fst (ls_iterate l (l_stp l) f g)) in *.
  all: change (l_task (feed l' fgs) <> LS_SEARCH).
  - simpl in Hk. apply stuck_feed. destruct (Rle_bool f _); [destruct B1 as [(A1 & A2 & A3)|(A1 & A2)]; congruence|].
    destruct B1 as [(A1 & A2)|(A1 & _)]; [congruence|lra].
  - destruct (lstask_eqb_spec (l_task l') LS_SEARCH) as [Ht'|Ht']; [|apply stuck_feed, Ht'].
    apply IH; auto. rewrite S1.
    destruct (Rle_bool f _); [destruct B1 as [(A1 & A2 & A3)|(A1 & A2)]; congruence|]. destruct B1 as [(A1 & A2)|B1]; [congruence|].
    destruct B1 as (_ & _ & rho & R1 & R2 & -> & _).
    pose proof (rho_max_range ftol amin Hft) as Rm. pose proof (pow_le (rho_max ftol amin) k) as P0.
    pose proof (pow_incr (rho_max ftol amin) 1 k) as P1. rewrite pow1 in P1. simpl in Hk.
    set (pk := rho_max ftol amin ^ k) in *. clearbody pk. set (rm := rho_max ftol amin) in *. clearbody rm.
    unfold Rmax. destruct (Rle_dec (l_stpmin l) (rho * l_stp l)).
    + assert (pk * (rho * l_stp l) <= rm * pk * l_stp l); [|lra].
      assert (0 <= pk * l_stp l * (rm - rho)) by (apply Rmult_le_pos; [apply Rmult_le_pos|]; lra). nra.
    + assert (pk <= 1) by (apply P1; lra). nra.
Qed.

(** For a function with a descent direction at 0 the search ends successfully. *)
Lemma bt_converges ftol amin (phi dphi : R -> R) n eps : 0 < ftol < 1/2 \/ 0 < ftol <= 1/2 /\ 1/2 <= amin -> 0 < amin < 1 ->
  forall (l : ls NR), bt_inv ftol amin l -> l_task l = LS_SEARCH -> l_stpmin l = 0 -> 0 < l_stp l < l_stpmax l ->
  (forall t, 0 < t < eps -> phi t <= l_finit l + ftol * t * l_ginit l) ->
  rho_max ftol amin ^ n * l_stp l < eps ->
  exists m, (m <= n)%nat /\ (forall k, (k <= m)%nat -> l_task (search (N := NR) phi dphi k l) = LS_SEARCH) /\
    let l' := search (N := NR) phi dphi (S m) l in
    l_task l' = LS_CONVERGENCE /\ 0 < l_stp l' /\ phi (l_stp l') <= l_finit l + ftol * l_stp l' * l_ginit l.
Proof.
  intros Hft Ham. assert (Hft' : 0 < ftol <= 1/2) by lra.
  induction n as [|n IH]; intros l Hi Ht Hmin0 Hs Hphi Hn.
  all: pose proof (bt_inv_step ftol amin l (phi (l_stp l)) (dphi (l_stp l)) Hft' Ham Hi Ht) as (S1 & S2 & S3 & S4 & Si); cbv zeta in *.
  all: destruct Hi as (Em & Hg & Hmin & Hs').
  all: pose proof (backtrack_one l ftol amin (phi (l_stp l)) (dphi (l_stp l)) Em Hft' Ham Ht Hg Hmin Hs') as B1; cbv zeta in *.
  all: set (l' := fst (ls_iterate l (l_stp l) (phi (l_stp l)) (dphi (l_stp l)))) in *.
  - exists 0%nat. split; [lia|]. split; [intros k Hk; replace k with 0%nat by lia; exact Ht|]. simpl in Hn. cbv zeta. change (search (N := NR) phi dphi 1 l) with l'.
    rewrite Rle_bool_true in B1 by (apply Hphi; lra). destruct B1 as [(_ & B1 & B2)|(B1 & _)]; [|exfalso; apply B1; lra].
    split; [exact B1|]. rewrite B2. split; [lra|]. apply Hphi. lra.
  - destruct (Rle_bool_spec (phi (l_stp l)) (l_finit l + ftol * l_stp l * l_ginit l)) as [A|A].
    + exists 0%nat. split; [lia|]. split; [intros k Hk; replace k with 0%nat by lia; exact Ht|]. cbv zeta. change (search (N := NR) phi dphi 1 l) with l'.
      destruct B1 as [(_ & B1 & B2)|(B1 & _)]; [|exfalso; apply B1; lra]. split; [exact B1|]. rewrite B2. split; [lra|exact A].
    + destruct B1 as [(B1 & _)|(B1 & Ht' & rho & R1 & R2 & Es & _)]; [lra|].
      assert (Rp : 0 < rho). { assert (0 < Rmin amin (1/2)) by (apply Rmin_glb_lt; lra). lra. }
      rewrite Hmin0, Rmax_right in Es by nra.
      destruct (IH l') as (m & M1 & M2 & M3).
      * apply Si, Ht'. * exact Ht'. * lra. * rewrite S2, Es. nra.
      * rewrite S3, S4. exact Hphi.
      * rewrite Es. simpl in Hn. pose proof (rho_max_range ftol amin Hft') as Rm. pose proof (pow_lt (rho_max ftol amin) n) as P0.
        set (pk := rho_max ftol amin ^ n) in *. clearbody pk. set (rm := rho_max ftol amin) in *. clearbody rm.
        assert (0 <= pk * l_stp l * (rm - rho)) by (apply Rmult_le_pos; [apply Rmult_le_pos|]; lra). nra.
      * exists (S m). split; [lia|]. split.
        -- intros [|k] Hk; [exact Ht|]. change (search (N := NR) phi dphi (S k) l) with (search (N := NR) phi dphi k l'). apply M2. lia.
        -- cbv zeta in M3 |- *. change (search (N := NR) phi dphi (S (S m)) l) with (search (N := NR) phi dphi (S m) l'). rewrite S3, S4 in M3. exact M3.
Qed.

(** A differentiable function satisfies the descent property. *)
Lemma descent_property (phi : R -> R) g0 ftol : derivable_pt_lim phi 0 g0 -> g0 < 0 -> ftol < 1 ->
  exists eps, 0 < eps /\ forall t, 0 < t < eps -> phi t <= phi 0 + ftol * t * g0.
Proof.
  intros D Hg Hf. destruct (D ((ftol - 1) * g0)) as [delta Hd]; [nra|]. exists delta. split; [apply cond_pos|].
  intros t Ht. specialize (Hd t). rewrite Rplus_0_l in Hd. assert (t <> 0) by lra. specialize (Hd H0).
  rewrite (Rabs_pos_eq t) in Hd by lra. specialize (Hd (proj2 Ht)). apply Rabs_lt_inv in Hd.
  assert (E : (phi t - phi 0) / t < ftol * g0) by lra. apply Rmult_lt_compat_r with (r := t) in E; [|lra].
  unfold Rdiv in E. rewrite Rmult_assoc, Rinv_l in E by lra. lra.
Qed.

(** With ftol = 1/2 nothing bounds the number of iterations. *)
Definition slow (k : nat) : R := 1/2 + (1/2) ^ S k.
Fixpoint slow_values (n k : nat) : list (R * R) :=
  match n with O => [] | S n => (slow k * slow k / (2 * slow (S k)) - slow k, 0) :: slow_values n (S k) end.

Lemma slow_bounds k : 1/2 < slow (S k) < slow k /\ slow k <= 1.
Proof.
  unfold slow. pose proof (pow_lt (1/2) (S k)). pose proof (pow_incr (1/2) 1 k). rewrite pow1 in *. simpl in *. lra.
Qed.

Lemma bt_slow n : forall k (l : ls NR), bt_inv (1/2) (1/10) l -> l_task l = LS_SEARCH -> l_stpmin l = 1/2 -> l_ginit l = -1 -> l_finit l = 0 -> l_stp l = slow k ->
  l_task (feed l (slow_values n k)) = LS_SEARCH.
Proof.
  induction n as [|n IH]; intros k l Hi Ht Hmin Hg Hf Hs; [exact Ht|].
  cbn [slow_values feed]. set (f := slow k * slow k / (2 * slow (S k)) - slow k).
  assert (Hft : 0 < 1/2 <= 1/2) by lra. assert (Ham : 0 < 1/10 < 1) by lra.
  pose proof (bt_inv_step (1/2) (1/10) l f 0 Hft Ham Hi Ht) as (S1 & S2 & S3 & S4 & Si); cbv zeta in *.
  destruct Hi as (Em & Hg' & Hmin' & Hs').
  pose proof (backtrack_one l (1/2) (1/10) f 0 Em Hft Ham Ht Hg' Hmin' Hs') as B1; cbv zeta in *.
  set (l' := fst (ls_iterate l (l_stp l) f 0)) in *. rewrite Hg, Hf, Hs, Hmin in B1.
  destruct (slow_bounds k) as [[L1 L2] L3].
  assert (E : f + slow k = slow k * slow k / (2 * slow (S k))) by (unfold f; lra).
  assert (Ff : - (slow k / 2) < f).
  { assert (slow k / 2 < slow k * slow k / (2 * slow (S k))); [|lra].
    apply Rmult_lt_reg_r with (2 * slow (S k)); [lra|]. unfold Rdiv at 2. rewrite Rmult_assoc, Rinv_l by lra. nra. }
  rewrite Rle_bool_false in B1 by lra. destruct B1 as [(B1 & _)|(B1 & Ht' & rho & R1 & R2 & Es & Er)]; [lra|].
  assert (Q : - slow k * -1 / ((f - (0 - - slow k * -1)) * 2) = slow (S k) / slow k).
  { replace (f - (0 - - slow k * -1)) with (f + slow k) by ring. rewrite E. field. lra. }
  rewrite Q in Er. assert (Q1 : 1/10 < slow (S k) / slow k).
  { apply Rmult_lt_reg_r with (slow k); [lra|]. unfold Rdiv at 2. rewrite Rmult_assoc, Rinv_l by lra. lra. }
  assert (rho = slow (S k) / slow k) as -> by (apply Er; lra).
  replace (slow (S k) / slow k * slow k) with (slow (S k)) in Es by (field; lra).
  rewrite Rmax_right in Es by lra.
  apply IH; auto; try congruence.
Qed.
End Backtrack.

Section More.
Variables H I : R.
Notation NR := (NumR H I).

Lemma backtrack_run (ftol amin : R) (l0 : ls NR) cs l rs : new_backtrack (N := NR) true ftol amin = Some l0 -> run l0 cs = Some (l, rs) -> l_task l = LS_SEARCH ->
  0 < ftol <= 1/2 /\ 0 < amin < 1 /\ bt_inv H I ftol amin l.
Proof.
  intros Hn. unfold new_backtrack in Hn. simpl in Hn.
  destruct (Rle_bool_spec ftol 0); [discriminate|]. destruct (Rlt_bool_spec (1/2) ftol); [discriminate|].
  destruct (Rle_bool_spec amin 0); [discriminate|]. destruct (Rle_bool_spec 1 amin); [discriminate|]. simpl in Hn. injection Hn as <-.
  assert (P1 : 0 < ftol <= 1/2) by (split; lra). assert (P2 : 0 < amin < 1) by lra.
  intros R Ht. split; [exact P1|]. split; [exact P2|]. revert cs l rs R Ht.
  apply (run_rect (fun cs l rs => l_task l = LS_SEARCH -> bt_inv H I ftol amin l)); [discriminate|].
  intros cs c l1 rs1 l2 r R1 IH D Ht. pose proof (run_params _ _ _ _ R1) as P. 
  assert (Em : l_method l1 = Backtrack (N := NR) ftol amin) by (unfold params in P; simpl in P; destruct (l_method l1); congruence).
  destruct c as [f0 g0 s s1 s2|s f g]; simpl in D.
  - destruct (ls_start l1 f0 g0 s s1 s2) as [l'|] eqn:S; [|discriminate]. injection D as <- <-.
    destruct (start_values _ _ _ _ _ _ _ S Ht) as ((T1 & T2 & T3 & T4 & T5) & (_ & E1 & E2 & E3 & _ & E5) & _). 
    simpl in *. rb. unfold bt_inv. rewrite E1, E2, E3, E5. split; [|lra].
    pose proof (start_params _ _ _ _ _ _ _ S) as P'. unfold params in P'. rewrite Em in P'. destruct (l_method l'); congruence.
  - pose proof (iterate_cases l1 s f g) as C. destruct (ls_iterate l1 s f g) as [l' s'] eqn:El. injection D as <- <-.
    destruct C as [(_ & -> & _)|[(_ & _ & -> & _)|(Ht1 & Es & _)]]; try discriminate.
    apply Req_bool_true_iff in Es. subst s. 
    destruct (bt_inv_step H I ftol amin l1 f g P1 P2 (IH Ht1) Ht1) as (_ & _ & _ & _ & Q). rewrite El in Q. apply Q. exact Ht.
Qed.

Lemma bt_real_example (ftol amin s smin smax : R) : 0 < ftol <= 1/2 -> 0 < amin < 1 -> 0 <= smin -> smin <= s <= smax ->
  exists (l0 l : ls NR) rs, new_backtrack (N := NR) true ftol amin = Some l0 /\
  run l0 [Start (N := NR) 0 (-1) s smin smax] = Some (l, rs) /\ last_task rs = LS_SEARCH.
Proof.
  intros H1 H2 H3 H4. exists (allocate_line_search (Backtrack (N := NR) ftol amin)). do 2 eexists.
  split.
  - unfold new_backtrack. simpl. rewrite (Rle_bool_false ftol), (Rlt_bool_false _ ftol), (Rle_bool_false amin), (Rle_bool_false 1) by (simpl; lra). reflexivity.
  - unfold run, do_call, ls_start. simpl. rewrite (Rlt_bool_false smin), (Rlt_bool_false smax smin), (Rlt_bool_false s smin), (Rlt_bool_false smax s), (Rle_bool_false 0 (-1)) by lra.
    split; reflexivity.
Qed.

Lemma half_slow : exists (l0 l : ls NR) rs, new_backtrack (N := NR) true (1/2) (1/10) = Some l0 /\
  run l0 [Start (N := NR) 0 (-1) 1 (1/2) 2] = Some (l, rs) /\
  forall n, exists fgs, length fgs = n /\ ls_get_task (Some (feed l fgs)) = LS_SEARCH.
Proof.
  destruct (bt_real_example (1/2) (1/10) 1 (1/2) 2) as (l0 & l & rs & E1 & E2 & E3); try lra.
  exists l0, l, rs. split; [exact E1|]. split; [exact E2|]. intros n. exists (slow_values n 0).
  assert (L : forall n k, length (slow_values n k) = n) by (induction n0; simpl; auto). split; [apply L|].
  assert (Hc : created l0) by (left; eauto). destruct (created_inv l0 Hc) as [_ Ht0].
  destruct (run_state l0 _ l rs Ht0 E2) as (T & St). rewrite <- T in E3. destruct (St E3) as (E0 & f0' & g0' & s0' & X & Ef & Eg).
  destruct (backtrack_run (1/2) (1/10) l0 _ l rs E1 E2 E3) as (P1 & P2 & Hi).
  simpl in X. injection X as X3 X4 X5 X1 X2.
  assert (E4 : l_stp l = 1). { rewrite E0. simpl in E2. destruct (ls_start (N := NR) l0 0 (-1) 1 (1/2) 2); [|discriminate]. injection E2 as <- <-. reflexivity. }
  apply (bt_slow H I n 0 l Hi E3); try congruence. rewrite E4. unfold slow. simpl. lra.
Qed.

Lemma cstep_brackets (b : bracket NR) fp dp s1 s2 b' : opk_cstep b fp dp s1 s2 = (SUCCESS, b') -> fp > fx b \/ dp * dx b < 0 -> brackt b' = true.
Proof.
  unfold opk_cstep. destruct (cstep_check b s1 s2) eqn:E; try discriminate.
  intros X. injection X as <-. change (nlt (n := NR) (fx b) fp) with (Rlt_bool (fx b) fp). 
  destruct (Rlt_bool_spec (fx b) fp) as [L|L]; [reflexivity|]. intros [X|X]; [lra|]. apply (opposite_iff H I) in X. rewrite X. reflexivity.
Qed.

Lemma cstep_zero : exists (b b' : bracket NR), opk_cstep (N := NR) b (-1) 0 0 2 = (SUCCESS, b') /\
  (brackt b = true /\ fx b <= fy b /\ stx b = 0 /\ sty b = 2) /\ brackt b' = true /\ stp_ b' = stx b'.
Proof.
  set (b := mkBracket (N := NR) 0 0 (-1) 2 0 0 1 true).
  exists b. destruct (opk_cstep (N := NR) b (-1) 0 0 2) as [st b'] eqn:E. exists b'.
  assert (A : cstep_check b 0 2 = SUCCESS) by (apply cstep_accepts; unfold inside; simpl; repeat split; intros; lra).
  unfold opk_cstep in E. rewrite A in E. injection E as <- <-. split; [reflexivity|]. split; [simpl; repeat split; lra|].
  simpl. rewrite (Rlt_bool_false 0 (-1)) by lra. unfold cstep_opposite. simpl.
  rewrite !(Rlt_bool_false 0 0) by lra. rewrite (Rlt_bool_false 0 (-1)) by lra. simpl. 
  rewrite Rabs_R0, Rabs_left, (Rlt_bool_true 0) by lra. simpl. split; [reflexivity|].
  unfold cstep_case3. cbv zeta. simpl. match goal with |- context[Rabs (?c - 1)] => set (stpc := c) end.
  replace (1 + 0 / (0 - -1) * (0 - 1)) with 1 by field. replace (1 - 1) with 0 by ring. rewrite Rabs_R0.
  rewrite (Rlt_bool_false (Rabs (stpc - 1))) by apply Rabs_pos. rewrite (Rlt_bool_true 0 1), (Rlt_bool_false _ 1) by lra. reflexivity.
Qed.
End More.
