(** * COBYLA: the calls that do not end

    The property would be that every call ends, since the number of evaluations is limited.  It is false: a NaN value of the
    objective function makes trstlp (and then cobyla_optimize or cobyla_iterate) loop forever.  The outcome [More] for every
    number of steps [fi] and [fuel] means that the execution does not end. *)
From Coq Require Import ZArith List Bool Lia.
From Flocq Require Import BinarySingleNaN.
From Verif Require Import Num BqLang BqModel BqWp BqSpec CbModel CbSpec CbNum CbSafe CbTop CbNan CbProps.
Import ListNotations.
Local Open Scope Z_scope.

(** The NaN of double and single precision *)
Definition fnan {prec emax} (x : binary_float prec emax) : Prop := x = B754_nan.
Theorem C63_arithmetics : NanLaws NumD fnan /\ NanLaws NumS fnan.
Proof.
  assert (F : forall prec emax Hp Hm, let N := NumF prec emax Hp Hm in neq (nZ 0 : N) (nZ 0) = true -> NanLaws N fnan).
  { intros prec emax Hp Hm N E. constructor; try exact E; unfold fnan; cbn; intros; subst; cbn; try reflexivity;
      match goal with |- _ ?c _ = _ => destruct c; reflexivity | |- ?f ?c _ = _ => destruct c; reflexivity | |- _ => idtac end. }
  split; apply F; vm_compute; reflexivity.
Qed.
Print Assumptions C63_arithmetics.

(** trstlp never ends when there is no constraint and the gradient of the objective function, given in the column m+1 = 1 of A,
    is made of NaN: for any number of variables and any contents of the rest of the workspace.  The call is the one of cobyla.c
    786-790.  The two conditions on rho are true for any usual value: 1e-6*rho and rho^2 do not underflow. *)
Theorem C63_trstlp_refuted (N : Num) isnan n w (rho : N) fuel s :
  NanLaws N isnan -> 1 <= n -> cells s w (cdoc_size n 0) ->
  (forall i v, 0 <= i < n -> mm s (o_a n 0 w + i) = Some v -> isnan v) ->
  nle (nmul (nQ 1 1000000) rho) (nabs (nZ 0)) = false -> nle (nmul rho rho) (nZ 0) = false ->
  let z := o_w n 0 w in
  exists s', trstlp n 0 (o_a n 0 w) w rho (o_dx n 0 w) z (z + n * n) (z + n * n + n) (z + n * n + n + 1)
               (z + n * n + n + 1 + n) (z + n * n + n + 1 + n + n) fuel s = More s' /\ evs s' = evs s.
Proof.
  intros HN Hn Hc HA H1 H2 z.
  assert (La : o_a n 0 w + n <= o_dx n 0 w) by (unfold o_dx, o_sigbar, o_veta, o_vsig; lia).
  assert (V : nanv isnan n s (o_a n 0 w)).
  { intros i Hi v E. apply (HA (i - 1) v); [lia|exact E]. }
  assert (K := trstlp_nan isnan HN n (o_a n 0 w) w rho (o_dx n 0 w) Hn La H1 H2 fuel s V).
  set (W := fun a => w <= a < w + cb_size n 0).
  assert (G : good W (fun _ => None) s).
  { split; [|discriminate]. intros q Hq. unfold W in Hq. rewrite <- cdoc_cb in Hq.
    destruct (Hc (q - w)) as [v E]; [lia|]. exists v. rewrite <- E. f_equal. lia. }
  assert (S := trstlp_safe (nn_zero _ _ HN) W W (fun _ => None) (fun q Hq => Hq) ltac:(discriminate) n 0 (o_a n 0 w) w rho (o_dx n 0 w)
    z (z + n * n) (z + n * n + n) (z + n * n + n + (0 + 1)) (z + n * n + n + (0 + 1) + n) (z + n * n + n + (0 + 1) + n + n) Hn (Z.le_refl 0)).
  assert (H0 : 0 <= 0) by lia.
  assert (SW : forall q, w <= q < w + cb_size n 0 -> W q) by auto.
  specialize (S (c_Aa W n 0 w Hn H0 SW)).
  assert (B : arr W w 1 (0 + 1)).
  { intros i Hi. unfold W, at1, cb_size. nia. }
  specialize (S B (c_Adx W n 0 w Hn H0 SW) (c_Az W n 0 w Hn H0 SW) (c_Azd W n 0 w Hn H0 SW) (c_Avc W n 0 w Hn H0 SW)
    (c_Asd W n 0 w Hn H0 SW) (c_Adn W n 0 w Hn H0 SW) (c_Avd W n 0 w Hn H0 SW) fuel s G).
  unfold wp in K. fold z in K. change (o_dx n 0 w + n) with z in K. change (0 + 1) with 1 in *.
  destruct (trstlp n 0 (o_a n 0 w) w rho (o_dx n 0 w) z (z + n * n) (z + n * n + n) (z + n * n + n + 1) (z + n * n + n + 1 + n)
    (z + n * n + n + 1 + n + n) fuel s) as [r s'|s'|s'|s']; try contradiction.
  exists s'. split; [reflexivity|apply S].
Qed.
Print Assumptions C63_trstlp_refuted.

(** The states of a machine after [k] steps, if no step ends *)
Fixpoint mstates {N : Num} {L B} (k : nat) (step : L -> prog N (L + B)) (l : L) (s : mst N) : option (L * mst N) :=
  match k with
  | O => Some (l, s)
  | S k => match step l s with Ret (inl l) s => mstates k step l s | _ => None end
  end.
Lemma mstates_wp {N : Num} {L B} (step : L -> prog N (L + B)) k l s l' s' (Q : B -> mst N -> Prop) :
  mstates k step l s = Some (l', s') -> wp (step l') s' (fun _ _ => False) -> forall fuel, wp (machine fuel step l) s Q.
Proof.
  revert l s. induction k as [|k IH]; intros l s E H fuel; cbn [mstates] in E.
  - injection E as -> ->. destruct fuel; cbn [machine]; [exact I|]. apply wp_bind. eapply wp_weak; [exact H|]. tauto.
  - destruct fuel; cbn [machine]; [exact I|]. unfold wp, bind. destruct (step l s) as [[l1|b] s1|s1|s1|s1]; try discriminate E.
    apply (IH l1 s1 E H fuel).
Qed.

(** One NaN is enough: the square root of -x0, from x = (0,0).  The value at the first point is 0, the one at the second point,
    (1/2,0), is a NaN.  cobyla_optimize does not end, whatever the maximum number of evaluations. *)
Definition cex_sqrt {N : Num} (_ : list (list N * N)) (p : list N) : N :=
  match p with [a; b] => nadd (nsqrt (nopp a)) b | _ => nZ 0 end.
Definition cex_step (maxfun : Z) (fi : nat) : clabel * cvars -> prog NumD (clabel * cvars + (cstatus * Z)) :=
  co_step 2 0 0 (nQ 1 4) maxfun 100 (o_sim 2 0 100) (o_simi 2 0 100) (o_datmat 2 0 100) (o_a 2 0 100) (o_vsig 2 0 100)
    (o_veta 2 0 100) (o_sigbar 2 0 100) (o_dx 2 0 100) (o_w 2 0 100) None
    (cb_call 2 0 false cex_sqrt cex_cn 0 100 None) (cb_end 2 false 0 100 None) fi.
Definition cex_nan : mst NumD := cex_mem (nZ 0) (nZ 0) (nZ 2) (nZ 1).
Definition is_nan_at (s : mst NumD) (a : Z) : bool := match mm s a with Some B754_nan => true | _ => false end.
Definition cex_check (maxfun : Z) (fi : nat) : bool :=
  match cb_begin 2 0 0 (nQ 1 2) 100 cv0 cex_nan with
  | Ret v s =>
      match mstates 10 (cex_step maxfun fi) (Ccall, v) s with
      | Some ((C370, v), s) =>
          (is_nan_at s (o_a 2 0 100) && is_nan_at s (o_a 2 0 100 + 1) && (Z.of_nat (length (evs s)) =? 3) &&
           negb (nle (nmul (nQ 1 1000000) (c_rho v)) (nabs (nZ 0))) && negb (nle (nmul (c_rho v) (c_rho v)) (nZ 0)))%bool
      | _ => false
      end
  | _ => false
  end.
Lemma cex_check_true fi : cex_check 1000 fi = true.
Proof. vm_compute. reflexivity. Qed.
Lemma is_nan_at_spec s a : is_nan_at s a = true -> forall v, mm s a = Some v -> fnan v.
Proof. unfold is_nan_at, fnan. intros H v E. rewrite E in H. destruct v; try discriminate H. reflexivity. Qed.

Lemma cex_run_wp fi fuel (Q : cstatus * Z -> mst NumD -> Prop) :
  wp (cb_optimize 2 0 false cex_sqrt cex_cn 0 (nQ 1 2) (nQ 1 4 : NumD) 1000 100 None fi fuel) cex_nan Q.
Proof.
  assert (H := cex_check_true fi). unfold cex_check in H. unfold cb_optimize, wp, bind.
  destruct (cb_begin 2 0 0 (nQ 1 2) 100 cv0 cex_nan) as [v s|s|s|s]; try exact I; try discriminate H.
  destruct (mstates 10 (cex_step 1000 fi) (Ccall, v) s) as [[[l v'] s']|] eqn:E; [|discriminate H].
  destruct l; try discriminate H. rewrite !andb_true_iff, !negb_true_iff in H. destruct H as ((((H1 & H2) & _) & H3) & H4).
  apply (mstates_wp (cex_step 1000 fi) 10 (Ccall, v) s (C370, v') s' Q E).
  unfold cex_step, co_step. cbn [fst snd]. unfold co_370. apply wp_bind.
  apply wp_weak with (fun _ _ => False); [|intros a s2 []].
  refine (trstlp_nan (N := NumD) fnan (proj1 C63_arithmetics) 2 (o_a 2 0 100) 100 (c_rho v') (o_dx 2 0 100) _ _ H3 H4 fi s' _).
  - lia.
  - vm_compute. discriminate.
  - intros i Hi. assert (i = 1 \/ i = 2) as [-> | ->] by lia.
    + intros u Eu. apply (is_nan_at_spec s' _ H1). exact Eu.
    + intros u Eu. apply (is_nan_at_spec s' _ H2). exact Eu.
Qed.

Theorem C63_nan_refuted fi fuel :
  exists s, cobyla_optimize 2 0 false cex_sqrt cex_cn 0 None (nQ 1 2) (nQ 1 4 : NumD) 1000 100 fi fuel cex_nan = More s.
Proof.
  assert (K : wp (cobyla_optimize 2 0 false cex_sqrt cex_cn 0 None (nQ 1 2) (nQ 1 4 : NumD) 1000 100 fi fuel) cex_nan (fun _ _ => False)).
  { unfold cobyla_optimize. cbv zeta.
    assert (E : (nle (nQ 1 4 : NumD) zero || nlt (nQ 1 2 : NumD) (nQ 1 4))%bool = false) by (vm_compute; reflexivity).
    rewrite E. change (2 <? 1) with false. change (0 <? 0) with false. cbv iota. apply wp_bind, cex_run_wp. }
  assert (L : clayout 2 0 0 None 100 cex_nan).
  { constructor; try exact I; try (apply cex_cells; cbn; lia). unfold apart. cbn. lia. }
  destruct (C61_memory_safe NumD 2 0 false cex_sqrt cex_cn 0 None (nQ 1 2) (nQ 1 4) 1000 100 fi fuel cex_nan CbLawsD L) as (s & F & _).
  unfold wp in K.
  destruct (cobyla_optimize 2 0 false cex_sqrt cex_cn 0 None (nQ 1 2) (nQ 1 4 : NumD) 1000 100 fi fuel cex_nan) as [r s'|s'|s'|s'];
    try contradiction; try discriminate F. exists s'. reflexivity.
Qed.
Print Assumptions C63_nan_refuted.
