(** * Accesses of the functions of newuoa.c *)
From Coq Require Import ZArith List Bool Lia.
From Verif Require Import Num BqLang BqModel BqWp BqSafe BqRun NwModel.
Import ListNotations.
Local Open Scope Z_scope.

Lemma get_sin_cos_safe {N : Num} W Rd C i : 0 <= i <= 49 -> safe W Rd C (get_sin_cos (N := N) i) T.
Proof.
  intros Hi s G. unfold get_sin_cos. destruct (Z.ltb_spec i 0); [lia|].
  destruct (nth_error sin_cos_table (Z.to_nat i)) as [[a b]|] eqn:E.
  - repeat split; auto; apply G.
  - apply nth_error_None in E. cbn in E. lia.
Qed.

Ltac sf1 ::=
  lazymatch goal with
  | |- safe _ _ _ (ret _) _ => apply safe_ret; try exact I
  | |- safe _ _ _ (bind _ _) _ => apply safe_bindT; [|intro]
  | |- safe _ _ _ (ld _) _ => apply safe_ld; rd
  | |- safe _ _ _ (get_sin_cos _) _ => apply get_sin_cos_safe; unfold iu in *; lia
  | |- safe _ _ _ (assign _ _) _ => apply safe_assign; [eassumption|eassumption|rd|]
  | |- safe _ _ _ (assign_add _ _) _ => apply safe_assign_add; [eassumption|eassumption|rd|]
  | |- safe _ _ _ (assign_sub _ _) _ => apply safe_assign_sub; [eassumption|eassumption|rd|]
  | |- safe _ _ _ (lift1 _ _) _ => apply safe_lift1
  | |- safe _ _ _ (lift2 _ _ _) _ => apply safe_lift2
  | |- safe _ _ _ (emin _ _) _ => apply safe_lift2
  | |- safe _ _ _ (emax _ _) _ => apply safe_lift2
  | |- safe _ _ _ (eabs _) _ => apply safe_lift1
  | |- safe _ _ _ (esqrt _) _ => apply safe_lift1
  | |- safe _ _ _ (ifp _ _ _) _ => apply safe_ifp
  | |- safe _ _ _ (andp _ _) _ => apply safe_andp
  | |- safe _ _ _ (orp _ _) _ => apply safe_orp
  | |- safe _ _ _ (LOOP _ _ _) T => unfold LOOP; apply safe_loop; intros
  | |- safe _ _ _ (LOOP_ _ _) T => unfold LOOP_; apply safe_loop; intros
  | |- safe _ _ _ (loop _ _ _ _) T => apply safe_loop; intros
  | |- safe _ _ _ (if ?c then _ else _) _ => let E := fresh "E" in destruct c eqn:E
  | |- safe _ _ _ (match ?c with _ => _ end) _ => destruct c
  | |- safe _ _ _ (let _ := _ in _) _ => cbv zeta
  end.
Ltac sf ::= intros; repeat sf1.

Section Safe.
Context {N : Num}.
Variables (ncos nsin : N -> N).
Variables (W Rd : Z -> Prop) (C : Z -> option N).
Hypothesis WRd : forall a, W a -> Rd a.
Hypothesis CW : forall a v, C a = Some v -> ~ W a.
Notation safe := (safe W Rd C).

Lemma nupdate_safe n npt bmat zmat idz ndim vlag beta knew w :
  1 <= n -> n + 2 <= npt -> ndim = npt + n -> 1 <= knew <= npt -> 1 <= idz <= npt - n ->
  mat W bmat ndim 1 ndim 1 n -> mat W zmat npt 1 npt 1 (npt - n - 1) -> arr W vlag 1 ndim -> arr W w 1 ndim ->
  safe (nupdate n npt bmat zmat idz ndim vlag beta knew w) (fun r => 1 <= r <= npt - n).
Proof.
  intros Hn Hnpt Hnd Hk Hi Hb Hz Hv Hw. unfold nupdate. cbv zeta.
  apply safe_bind with (P := fun jl => 1 <= jl <= npt - n - 1 /\ (jl > 1 -> idz = jl)).
  { apply safe_loopP; [|lia]. intros j jl Hj [H1 H2].
    destruct (Z.eqb_spec j idz) as [E|E]; [apply safe_ret; lia|].
    apply safe_ifp; [sf| |]; [apply safe_ret; auto|].
    do 7 (apply safe_bindT; [sf|intro]). apply safe_ret. auto. }
  intros jl [H1 H2].
  do 5 (apply safe_bindT; [sf|intro]). apply safe_bindT; [sf|intro].
  apply safe_bind with (P := fun r : Z * bool => 1 <= fst r <= npt - n /\ (snd r = true -> 2 <= fst r <= npt - n)).
  { destruct (Z.eqb_spec jl 1) as [E|E].
    - apply safe_bindT; [sf|intro]. apply safe_ret. cbn [fst snd].
      destruct (Z.eqb_spec idz 1) as [E1|E1]; cbn [andb].
      + destruct (nlt _ _); cbn [andb]; (split; [lia|]); intros Q; apply andb_prop in Q; destruct Q as [Q _]; lia.
      + split; [lia|]. intros Q; apply andb_prop in Q; destruct Q as [Q _]; lia.
    - assert (Ej : jl > 1) by lia. specialize (H2 Ej).
      assert (Q : 1 <= (if nle zero beta then jl else 1) <= npt - n - 1 /\
                  1 <= jl + 1 - (if nle zero beta then jl else 1) <= npt - n - 1) by (destruct (nle zero beta); lia).
      set (ja := if nle zero beta then jl else 1) in *. destruct Q as [Q1 Q2].
      do 4 (apply safe_bindT; [sf|intro]).
      sf; cbn [fst snd]; [|lia]. destruct (nlt beta zero); lia. }
  intros [idz' iflag] [H3 H4]. cbn [fst snd] in H3, H4.
  apply safe_bind with (P := fun r => 1 <= r <= npt - n).
  { destruct iflag; [|apply safe_ret; auto]. specialize (H4 eq_refl). apply safe_bindT; [sf|]. intro. apply safe_ret. lia. }
  intros idz2 H5. apply safe_bindT; [sf|]. intros _. apply safe_ret. auto.
Qed.

Lemma sethd_safe n npt xpt hq pq d hd :
  1 <= n -> n + 2 <= npt -> mat Rd xpt npt 1 npt 1 n -> arr Rd hq 1 (n * (n + 1) / 2) -> arr Rd pq 1 npt -> arr Rd d 1 n ->
  arr W hd 1 n -> safe (sethd n npt xpt hq pq d hd) T.
Proof.
  intros Hn Hnpt Hx Hh Hp Hd Hhd. unfold sethd. cbv zeta. do 2 (apply safe_bindT; [sf|intro]).
  apply safe_bindT; [|intro; sf].
  apply (safe_weak W Rd C _ (fun ih => 2 * ih = (n + 1) * (n + 1 - 1))); [|auto].
  unfold LOOP at 1. apply (safe_loopJ W Rd C (fun j ih => 2 * ih = j * (j - 1))); [lia| |lia].
  intros j ih Hj E.
  apply (safe_weak W Rd C _ (fun ih => 2 * ih = j * (j - 1) + 2 * (j + 1 - 1))); [|intros; lia].
  unfold LOOP. apply (safe_loopJ W Rd C (fun i ih => 2 * ih = j * (j - 1) + 2 * (i - 1))); [lia| |lia].
  intros i ih' Hi E'. assert (K := tri_range n j i ih' Hi (proj2 Hj) E'). sf. lia.
Qed.

(** ** trsapp *)
Section Trsapp.
Variables (n npt xopt xpt gq hq pq : Z) (delta : N) (step d g hd hs : Z).
Hypothesis (Hn : 1 <= n) (Hnpt : n + 2 <= npt).
Hypothesis (Hxpt : mat Rd xpt npt 1 npt 1 n) (Hxopt : arr Rd xopt 1 n) (Hgq : arr Rd gq 1 n)
  (Hhq : arr Rd hq 1 (n * (n + 1) / 2)) (Hpq : arr Rd pq 1 npt)
  (Hstep : arr W step 1 n) (Hd : arr W d 1 n) (Hg : arr W g 1 n) (Hhd : arr W hd 1 n) (Hhs : arr W hs 1 n).

Lemma Rd_d : arr Rd d 1 n.
Proof. intros i Hi. apply WRd, Hd, Hi. Qed.

Lemma tra_init_safe : safe (tra_init n npt xopt xpt gq hq pq step d g hd hs) T.
Proof. unfold tra_init. apply safe_bindT; [apply sethd_safe; auto|]. intros _. sf. Qed.

Lemma tra_cg_safe ggbeg v : safe (tra_cg n npt xpt hq pq delta step d g hd hs ggbeg v) T.
Proof.
  pose proof Rd_d. destruct v. unfold tra_cg. cbv zeta. apply safe_bindT; [apply sethd_safe; auto|]. intros _.
  apply safe_bindT; [sf|]. intros dhd. destruct (if nlt zero dhd then _ else _) as [crvmin alpha]. sf.
Qed.

Lemma tra_alt_safe ggbeg l : safe (tra_alt ncos nsin n npt xpt hq pq delta step d g hd hs ggbeg l) T.
Proof.
  pose proof Rd_d. destruct l as [[gg qred] iterc]. unfold tra_alt. cbv zeta. sf1; [sf|].
  apply safe_bindT; [sf|]. intros [sg shs]. sf1; [sf|].
  apply safe_bindT; [sf|]. intros _. apply safe_bindT; [apply sethd_safe; auto|]. intros _. sf.
Qed.

Lemma trsapp_safe fuel : safe (trsapp ncos nsin n npt xopt xpt gq hq pq delta step d g hd hs fuel) T.
Proof.
  unfold trsapp. apply safe_bindT; [apply tra_init_safe|]. intros [v|]; [|sf]. cbv zeta.
  apply safe_bindT.
  - apply (safe_machine W Rd C T); auto. intros l _. eapply safe_weak; [apply tra_cg_safe|]. intros [r|r]; auto.
  - intros [v' stop]. destruct stop; [sf|]. apply safe_bindT; [|sf].
    apply (safe_machine W Rd C T); auto. intros l _. eapply safe_weak; [apply tra_alt_safe|]. intros [r|r]; auto.
Qed.
End Trsapp.

(** ** biglag *)
Section Biglag.
Variables (n npt xopt xpt bmat zmat idz ndim knew : Z) (delta : N) (d hcol gc gd s w : Z).
Hypothesis (Hn : 1 <= n) (Hnpt : n + 2 <= npt) (Hndim : ndim = npt + n) (Hknew : 1 <= knew <= npt).
Hypothesis (Hxpt : mat Rd xpt npt 1 npt 1 n) (Hxopt : arr Rd xopt 1 n) (Hbmat : mat Rd bmat ndim 1 ndim 1 n)
  (Hzmat : mat Rd zmat npt 1 npt 1 (npt - n - 1)) (Hd : arr W d 1 n) (Hhcol : arr W hcol 1 npt) (Hgc : arr W gc 1 n)
  (Hgd : arr W gd 1 n) (Hs : arr W s 1 n) (Hw : arr W w 1 n).

Lemma lag_init_safe : safe (lag_init n npt xopt xpt bmat zmat idz ndim knew delta d hcol gc gd s) T.
Proof. unfold lag_init. cbv zeta. sf. Qed.

Lemma lag_pass_safe l : safe (lag_pass ncos nsin n npt xpt d hcol gc gd s w l) T.
Proof. unfold lag_pass. destruct l as [tempa tempb]. cbv zeta. sf. Qed.

Lemma biglag_safe : safe (biglag ncos nsin n npt xopt xpt bmat zmat idz ndim knew delta d hcol gc gd s w) T.
Proof.
  unfold biglag. apply safe_bindT; [apply lag_init_safe|]. intros alpha. apply safe_bindT; [|sf].
  eapply safe_weak.
  - apply (safe_loopxP W Rd C T T); auto. intros i l _ _. eapply safe_weak; [apply lag_pass_safe|]. intros [r|r]; auto.
  - auto.
Qed.
End Biglag.

(** ** bigden *)
Section Bigden.
Variables (n npt xopt xpt bmat zmat idz ndim kopt knew d w vlag s wvec prod : Z).
Hypothesis (Hn : 1 <= n) (Hnpt : n + 2 <= npt) (Hndim : ndim = npt + n) (Hknew : 1 <= knew <= npt) (Hkopt : 1 <= kopt <= npt).
Hypothesis (Hxpt : mat Rd xpt npt 1 npt 1 n) (Hxopt : arr Rd xopt 1 n) (Hbmat : mat Rd bmat ndim 1 ndim 1 n)
  (Hzmat : mat Rd zmat npt 1 npt 1 (npt - n - 1)) (Hd : arr W d 1 n) (Hw : arr W w 1 ndim) (Hvlag : arr W vlag 1 ndim)
  (Hs : arr W s 1 n) (Hwvec : mat W wvec ndim 1 ndim 1 5) (Hprod : mat W prod ndim 1 ndim 1 5).

Lemma den_init_safe : safe (den_init n npt xopt xpt zmat idz kopt knew d w s) T.
Proof.
  unfold den_init. cbv zeta. do 3 (apply safe_bindT; [sf|intro]). apply safe_bindT; [sf|]. intros [[[dd ds] ss] xoptsq].
  apply safe_bindT; [|sf]. sf1; [|sf].
  apply safe_bind with (P := fun r : Z * N * N * N => 1 <= fst (fst (fst r)) <= npt).
  - unfold LOOP at 1. apply safe_loopP; [|cbn; lia]. intros k [[[ksav dtest] ds1] ss1] Hk H. cbn [fst] in H.
    sf1; [sf; cbn; lia|]. apply safe_bindT; [sf|]. intros [dstemp sstemp]. sf; cbn; lia.
  - intros [[[ksav dtest] ds1] ss1] H. cbn [fst] in H. sf.
Qed.
Lemma den_wvec_safe : safe (den_wvec n npt xopt xpt ndim d s wvec) T.
Proof. unfold den_wvec. cbv zeta. sf. Qed.
Lemma den_prod_safe : safe (den_prod n npt bmat zmat idz ndim wvec prod) T.
Proof.
  unfold den_prod. cbv zeta. apply safe_loop. intros jc _ Hj.
  set (nw := if ((jc =? 2) || (jc =? 3))%bool then ndim else npt).
  assert (Hnw : nw <= ndim) by (unfold nw; destruct (_ || _)%bool; lia).
  do 2 (apply safe_bindT; [sf|intro]). apply safe_bindT; [sf|intro]. sf.
Qed.
Lemma den_beta_safe den : safe (den_beta ndim wvec prod den) T.
Proof. unfold den_beta. sf. Qed.
Lemma den_denex_safe alpha den : safe (den_denex ndim knew prod alpha den) T.
Proof. unfold den_denex. destruct den as [[[[[[[[e0 e1] e2] e3] e4] e5] e6] e7] e8]. sf. Qed.
Lemma den_angle_safe denex ta tb : safe (den_angle denex ta tb) T.
Proof. unfold den_angle. cbv zeta. sf. Qed.

Lemma den_pass_safe alpha xoptsq v :
  safe (den_pass ncos nsin n npt xopt xpt bmat zmat idz ndim knew d w vlag s wvec prod alpha xoptsq v) T.
Proof.
  unfold den_pass. destruct v. cbv zeta. apply safe_bindT; [sf|]. intros [xoptd xopts].
  do 7 (apply safe_bindT; [sf|intro]).
  apply safe_bindT; [apply den_wvec_safe|intros _]. apply safe_bindT; [apply den_prod_safe|intros _].
  apply safe_bindT; [apply den_beta_safe|intros den]. apply safe_bindT; [apply den_denex_safe|intros denex].
  apply safe_bindT; [apply den_angle_safe|intros [denold angle]].
  destruct den as [[[[[[[[e0 e1] e2] e3] e4] e5] e6] e7] e8].
  sf.
Qed.

Lemma bigden_safe fuel :
  safe (bigden ncos nsin n npt xopt xpt bmat zmat idz ndim kopt knew d w vlag s wvec prod fuel) T.
Proof.
  unfold bigden. apply safe_bindT; [apply den_init_safe|]. intros [[alpha xoptsq] v]. apply safe_bindT.
  - apply (safe_machine W Rd C T); auto. intros l _. eapply safe_weak; [apply den_pass_safe|]. intros [r|r]; auto.
  - intros [par beta]. sf.
Qed.
End Bigden.
End Safe.
