(** * The programs of newuoa.c that do not call the objective function do not depend on the previous calls *)
From Coq Require Import ZArith List Bool Lia.
From Verif Require Import Num BqLang BqModel BqWp BqSafe BqPc NwModel.
Import ListNotations.
Local Open Scope Z_scope.

(** ** Programs that do not call the objective function do not depend on the previous calls *)
Section Ind.
Context {N : Num}.
Notation mst := (mst N).
Notation prog := (prog N).
Definition oset {A} (e : list (list N * N)) (o : out N A) : out N A :=
  match o with
  | Ret a s => Ret a (mkmst (mm s) e) | Undef s => Undef (mkmst (mm s) e)
  | Cast s => Cast (mkmst (mm s) e) | More s => More (mkmst (mm s) e)
  end.
Definition ind {A} (p : prog A) : Prop := forall s e, p (mkmst (mm s) e) = oset e (p s).

Lemma ind_ret {A} (a : A) : ind (ret a).
Proof. intros s e. reflexivity. Qed.
Lemma ind_more {A} : ind (more (A := A)).
Proof. intros s e. reflexivity. Qed.
Lemma ind_cast {A} : ind (cast (A := A)).
Proof. intros s e. reflexivity. Qed.
Lemma ind_bind {A B} (p : prog A) (q : A -> prog B) : ind p -> (forall a, ind (q a)) -> ind (bind p q).
Proof.
  intros Hp Hq s e. unfold bind. rewrite Hp. destruct (p s) as [a s1|s1|s1|s1]; cbn; auto. apply Hq.
Qed.
Lemma ind_ld a : ind (ld a).
Proof. intros s e. unfold ld. cbn. destruct (mm s a); reflexivity. Qed.
Lemma ind_sto a (v : N) : ind (sto a v).
Proof. intros s e. unfold sto. cbn. destruct (mm s a); reflexivity. Qed.
Lemma ind_lift1 {A B} (f : A -> B) p : ind p -> ind (lift1 f p).
Proof. intros H. apply ind_bind; [exact H|]. intros a. apply ind_ret. Qed.
Lemma ind_lift2 {A B D} (f : A -> B -> D) p q : ind p -> ind q -> ind (lift2 f p q).
Proof. intros H K. apply ind_bind; [exact H|]. intros a. apply ind_bind; [exact K|]. intros b. apply ind_ret. Qed.
Lemma ind_ifp {A} c (p q : prog A) : ind c -> ind p -> ind q -> ind (ifp c p q).
Proof. intros H K L. apply ind_bind; [exact H|]. intros [|]; auto. Qed.
Lemma ind_andp p q : ind p -> ind q -> ind (andp p q).
Proof. intros H K. apply ind_bind; [exact H|]. intros [|]; auto. apply ind_ret. Qed.
Lemma ind_orp p q : ind p -> ind q -> ind (orp p q).
Proof. intros H K. apply ind_bind; [exact H|]. intros [|]; auto. apply ind_ret. Qed.
Lemma ind_assign a e : ind e -> ind (assign a e).
Proof. intros H. apply ind_bind; [exact H|]. intros v. apply ind_sto. Qed.
Lemma ind_assign_add a e : ind e -> ind (assign_add a e).
Proof. intros H. apply ind_bind; [apply ind_lift2; [apply ind_ld|exact H]|]. intros v. apply ind_sto. Qed.
Lemma ind_assign_sub a e : ind e -> ind (assign_sub a e).
Proof. intros H. apply ind_bind; [apply ind_lift2; [apply ind_ld|exact H]|]. intros v. apply ind_sto. Qed.
Lemma ind_loop {A} lo hi (body : Z -> A -> prog A) a : (forall i b, ind (body i b)) -> ind (loop lo hi body a).
Proof.
  intros H. unfold loop. generalize (Z.to_nat (hi - lo + 1)). intros k. revert lo a.
  induction k as [|k IH]; intros lo a; cbn [loopn]; [apply ind_ret|]. apply ind_bind; [apply H|]. intros b. apply IH.
Qed.
Lemma ind_loopx {A B} lo hi (body : Z -> A -> prog (A + B)) a : (forall i b, ind (body i b)) -> ind (loopx lo hi body a).
Proof.
  intros H. unfold loopx. generalize (Z.to_nat (hi - lo + 1)). intros k. revert lo a.
  induction k as [|k IH]; intros lo a; cbn [loopxn]; [apply ind_ret|]. apply ind_bind; [apply H|]. intros [b|b]; [apply IH|apply ind_ret].
Qed.
Lemma ind_machine {L B} fuel (step : L -> prog (L + B)) l : (forall l, ind (step l)) -> ind (machine fuel step l).
Proof.
  intros H. revert l. induction fuel as [|k IH]; intros l; cbn [machine]; [apply ind_more|].
  apply ind_bind; [apply H|]. intros [b|b]; [apply IH|apply ind_ret].
Qed.
Lemma ind_evs {A} (p : prog A) s : ind p -> wp p s (fun _ s' => evs s' = evs s).
Proof. intros H a s' E. specialize (H s (evs s)). destruct s as [m e]. cbn in *. rewrite E in H. injection H as H. rewrite H. reflexivity. Qed.
End Ind.
Create HintDb ind.
Ltac it1 :=
  lazymatch goal with
  | |- ind (ret _) => apply ind_ret
  | |- ind (ld _) => apply ind_ld
  | |- ind (sto _ _) => apply ind_sto
  | |- ind more => apply ind_more
  | |- ind cast => apply ind_cast
  | |- ind (lift1 _ _) => apply ind_lift1
  | |- ind (lift2 _ _ _) => apply ind_lift2
  | |- ind (ifp _ _ _) => apply ind_ifp
  | |- ind (andp _ _) => apply ind_andp
  | |- ind (orp _ _) => apply ind_orp
  | |- ind (assign _ _) => apply ind_assign
  | |- ind (assign_add _ _) => apply ind_assign_add
  | |- ind (assign_sub _ _) => apply ind_assign_sub
  | |- ind (loop _ _ _ _) => apply ind_loop; intros ? ?
  | |- ind (loopx _ _ _ _) => apply ind_loopx; intros ? ?
  | |- ind (machine _ _ _) => apply ind_machine; intros ?
  | |- ind (bind _ _) => apply ind_bind; [|intros ?]
  | |- ind (match ?b with _ => _ end) => destruct b
  | |- ind (let _ := _ in _) => cbv zeta
  | |- ind ((fun _ => _) _) => cbv beta
  | |- ind (LOOP _ _ _) => unfold LOOP
  | |- ind (LOOP_ _ _) => unfold LOOP_
  | |- ind _ => solve [auto with ind nocore]
  end.
Ltac it := repeat it1.

Section NwInd.
Context {N : Num}.
Variables ncos nsin : N -> N.
Lemma ind_sincos i : ind (get_sin_cos (N := N) i).
Proof. intros s e. unfold get_sin_cos. destruct (i <? 0); [reflexivity|]. destruct (nth_error _ _) as [[? ?]|]; reflexivity. Qed.
Hint Resolve ind_sincos : ind.
Ltac ut := unfold eabs, emax, emin, esqrt; it.
Lemma ind_nupdate n npt bmat zmat idz ndim vlag beta knew w : ind (nupdate (N := N) n npt bmat zmat idz ndim vlag beta knew w).
Proof. unfold nupdate. ut. Qed.
Lemma ind_sethd n npt xpt hq pq d hd : ind (sethd (N := N) n npt xpt hq pq d hd).
Proof. unfold sethd. ut. Qed.
Hint Resolve ind_nupdate ind_sethd : ind.
Lemma ind_trsapp n npt xopt xpt gq hq pq delta step d g hd hs fuel :
  ind (trsapp ncos nsin n npt xopt xpt gq hq pq delta step d g hd hs fuel).
Proof. unfold trsapp, tra_init, tra_cg, tra_alt. ut. Qed.
Lemma ind_biglag n npt xopt xpt bmat zmat idz ndim knew delta d hcol gc gd s w :
  ind (biglag ncos nsin n npt xopt xpt bmat zmat idz ndim knew delta d hcol gc gd s w).
Proof. unfold biglag, lag_init, lag_pass. ut. Qed.
Lemma ind_bigden n npt xopt xpt bmat zmat idz ndim kopt knew d w vlag s wvec prod fuel :
  ind (bigden ncos nsin n npt xopt xpt bmat zmat idz ndim kopt knew d w vlag s wvec prod fuel).
Proof. unfold bigden, den_init, den_pass, den_wvec, den_prod, den_beta, den_denex, den_angle. ut. Qed.
Hint Resolve ind_trsapp ind_biglag ind_bigden : ind.

Variables (n npt x : Z) (rhobeg rhoend : N) (maxfun : Z).
Variables (xbase xopt xnew xpt fval gq hq pq bmat zmat d vlag w : Z).
Lemma ind_start v : ind (nw_start n npt x rhobeg xbase xpt hq pq bmat zmat v).
Proof. unfold nw_start. ut. Qed.
Lemma ind_done v : ind (nw_done (N := N) n x xbase xopt v).
Proof. unfold nw_done. ut. Qed.
Hint Resolve ind_done : ind.
Ltac us := unfold nfail, ngoto; ut.
Lemma ind_50 {B} v : ind (nw_50 (B := B) n npt x rhobeg xbase xpt fval v).
Proof. unfold nw_50. us. Qed.
Lemma ind_step {B} ev (fin : nvars -> prog N B) fuel l : (forall v, ind (ev v)) -> (forall v, ind (fin v)) ->
  ind (nw_step ncos nsin n npt x rhobeg rhoend maxfun xbase xopt xnew xpt fval gq hq pq bmat zmat d vlag w ev fin fuel l).
Proof.
  intros H K. destruct l as [l v]. unfold nw_step. cbn [fst snd]. destruct l.
  - apply ind_50.
  - unfold nw_70. us.
  - us.
  - unfold nw_100. us.
  - unfold nw_120, nw_shift, nw_vlag. us.
  - unfold nw_290. us.
  - unfold nw_310. us.
  - apply H.
  - unfold nw_new, nw_410, nw_vquad, nw_choose, nw_frob. us.
  - unfold nw_460. us.
  - unfold nw_490. us.
  - us; auto.
Qed.
End NwInd.
