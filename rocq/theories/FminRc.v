(** * Univariate minimization by reverse communication: same points as the direct call *)
From Coq Require Import List ZArith Bool Lia.
From Verif Require Import Num VecModel Base FminModel FminProofs.
Import ListNotations.
Local Open Scope num_scope.

Section Rc.
Context {N : Num} (f : N -> N).

(** The caller: at most [n] evaluations of f, while they are requested. *)
Fixpoint rc (n : nat) (c : ctx N) (xp : N) (pts : list N) : ctx N * N * list N :=
  match n, x_status c with
  | S n, FFX => let '(c', xp') := fmin_next c xp (f xp) in rc n c' xp' (xp :: pts)
  | _, _ => (c, xp, pts)
  end.

(** The members of the workspace and the local variables of the direct function. *)
Definition same (prec : N) (c : ctx N) (s : fm N) : Prop :=
  x_u c = fu_x s /\ x_fu c = fu_f s /\ x_v c = fv_x s /\ x_fv c = fv_f s /\ x_w c = fw_x s /\ x_fw c = fw_f s /\
  x_nevals c = f_nevals s /\ x_prec c = prec.

Definition final_state (o : outcome N) : fm N := match o with Running s | Done _ s => s end.

Lemma reduce_grows fuel maxeval prec : forall s p, In p (f_points s) -> In p (f_points (final_state (fmin_reduce f fuel maxeval prec s))).
Proof.
  induction fuel as [|fuel IH]; intros s p Hp; [exact Hp|]. rewrite reduce_S. destruct (conv prec s); [exact Hp|]. destruct (spent maxeval s); [exact Hp|].
  apply IH. unfold shrink, fmin_update. destruct (_ || _); cbn [f_points In]; auto.
Qed.
Lemma search_grows fuel maxeval prec : forall s p, In p (f_points s) -> In p (f_points (final_state (fmin_search f fuel maxeval prec s))).
Proof.
  induction fuel as [|fuel IH]; intros s p Hp; [exact Hp|]. rewrite search_S. destruct (fv_f s >? fw_f s).
  - destruct (spent maxeval s); [exact Hp|]. apply IH. cbn [enlarge f_points In]; auto.
  - now apply reduce_grows.
Qed.

(** [o] is the outcome of the direct function after [n] evaluations. *)
Definition agrees (prec : N) (o : outcome N) (r : ctx N * N * list N) : Prop :=
  let '(c, xp, pts) := r in
  match o with
  | Running s => pts = f_points s /\ x_nevals c = f_nevals s /\ (x_status c = FFX \/ x_status c = FCONVERGENCE)
  | Done st s => st = 0%Z /\ pts = f_points s /\ same prec c s /\ x_status c = FCONVERGENCE
  end.

Lemma rc_stops n c xp pts : x_status c <> FFX -> rc n c xp pts = (c, xp, pts).
Proof. intros H. destruct n; cbn [rc]; [reflexivity|]. destruct (x_status c); congruence || reflexivity. Qed.

Lemma rc_reduce maxeval prec : (maxeval <= 0)%Z -> forall n c s xp, same prec c s ->
  (forall p, In p (f_points (final_state (fmin_reduce f n maxeval prec s))) -> (p =? p) = true) ->
  agrees prec (fmin_reduce f n maxeval prec s) (let '(c', xp') := goto_reduce c xp in rc n c' xp' (f_points s)).
Proof.
  intros Hm. induction n as [|n IH]; intros c s xp HS HP.
  - cbn [fmin_reduce]. unfold goto_reduce, agrees. destruct (fmin_converged _ _ _ _); cbn [rc fset x_nevals x_status]; 
      (split; [reflexivity|]; split; [apply HS | auto]).
  - revert HP. rewrite reduce_S. unfold conv. 
    assert (Sp : spent maxeval s = false) by (unfold spent; rewrite Z.gtb_ltb; destruct (Z.ltb_spec 0 maxeval); [lia|reflexivity]). rewrite Sp. clear Sp. pose proof HS as (H1 & H2 & H3 & H4 & H5 & H6 & H7 & H8).
    unfold goto_reduce. rewrite H1, H3, H5, H8. destruct (fmin_converged prec (fu_x s) (fv_x s) (fw_x s)) eqn:EC; intros HP.
    + rewrite rc_stops by (cbn; discriminate). unfold agrees. repeat split; cbn; auto.
    + set (x := FMIN_ALPHA * (fw_x s - fv_x s) + fv_x s) in *. cbn [rc fset x_status].
      unfold fmin_next at 1. cbn [fset x_status x_x x_stage]. 
      assert (Hx : (x =? x) = true).
      { apply HP. apply reduce_grows. unfold shrink, fmin_update. destruct (_ || _); cbn [f_points In]; auto. }
      rewrite Hx. cbn [negb x_fv fcount fset x_fu x_fw x_x x_u x_v x_w]. rewrite H4, H2, H6.
      unfold shrink, fmin_update, trial in HP |- *. fold x in HP |- *.
      destruct ((f x >? fv_f s) || ((f x =? fv_f s) && (fu_f s >=? fw_f s))) eqn:EB.
      * apply IH; [|exact HP]. repeat split; cbn; auto. now rewrite H7.
      * apply IH; [|exact HP]. repeat split; cbn; auto. now rewrite H7.
Qed.

Lemma rc_search maxeval prec : (maxeval <= 0)%Z -> forall n c s xp, same prec c s ->
  (forall p, In p (f_points (final_state (fmin_search f n maxeval prec s))) -> (p =? p) = true) ->
  agrees prec (fmin_search f n maxeval prec s) (let '(c', xp') := goto_search c xp in rc n c' xp' (f_points s)).
Proof.
  intros Hm. induction n as [|n IH]; intros c s xp HS HP.
  - cbn [fmin_search]. unfold goto_search, goto_reduce, agrees. destruct (_ >? _); [|destruct (fmin_converged _ _ _ _)]; cbn [rc fset x_nevals x_status]; 
      (split; [reflexivity|]; split; [apply HS | auto]).
  - revert HP. rewrite search_S. 
    assert (Sp : spent maxeval s = false) by (unfold spent; rewrite Z.gtb_ltb; destruct (Z.ltb_spec 0 maxeval); [lia|reflexivity]). rewrite Sp. clear Sp. pose proof HS as (H1 & H2 & H3 & H4 & H5 & H6 & H7 & H8).
    unfold goto_search. rewrite H4, H6. destruct (fv_f s >? fw_f s) eqn:EC; intros HP.
    + rewrite H3, H5. set (w' := FMIN_GAMMA * (fw_x s - fv_x s) + fw_x s) in *. cbn [rc fset x_status].
      unfold fmin_next at 1. cbn [fset x_status x_x x_stage]. 
      assert (Hx : (w' =? w') = true).
      { apply HP. apply search_grows. cbn [enlarge f_points In]. auto. }
      rewrite Hx. cbn [negb x_fv fcount fset x_fu x_fw x_x x_u x_v x_w].
      apply IH; [|exact HP]. unfold enlarge. fold w'. repeat split; cbn; auto. now rewrite H7.
    + apply rc_reduce; assumption.
Qed.

Lemma bounded_a_land flags : bounded_by_a (Z.land flags 7) = bounded_by_a flags.
Proof. unfold bounded_by_a. now rewrite <- Z.land_assoc. Qed.
Lemma bounded_b_land flags : bounded_by_b (Z.land flags 7) = bounded_by_b flags.
Proof. unfold bounded_by_b. now rewrite <- Z.land_assoc. Qed.

(** The whole run: start, first call, evaluations. *)
Definition rc_run (n : nat) (c : ctx N) (a b : N) (flags : Z) : option (ctx N * N * list N) :=
  match fmin_start c a b flags with
  | (c, SUCCESS) => let '(c, xp) := fmin_next c (x_x c) (nZ 0) in Some (rc n c xp [])
  | _ => None
  end.

Lemma rc_first n c a b flags : (a =? b) = false ->
  (forall p, In p (f_points (fmin_first f a b flags)) -> (p =? p) = true) ->
  exists c', same (x_prec c) c' (fmin_first f a b flags) /\
    rc_run (Z.to_nat (f_nevals (fmin_first f a b flags)) + n) c a b flags =
    Some (let '(c'', xp) := goto_search c' (fv_x (fmin_first f a b flags)) in rc n c'' xp (f_points (fmin_first f a b flags))).
Proof.
  intros Hab. unfold rc_run, fmin_start. rewrite Hab. cbn [fmin_next x_status x_x]. unfold goto_a, fmin_first. cbn [x_flags].
  rewrite bounded_a_land. destruct (bounded_by_a flags) eqn:Ea.
  - unfold goto_b. cbn [fset x_flags]. rewrite bounded_b_land. destruct (bounded_by_b flags) eqn:Eb; cbn [negb].
    + unfold goto_inside. cbn [fset x_u x_fu x_w x_fw x_a x_b]. 
      destruct (_ >? _) eqn:EC; cbn [f_nevals f_points fv_x In]; intros HP; change (Z.to_nat (0 + 1) + n)%nat with (S n); cbn [rc fset x_status x_nevals x_v x_x];
      unfold fmin_next; cbn [x_status x_x x_stage]; rewrite HP by auto; cbn [negb fcount fset x_fv x_u x_fu x_v x_w x_fw x_x x_nevals x_status x_stage x_a x_b x_prec x_flags];
      (eexists; split; [|reflexivity]; repeat split; cbn; auto).
    + destruct (_ >? _) eqn:EC; cbn [f_nevals f_points fv_x In]; intros HP; change (Z.to_nat (0 + 1 + 1) + n)%nat with (S (S n)); cbn [rc fset x_status x_nevals x_v x_x];
      unfold fmin_next; cbn [x_status x_x x_stage x_b fset]; rewrite HP by auto; cbn [negb fcount fset x_fv x_u x_fu x_v x_w x_fw x_x x_nevals x_status x_stage x_a x_b x_prec x_flags];
      unfold goto_inside; cbn [negb fcount fset x_fv x_u x_fu x_v x_w x_fw x_x x_nevals x_status x_stage x_a x_b x_prec x_flags]; rewrite EC;
      cbn [x_status x_x x_stage x_b fset]; rewrite HP by auto;
      cbn [negb fcount fset x_fv x_u x_fu x_v x_w x_fw x_x x_nevals x_status x_stage x_a x_b x_prec x_flags];
      (eexists; split; [|reflexivity]; repeat split; cbn; auto).
  - destruct (bounded_by_b flags) eqn:Eb; cbn [negb].
    + destruct (_ >? _) eqn:EC; cbn [f_nevals f_points fv_x In]; intros HP; change (Z.to_nat (1 + 1) + n)%nat with (S (S n)); cbn [rc fset x_status x_nevals x_v x_x];
      unfold fmin_next; cbn [x_status x_x x_stage x_a x_b fset]; rewrite HP by auto; cbn [negb fcount fset x_fv x_u x_fu x_v x_w x_fw x_x x_nevals x_status x_stage x_a x_b x_prec x_flags];
      unfold goto_b; cbn [fset fcount x_flags]; rewrite bounded_b_land, Eb;
      unfold goto_inside; cbn [negb fcount fset x_fv x_u x_fu x_v x_w x_fw x_x x_nevals x_status x_stage x_a x_b x_prec x_flags]; rewrite EC;
      cbn [x_status x_x x_stage x_b fset]; rewrite HP by auto;
      cbn [negb fcount fset x_fv x_u x_fu x_v x_w x_fw x_x x_nevals x_status x_stage x_a x_b x_prec x_flags];
      (eexists; split; [|reflexivity]; repeat split; cbn; auto).
    + destruct (_ >? _) eqn:EC; cbn [f_nevals f_points fv_x In]; intros HP; change (Z.to_nat (1 + 1 + 1) + n)%nat with (S (S (S n))); cbn [rc fset x_status x_nevals x_v x_x];
      unfold fmin_next; cbn [x_status x_x x_stage x_a x_b fset]; rewrite HP by auto; cbn [negb fcount fset x_fv x_u x_fu x_v x_w x_fw x_x x_nevals x_status x_stage x_a x_b x_prec x_flags];
      unfold goto_b; cbn [fset fcount x_flags]; rewrite bounded_b_land, Eb;
      cbn [x_status x_x x_stage x_b fset]; rewrite HP by auto;
      cbn [negb fcount fset x_fv x_u x_fu x_v x_w x_fw x_x x_nevals x_status x_stage x_a x_b x_prec x_flags];
      unfold goto_inside; cbn [negb fcount fset x_fv x_u x_fu x_v x_w x_fw x_x x_nevals x_status x_stage x_a x_b x_prec x_flags]; rewrite EC;
      cbn [x_status x_x x_stage x_b fset]; rewrite HP by auto;
      cbn [negb fcount fset x_fv x_u x_fu x_v x_w x_fw x_x x_nevals x_status x_stage x_a x_b x_prec x_flags];
      (eexists; split; [|reflexivity]; repeat split; cbn; auto).
Qed.

Lemma rc_direct maxeval c a b flags n : (a =? b) = false -> (maxeval <= 0)%Z ->
  (forall p, In p (f_points (final_state (fmin_search f n maxeval (x_prec c) (fmin_first f a b flags)))) -> (p =? p) = true) ->
  exists r, rc_run (Z.to_nat (f_nevals (fmin_first f a b flags)) + n) c a b flags = Some r /\
    agrees (x_prec c) (fmin_search f n maxeval (x_prec c) (fmin_first f a b flags)) r.
Proof.
  intros Hab Hm HP. destruct (rc_first n c a b flags Hab) as (c' & HS & ->).
  - intros p Hp. apply HP. now apply search_grows.
  - eexists; split; [reflexivity|]. now apply rc_search.
Qed.
End Rc.
