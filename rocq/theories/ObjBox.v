(** * Box sets and sequences of re-wraps: proofs *)
From Coq Require Import List ZArith Bool Arith Lia.
From Verif Require Import Base MemModel ObjModel ObjSpec ObjProofs ObjOps ObjOps2 ObjFinal.
Import ListNotations.

Section Box.
Context {V : Type} (zero : V) (convert : eltype -> eltype -> V -> V).
Notation st := (st V).
Notation exec := (exec zero convert).
Notation later := (later zero convert).

Lemma box_hidden (s s' : st) own inst inst' b v sp lo up : inv s own inst -> nz s -> inv s' (Some b :: own) inst' -> nz s' -> kept [] s s' -> length (objs s) <= b ->
  (forall o, get s' b = Some o -> body o = CBox sp lo up) -> length (objs s) <= v -> In (Some v) (dropped (CBox sp lo up)) -> hidden s' (Some b :: own) v.
Proof.
  intros I N I' N' K Lb Hb Lv Hv.
  destruct (inv_live _ _ _ b I') as (ob & Hob & _); [left; reflexivity|]. pose proof (Hb _ Hob) as Bb.
  assert (Hd : In (Some v) (dropped (body ob))) by (rewrite Bb; exact Hv).
  destruct (dropped_live _ _ _ _ _ _ I' N' Hob Hd) as [ov Hov].
  assert (Rk : krank (shape (body ov)) < krank (shape (body ob))) by (eapply wt_rank; eauto; eapply i_wt; eauto).
  assert (Old : forall x, In (Some x) own -> x < length (objs s)).
  { intros x H. destruct (inv_live _ _ _ _ I H) as (o & Ho & _). eapply get_lt; eauto. }
  split; [eapply get_lt; eauto|]. split.
  - intros [E|E]; [|specialize (Old v E); lia]. injection E as ->. assert (ov = ob) by congruence. subst ov. lia.
  - intros a o r Ho Bo. destruct (Nat.lt_ge_cases a (length (objs s))) as [La|La].
    + destruct (k_old _ _ _ K a o La Ho) as (o1 & Ho1 & _ & B1). rewrite B1 in Bo by auto.
      assert (W : wt s (body o1)) by (eapply i_wt; eauto). rewrite Bo in W. destruct W as (_ & _ & W3 & W4 & _).
      split; intros E; [destruct (W3 v E)|destruct (W4 v E)]; lia.
    + exfalso. destruct (referrer _ _ _ _ _ I' N' Ho) as [[E|E]|(c & oc & _ & _ & R)].
      * injection E as <-. assert (o = ob) by congruence. subst o. rewrite Bb in Bo. discriminate.
      * specialize (Old a E). lia.
      * rewrite Bo in R. simpl in R. pose proof (rank_max (shape (body oc))). lia.
Qed.

Lemma bound_later (s s' s2 : st) own own2 inst inst' b sp asp osp t n lo up type v bd o2 : inv s own inst -> nz s -> inv s' (Some b :: own) inst' -> nz s' -> kept [] s s' -> length (objs s) <= b ->
  sp = Some asp -> get s asp = Some osp -> body osp = CSpace t n ->
  (forall o, get s' b = Some o -> body o = CBox sp lo up) -> bound_is convert s s' sp type v bd -> In bd [lo; up] -> later s' (Some b :: own) s2 own2 ->
  get s2 b = Some o2 -> body o2 = CBox sp lo up -> bound_given convert (arrays s) t n sp type v s2 bd.
Proof.
  intros I N I' N' K Lb Hsp Hosp Bosp Hb Hbd Hin L Ho2 Bo2.
  destruct (later_inv zero convert _ _ _ _ _ L I' N') as (i2 & I2 & N2).
  assert (Dr : forall p, bd = BVector p -> In p (dropped (CBox sp lo up))).
  { intros p ->. simpl. rewrite !in_app_iff. destruct Hin as [-> |[-> |[]]]; simpl; auto. }
  assert (Copy : forall i p, v = PArray i -> bd = BVector p ->
    (exists v asp osp t n ta l, p = Some v /\ length (objs s) <= v /\ sp = Some asp /\ get s asp = Some osp /\ body osp = CSpace t n /\
      nth_error (arrays s) i = Some (ta, l) /\ Z.to_nat n <= length l /\
      (forall o, get s' v = Some o -> body o = CVector sp (Inner (map (convert ta t) (firstn (Z.to_nat n) l))) None 0)) ->
    exists a o ta l, p = Some a /\ nth_error (arrays s) i = Some (ta, l) /\ Z.to_nat n <= length l /\
      get s2 a = Some o /\ body o = CVector sp (Inner (map (convert ta t) (firstn (Z.to_nat n) l))) None 0).
  { intros i p Ev Ep (w & asp' & osp' & t' & n' & ta & l & -> & Lw & Es & Eo & Eb & Er & Ll & Hw).
    assert (asp' = asp) by congruence. subst asp'. assert (osp' = osp) by congruence. subst osp'. rewrite Bosp in Eb. injection Eb as <- <-.
    specialize (Dr _ Ep).
    assert (Hd : hidden s' (Some b :: own) w) by (eapply box_hidden; eauto).
    assert (Fx : fixed s' (Some b :: own) w (CVector sp (Inner (map (convert ta t) (firstn (Z.to_nat n) l))) None 0)).
    { split; [apply Hd|]. split; [left; exact Hd|]. split; [discriminate|exact Hw]. }
    destruct (fixed_later zero convert _ _ _ _ _ _ _ L I' N' Fx) as (_ & _ & _ & Hf).
    rewrite <- Bo2 in Dr. destruct (dropped_live _ _ _ _ _ _ I2 N2 Ho2 Dr) as [ow Ho].
    exists w, ow, ta, l. repeat match goal with |- _ /\ _ => split end; auto. }
  assert (Vec : forall a p, v = PObj a -> bd = BVector p -> p = Some a -> p = Some a /\ exists o, get s2 a = Some o /\ is_vector (shape (body o))).
  { intros a p Ev Ep ->. split; [reflexivity|]. specialize (Dr _ Ep). rewrite <- Bo2 in Dr. destruct (dropped_live _ _ _ _ _ _ I2 N2 Ho2 Dr) as [ow Ho].
    exists ow. split; [exact Ho|]. pose proof (i_wt _ _ _ I2 _ _ Ho2) as W. rewrite Bo2 in W. destruct W as (_ & _ & W). rewrite Forall_forall in W.
    assert (X : In (Some a) (bound_ref lo ++ bound_ref up)) by (rewrite in_app_iff; subst bd; destruct Hin as [-> |[-> |[]]]; simpl; auto).
    exact (proj2 (W _ X a eq_refl) ow Ho). }
  unfold bound_is in Hbd. unfold bound_given. destruct type as [|q|q]; [destruct v, bd; exact Hbd| |destruct v, bd; exact Hbd].
  repeat (match goal with p : positive |- _ => destruct p end; auto); destruct v, bd; try exact Hbd; eauto.
Qed.

Lemma box_ok (s : st) own inst sp lt lv ut uv p s' : inv s own inst -> nz s -> permitted s own (NewBox sp lt lv ut uv) -> exec (NewBox sp lt lv ut uv) s = Some (RPtr p, s') ->
  match p with
  | None => forall a, get s' a = get s a
  | Some b => exists asp osp t n lo up, sp = Some asp /\ get s asp = Some osp /\ body osp = CSpace t n /\ get s b = None /\
      forall s2 own2 o, later s' (Some b :: own) s2 own2 -> get s2 b = Some o ->
        body o = CBox sp lo up /\ bound_given convert (arrays s) t n sp lt lv s2 lo /\ bound_given convert (arrays s) t n sp ut uv s2 up
  end.
Proof.
  intros I N P E. destruct (step_ok zero convert s own inst _ I N P) as (r' & s0 & E0 & A & B & K & Rf). rewrite E in E0. injection E0 as <- <-. simpl in A, K, Rf.
  destruct p as [b|].
  2: { apply (same_heap s s' own inst inst); auto. eapply inv_perm; [|exact A]. reflexivity. }
  destruct P as [P Pb]. apply (arg_avail s own inst _ _ I) in P. destruct P as [P1 P2].
  destruct (boxset_ok zero convert s own inst sp lt lv ut uv I) as (p & s1 & E1 & M & Hbx); auto.
  { intros Hn. eapply value_of_bound; eauto. intros n Hsz. apply (Pb n Hsz). }
  { intros Hn. eapply value_of_bound; eauto. intros n Hsz. apply (Pb n Hsz). }
  cbn [ObjSpec.exec] in E. unfold fmap, bind in E. rewrite E1 in E. injection E as -> ->.
  destruct (Hbx b eq_refl) as (lo & up & Hb & H1 & H2).
  specialize (Rf b eq_refl). destruct sp as [asp|].
  2: { simpl in E1. discriminate. }
  destruct (anch_live _ _ _ _ I (P1 ltac:(discriminate))) as (osp & Hosp & _).
  pose proof (proj2 (P2 asp eq_refl) osp Hosp) as Ks. destruct (body osp) as [t n| | | | | | |] eqn:Bs; simpl in Ks; try contradiction.
  exists asp, osp, t, n, lo, up. split; [reflexivity|]. split; [exact Hosp|]. split; [exact Bs|]. split.
  { destruct (get s b) as [ob|] eqn:X; [|reflexivity]. apply get_lt in X. lia. }
  intros s2 own2 o L Ho.
  assert (Fx : fixed s' (Some b :: own) b (CBox (Some asp) lo up)).
  { destruct (inv_live _ _ _ b A) as (ob & Hob & _); [left; reflexivity|]. split; [eapply get_lt; eauto|]. split; [right; split; [simpl; tauto|discriminate]|]. split; [discriminate|exact Hb]. }
  destruct (fixed_later zero convert _ _ _ _ _ _ _ L A B Fx) as (_ & _ & _ & Hf). specialize (Hf o Ho).
  split; [exact Hf|]. split; eapply bound_later; eauto; simpl; auto.
Qed.

(** ** Sequences of re-wraps *)
Lemma rewraps_ok l : forall (s : st) own inst a o w d f c, inv s own inst -> nz s -> In (Some a) own -> get s a = Some o -> body o = CVector w d f c ->
  exists ps s' inst' d' f' c' evs, rewraps zero convert (Some a) l s = Some (ps, s') /\ inv s' own inst' /\ nz s' /\ get s' a = Some (mkObj (refs o) (CVector w d' f' c')) /\
    events s' = evs ++ events s /\ filter is_called (rev evs) ++ released (f', c') = releases (f, c) ps.
Proof.
  induction l as [|[[[t nd] nf] nc] l IH]; intros s own inst a o w d f c I N Hin Ho Bo.
  - exists [], s, inst, d, f, c, []. split; [reflexivity|]. split; [exact I|]. split; [exact N|]. split; [destruct o; simpl in *; congruence|]. split; reflexivity.
  - pose proof (inv_pos _ _ _ _ _ I N Ho) as P.
    assert (Pm : permitted s own (Rewrap t (Some a) nd nf nc)).
    { intros b [= <-]. split; [exact Hin|]. intros o1 Ho1. assert (o1 = o) by congruence. subst o1. rewrite Bo. exact Logic.I. }
    destruct (step_ok zero convert s own inst _ I N Pm) as (r & s1 & E1 & A & B & _).
    destruct (rewrap_run s own inst t (Some a) a o w d f c (option_map Outer nd) nf nc I eq_refl Ho P Bo) as (e & s1' & E1' & Hf & Hs).
    assert (X : exec (Rewrap t (Some a) nd nf nc) s = Some (RStatus e, s1')) by (cbn [ObjSpec.exec]; unfold fmap, bind; rewrite E1'; reflexivity).
    rewrite E1 in X. injection X as -> ->. cbn [own_after] in A.
    destruct (is_success e) eqn:Es.
    + destruct (Hs eq_refl) as (d' & Hd & Eq). assert (e = SUCCESS) by (destruct e; try discriminate; reflexivity). subst e.
      assert (G1 : get s1' a = Some (mkObj (refs o) (CVector w d' nf nc))).
      { rewrite Eq. unfold get. simpl. rewrite nth_upd, Nat.eqb_refl. pose proof (get_lt _ _ _ Ho) as L. apply Nat.ltb_lt in L. rewrite L. reflexivity. }
      destruct (IH s1' own _ a _ w d' nf nc A B Hin G1 eq_refl) as (ps & s' & inst' & d2 & f2 & c2 & evs & E2 & I2 & N2 & G2 & Ev & Fl).
      exists ((nf, nc) :: ps), s', inst', d2, f2, c2. eexists (evs ++ _).
      cbn [rewraps]. rewrite E1, E2. split; [reflexivity|]. split; [exact I2|]. split; [exact N2|]. split; [exact G2|].
      split; [rewrite Ev, Eq; simpl; rewrite app_assoc; reflexivity|].
      rewrite rev_app_distr, filter_app, <- app_assoc, Fl. cbn [releases]. f_equal.
      destruct f as [g|]; [|destruct (cb_eq_dec (None, c) (nf, nc)); reflexivity].
      unfold same_pair. destruct (cb_eq_dec (Some g, c) (nf, nc)) as [Eq1|Ne].
      * injection Eq1 as <- <-. simpl. rewrite !Nat.eqb_refl. reflexivity.
      * destruct (onat_eqb (Some g) nf) eqn:Q1; [|reflexivity]. destruct (Nat.eqb_spec c nc) as [->|]; [|reflexivity]. apply onat_spec in Q1. congruence.
    + rewrite (Hf eq_refl) in *. 
      assert (A' : inv s own inst) by exact I.
      destruct (IH s own inst a o w d f c A' N Hin Ho Bo) as (ps & s' & inst' & d2 & f2 & c2 & evs & E2 & I2 & N2 & G2 & Ev & Fl).
      exists ps, s', inst', d2, f2, c2, evs. cbn [rewraps]. rewrite E1, E2. split; [destruct e; try discriminate; reflexivity|]. auto.
Qed.

Lemma drop_eq fuel (a : addr) : drop_object (V := V) (S fuel) (Some a) =
  bind (read (Some a)) (fun o => bind (write a (mkObj (refs o - 1) (body o))) (fun _ =>
    if (refs o - 1 <? 1)%Z then bind (log (Finalized a)) (fun _ => bind (before_drops (body o)) (fun _ => bind (each (drop_object fuel) (dropped (body o))) (fun _ => release a))) else ret tt)).
Proof. reflexivity. Qed.
Lemma drop_last (s : st) own inst a w d f c : inv s own inst -> nz s -> In (Some a) own -> get s a = Some (mkObj 1 (CVector w d f c)) ->
  exists s' evs, exec (Drop (Some a)) s = Some (RUnit, s') /\ get s' a = None /\ events s' = evs ++ events s /\ filter is_called (rev evs) = released (f, c).
Proof.
  intros I N Hin Ho. pose proof (i_wt _ _ _ I _ _ Ho) as W. simpl in W. destruct W as [Wn Wp]. destruct w as [w|]; [|congruence].
  assert (Dl : live s w) by (eapply dropped_live; eauto; simpl; auto). destruct Dl as [ow Hw]. pose proof (proj2 (Wp w eq_refl) ow Hw) as Kw.
  destruct (body ow) as [t n| | | | | | |] eqn:Bw; simpl in Kw; try contradiction.
  assert (Ne : a <> w) by (intros ->; rewrite Ho in Hw; injection Hw as <-; discriminate).
  pose proof (get_lt _ _ _ Ho) as La. pose proof (get_lt _ _ _ Hw) as Lw.
  assert (Nb : Nat.eqb a w = false) by (apply Nat.eqb_neq; exact Ne). assert (Nb' : Nat.eqb w a = false) by (apply Nat.eqb_neq; auto).
  apply Nat.ltb_lt in La, Lw.
  cbn [ObjSpec.exec]. unfold fmap, drop. change 8 with (S 7). rewrite drop_eq. unfold bind at 1. unfold bind at 1. unfold read at 1. rewrite Ho. cbn [refs body].
  unfold bind at 1. unfold write at 1. rewrite Ho. change (1 - 1)%Z with 0%Z. change (0 <? 1)%Z with true. cbv iota.
  set (s1 := set s a _).
  assert (G1 : forall b, get s1 b = if Nat.eqb a b then Some (mkObj 0 (CVector (Some w) d f c)) else get s b).
  { intros b. unfold s1. rewrite get_set. destruct (Nat.eqb_spec a b) as [<-|]; [rewrite La; reflexivity|reflexivity]. }
  unfold bind at 1. unfold log at 1. set (s2 := mkSt _ _ _ _).
  assert (B2 : exists s3, before_drops (CVector (Some w) d f c) s2 = Some (tt, s3) /\ objs s3 = objs s1 /\ events s3 = released (f, c) ++ Finalized a :: events s).
  { cbn [before_drops]. unfold bind, read. change (get s2 w) with (get s1 w). rewrite G1, Nb, Hw, Bw. destruct f as [f|]; eexists; split; try reflexivity; split; reflexivity. }
  destruct B2 as (s3 & E3 & O3 & V3). unfold bind at 1. rewrite E3. cbn [dropped each].
  assert (G3 : forall b, get s3 b = get s1 b) by (intros b; unfold get; rewrite O3; reflexivity).
  assert (B4 : exists s4 evs, drop_object 7 (Some w) s3 = Some (tt, s4) /\ get s4 a = Some (mkObj 0 (CVector (Some w) d f c)) /\ events s4 = evs ++ events s3 /\ filter is_called (rev evs) = []).
  { change 7 with (S 6). rewrite drop_eq. unfold bind at 1. unfold read at 1. rewrite G3, G1, Nb, Hw. unfold bind at 1. unfold write at 1. rewrite G3, G1, Nb, Hw.
    assert (L3 : length (objs s3) = length (objs s)) by (rewrite O3; unfold s1, set; simpl; apply length_upd).
    destruct (refs ow - 1 <? 1)%Z.
    - rewrite Bw. unfold bind, log, before_drops, dropped, each, ret, release.
      set (s4 := mkSt _ _ _ _). assert (G4 : forall b, get s4 b = if Nat.eqb w b then Some (mkObj (refs ow - 1) (CSpace t n)) else get s3 b).
      { intros b. change (get s4 b) with (get (set s3 w (Some (mkObj (refs ow - 1) (CSpace t n)))) b). rewrite get_set. destruct (Nat.eqb_spec w b) as [<-|]; [rewrite L3, Lw; reflexivity|reflexivity]. }
      rewrite G4, Nat.eqb_refl. eexists _, [Freed w; Finalized w]. split; [reflexivity|]. split; [|split; reflexivity].
      set (s5 := mkSt _ _ _ _). change (get s5 a) with (get (set s4 w None) a). rewrite get_set, Nb', G4, Nb', G3, G1, Nat.eqb_refl. reflexivity.
    - eexists _, []. split; [reflexivity|]. split; [|split; reflexivity]. rewrite get_set, Nb', G3, G1, Nat.eqb_refl. reflexivity. }
  destruct B4 as (s4 & evs & E4 & G4 & V4 & F4).
  unfold bind. rewrite E4. unfold ret at 1. unfold release. rewrite G4. cbv iota beta. unfold ret.
  eexists _, (Freed a :: evs ++ released (f, c) ++ [Finalized a]). split; [reflexivity|]. split.
  { set (s5 := mkSt _ _ _ _). change (get s5 a) with (get (set s4 a None) a). rewrite get_set, Nat.eqb_refl. destruct (a <? length (objs s4)); reflexivity. }
  split.
  - simpl. rewrite V4, V3. f_equal. rewrite <- !app_assoc. simpl. reflexivity.
  - simpl. rewrite !rev_app_distr. rewrite !filter_app, F4. simpl. rewrite app_nil_r. destruct f; reflexivity.
Qed.
End Box.
