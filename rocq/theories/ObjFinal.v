(** * Reference counting: the histories of a well-behaved client *)
From Coq Require Import List ZArith Bool Arith Lia.
From Verif Require Import Base MemModel ObjModel ObjSpec ObjProofs ObjOps ObjOps2.
Import ListNotations.

Section Final.
Context {V : Type} (zero : V) (convert : eltype -> eltype -> V -> V).
Notation st := (st V).
Notation exec := (exec zero convert).
Notation reach := (reach zero convert).
Notation later := (later zero convert).

Definition nz (s : st) : Prop := forall a o, get s a = Some o -> refs o <> 0%Z.
Record kept (T : list addr) (s s' : st) : Prop := mkKept {
  k_len : length (objs s) <= length (objs s');
  k_old : forall a o', a < length (objs s) -> get s' a = Some o' -> exists o, get s a = Some o /\ shape (body o') = shape (body o) /\ (~ In a T -> body o' = body o);
  k_drv : forall a o' r, length (objs s) <= a -> get s' a = Some o' -> ~ In a T -> body o' = CDriver r -> fresh_xg s r
}.
Lemma frame_kept T (s s' : st) : frame T s s' -> kept T s s'.
Proof. intros [A B _ _ _ C]. split; [exact A| |exact C]. intros a o' L H. destruct (B a o' L H) as (o & H1 & H2 & H3 & _). eauto. Qed.
Lemma frame_nz T (s s' : st) : frame T s s' -> nz s -> nz s'.
Proof.
  intros F N a o' H. destruct (Nat.lt_ge_cases a (length (objs s))) as [L|L].
  - destruct (f_old _ _ _ F a o' L H) as (o & Ho & _ & _ & Z). specialize (N a o Ho). tauto.
  - eapply f_new; eauto.
Qed.

Lemma arg_avail (s : st) own inst p K : inv s own inst -> arg s own p K -> avail s own p K.
Proof.
  intros I H. split.
  - intros Hn. destruct p as [a|]; [|congruence]. destruct (H a eq_refl) as [Hin _]. apply anch_in; auto.
  - intros a ->. destruct (H a eq_refl) as [Hin HK]. destruct (inv_live _ _ _ a I Hin) as (o & Ho & _). split; [eapply get_lt; eauto|exact HK].
Qed.

Definition optl (p : ptr) : list addr := match p with Some a => [a] | None => [] end.
(** The objects whose members a call can change *)
Definition targets (s : st) (c : op V) : list addr :=
  match c with
  | Rewrap _ v _ _ _ => optl v
  | Poke v _ _ => optl v
  | Slot a _ => [a]
  | DriverRewrap (Some d) _ _ => match get s d with Some o => match body o with CDriver r => optl (dr_x r) ++ optl (dr_g r) | _ => [] end | None => [] end
  | _ => []
  end.

Lemma fmap_ok {A B} (f : A -> B) (m : M V A) s Q : ok m s (fun x s' => Q (f x) s') -> ok (fmap f m) s Q.
Proof. intros H. apply ok_bind. eapply ok_mono; [exact H|]. intros x s' HQ. apply ok_ret. exact HQ. Qed.

Lemma cnt_remove p own a : In p own -> cnt own a = pc p a + cnt (remove_one p own) a.
Proof.
  induction own as [|q own IH]; [intros []|]. intros H. simpl. destruct (ptr_eq_dec p q) as [->|N]; [reflexivity|].
  destruct H as [E|H]; [congruence|]. simpl. rewrite (IH H). lia.
Qed.

Definition result_fresh (s : st) (c : op V) (r : result) : Prop :=
  match c, r with Hold p, RPtr q => q = p | _, RPtr q => fresh s q | _, _ => True end.

Definition step_post (s : st) own inst (c : op V) (r : result) (s' : st) : Prop :=
  inv s' (own_after c r own) (inst_after s c r inst) /\ nz s' /\ kept (targets s c) s s' /\ result_fresh s c r.

Lemma made_post K s s' own inst p : nz s -> made K s s' p own inst -> inv s' (p :: own) inst /\ nz s' /\ kept [] s s' /\ fresh s p.
Proof. intros N [A B C D]. split; [exact A|]. split; [eapply frame_nz; eauto|]. split; [apply frame_kept; exact B|exact C]. Qed.

Lemma inv_arrays (s : st) own inst ar : inv s own inst -> inv (mkSt (objs s) ar (mallocs s) (events s)) own inst.
Proof. intros [A B C D E F G]. split; auto. Qed.
Lemma kept_arrays (s : st) T ar : kept T s (mkSt (objs s) ar (mallocs s) (events s)).
Proof.
  split; [simpl; lia| |].
  - intros a o' L H. exists o'. auto.
  - intros a o' r L H. apply (get_lt s) in H. lia.
Qed.

Lemma value_of_bound (s : st) own inst sp type v : inv s own inst -> (forall n, space_size s sp n -> bound_arg s own n type v) ->
  anch s own sp -> pt s sp is_space -> value_ok s own sp type v.
Proof.
  intros I H Ha Hp. destruct sp as [a|]; [|destruct Ha; congruence].
  destruct (anch_live _ _ _ _ I Ha) as (o & Ho & _). destruct (Hp a eq_refl) as [_ K]. specialize (K o Ho).
  destruct (body o) as [t n| | | | | | |] eqn:B; simpl in K; try contradiction.
  assert (X : bound_arg s own n type v). { apply H. exists a, o, t. auto. }
  unfold bound_arg in X. unfold value_ok.
  assert (Q : forall i dt, (exists l, nth_error (arrays s) i = Some (dt, l) /\ Z.to_nat n <= length l) ->
    (forall a0 o0 t0 n0, Some a = Some a0 -> get s a0 = Some o0 -> body o0 = CSpace t0 n0 -> exists l, nth_error (arrays s) i = Some (dt, l) /\ Z.to_nat n0 <= length l)).
  { intros i dt Hq a0 o0 t0 n0 [= <-] E2 E3. assert (n0 = n) by congruence. subst n0. exact Hq. }
  destruct type as [|p|p]; auto.
  repeat (match goal with p : positive |- _ => destruct p end; auto); try (destruct v; auto; apply Q; exact X).
  destruct v; auto. apply (arg_avail s own inst) in X; auto. destruct X as [X1 X2]. split; [apply X1; discriminate|exact X2].
Qed.
Lemma driver_of_bound (s : st) own inst n type v : inv s own inst -> bound_arg s own n type v -> driver_value_ok s own n type v.
Proof.
  intros I X. unfold bound_arg in X. unfold driver_value_ok. destruct type as [|p|p]; auto.
  repeat (match goal with p : positive |- _ => destruct p end; auto).
  destruct v; auto. apply (arg_avail s own inst) in X; auto. destruct X as [X1 X2]. split; [apply X1; discriminate|exact X2].
Qed.

Lemma inst_rewrap (s : st) t a d f c inst o w d0 f0 c0 : get s a = Some o -> body o = CVector w d0 f0 c0 ->
  inst_after s (Rewrap t (Some a) d f c) (RStatus SUCCESS) inst = match f with Some g => if same_pair f0 f c0 c then inst else (g, c) :: inst | None => inst end.
Proof.
  intros H B. unfold inst_after. destruct f as [f|]; [|reflexivity]. rewrite H, B. unfold same_pair. destruct f0 as [f0|]; [|reflexivity]. simpl.
  destruct (Nat.eq_dec f0 f) as [->|N].
  - rewrite Nat.eqb_refl. simpl. destruct (Nat.eq_dec c0 c) as [->|N]; [rewrite Nat.eqb_refl; reflexivity|]. apply Nat.eqb_neq in N. rewrite N. reflexivity.
  - apply Nat.eqb_neq in N. rewrite N. reflexivity.
Qed.

Lemma rewrap_step (s : st) own inst t v d f c : inv s own inst -> nz s -> avail s own v is_vector ->
  ok (rewrap_vector t v d f c) s (fun e s' => inv s' own (inst_after s (Rewrap t v (Some 0) f c) (RStatus e) inst) /\ nz s' /\ kept (optl v) s s' /\
     (is_success e = true -> frame (optl v) s s') /\ (is_success e = false -> s' = s)).
Proof.
  intros I N A. eapply ok_mono; [apply (rewrap_ok s own inst t v d f c I A)|]. intros e s' [Hf Hs].
  destruct (is_success e) eqn:E.
  - destruct (Hs eq_refl) as (a & o & w & d0 & f0 & c0 & -> & Ho & Bo & I' & F' & _). destruct e; try discriminate.
    rewrite (inst_rewrap s t a (Some 0) f c inst o w d0 f0 c0 Ho Bo). simpl.
    split; [exact I'|]. split; [eapply frame_nz; eauto|]. split; [apply frame_kept; exact F'|]. split; [auto|discriminate].
  - rewrite (Hf eq_refl). split; [destruct v, f, e; try discriminate; exact I|]. split; [exact N|].
    split; [apply frame_kept; apply frame_refl|]. split; [discriminate|reflexivity].
Qed.

Lemma step_ok (s : st) own inst c : inv s own inst -> nz s -> permitted s own c -> ok (exec c) s (fun r s' => step_post s own inst c r s').
Proof.
  intros I N P.
  assert (AV : forall p K, arg s own p K -> avail s own p K) by (intros; eapply arg_avail; eauto).
  destruct c as [t n|sp|t sp d f c|t v d f c|v k x|i l|sp lt lv ut uv|valid|i o|valid mem save blmvm sp ln box|valid flags sp ln|opts t n lt lv ut uv ln|a k|d x g|p|p|p]; simpl in P; cbn [ObjSpec.exec]; apply fmap_ok.
  - eapply ok_mono; [apply (space_ok s own inst t n I)|]. intros p s' [H _]. apply (made_post _ _ _ _ _ _ N H).
  - destruct P as [Pn P]. apply AV in P. destruct P as [P1 P2]. eapply ok_mono; [apply (vcreate_ok zero s own inst sp I); auto|]. intros p s' [H _]. apply (made_post _ _ _ _ _ _ N H).
  - destruct P as [Pn P]. apply AV in P. destruct P as [P1 P2]. eapply ok_mono; [apply (wrap_ok s own inst t sp _ f c I); auto|].
    intros p s' [H _]. destruct (made_post _ _ _ _ _ _ N H) as (A & B & C & D). split; [|auto]. destruct p, f; exact A.
  - apply AV in P. eapply ok_mono; [apply (rewrap_step s own inst t v (option_map Outer d) f c I N P)|]. intros e s' (A & B & C & _).
    split; [exact A|]. split; [exact B|]. split; [exact C|exact Logic.I].
  - destruct P as [P Pd]. apply AV in P. destruct P as [P1 P2]. destruct v as [a|].
    2: { exists ILLEGAL_ADDRESS, s. split; [reflexivity|]. split; [exact I|]. split; [exact N|]. split; [apply frame_kept, frame_refl|exact Logic.I]. }
    specialize (P1 ltac:(discriminate)). destruct (anch_live _ _ _ _ I P1) as (o & Ho & Ro). destruct (P2 a eq_refl) as [_ K]. specialize (K o Ho).
    destruct (body o) as [|w d f c| | | | | |] eqn:B; simpl in K; try contradiction. specialize (Pd a o w d f c eq_refl Ho B).
    assert (W : wt s (body o)) by (eapply i_wt; eauto). rewrite B in W. destruct W as [Wn Wp].
    destruct w as [w|]; [|congruence]. destruct (Wp w eq_refl) as [Lw Kw].
    assert (Lv : live s w).
    { apply (i_edge _ _ _ I). apply get_nth in Ho. pose proof (sumof_ge (fun oo => edges_of oo w) _ _ _ Ho) as G. unfold indeg.
      unfold edges_of at 1 in G. apply Z.ltb_lt in Ro. rewrite Ro, B in G. simpl in G. rewrite Nat.eqb_refl in G. lia. }
    destruct Lv as [ow Hw]. specialize (Kw _ Hw). destruct (body ow) as [ts n| | | | | | |] eqn:Bw; simpl in Kw; try contradiction.
    unfold vpoke. apply ok_bind. eexists _, s. split; [unfold read_vector, bind, read; rewrite Ho, B; reflexivity|]. cbv iota beta.
    apply ok_bind. eexists _, s. split; [unfold read_space, bind, read; rewrite Hw, Bw; reflexivity|]. cbv iota beta.
    assert (Same : forall e, step_post s own inst (Poke (Some a) k x) (RStatus e) s).
    { intros e. split; [exact I|]. split; [exact N|]. split; [apply frame_kept, frame_refl|exact Logic.I]. }
    destruct ((k <? 0) || (n <=? k))%Z; [apply ok_ret; apply Same|].
    destruct d as [ll|i|]; [| |destruct Pd].
    + eapply ok_then.
      { apply (setc_top s own inst a o (CVector (Some w) (Inner (put_nth ll (Z.to_nat k) x)) f c) own); auto.
        - rewrite B. reflexivity.
        - split; assumption.
        - intros g e. unfold pair_of. simpl. rewrite B. reflexivity.
        - intros b. rewrite B. reflexivity. }
      intros _ s' (A & F & G). apply ok_ret. split; [exact A|]. split; [eapply frame_nz; eauto|]. split; [apply frame_kept; exact F|exact Logic.I].
    + apply ok_bind. destruct (nth_error (arrays s) i) as [[ta l]|] eqn:El; [|congruence].
      eexists _, s. split; [unfold read_array; rewrite El; reflexivity|]. cbv iota beta.
      apply ok_bind. eexists _, _. split; [reflexivity|]. apply ok_ret. split; [apply inv_arrays; exact I|]. split; [exact N|]. split; [apply kept_arrays|exact Logic.I].
  - eexists _, _. split; [reflexivity|]. split; [apply inv_arrays; exact I|]. split; [exact N|]. split; [apply kept_arrays|exact Logic.I].
  - destruct P as [P Pb]. apply AV in P. destruct P as [P1 P2].
    eapply ok_mono; [apply (boxset_ok zero convert s own inst sp lt lv ut uv I); auto|].
    + intros Hn. eapply value_of_bound; eauto. intros n Hsz. apply (Pb n Hsz).
    + intros Hn. eapply value_of_bound; eauto. intros n Hsz. apply (Pb n Hsz).
    + intros p s' [H _]. apply (made_post _ _ _ _ _ _ N H).
  - eapply ok_mono; [apply (lnsrch_ok s own inst valid I)|]. intros p s' H. apply (made_post _ _ _ _ _ _ N H).
  - destruct P as [Pi Po]. apply AV in Pi, Po. destruct Pi, Po. eapply ok_mono; [apply (operator_ok s own inst i o I); auto|]. intros p s' H'. apply (made_post _ _ _ _ _ _ N H').
  - destruct P as (P1 & P2 & P3). apply AV in P1, P2, P3. eapply ok_mono; [apply (vmlmb_ok zero s own inst); auto|]. intros p s' H'. apply (made_post _ _ _ _ _ _ N H').
  - destruct P as (P1 & P2). apply AV in P1, P2. eapply ok_mono; [apply (nlcg_ok zero s own inst); auto|]. intros p s' H'. apply (made_post _ _ _ _ _ _ N H').
  - destruct P as (P1 & P2 & P3 & P4). apply AV in P1. eapply ok_mono; [apply (driver_ok zero convert s own inst); eauto using driver_of_bound|]. intros p s' H'. apply (made_post _ _ _ _ _ _ N H').
  - destruct P as (Hin & o & r & Ho & Bo & L1 & L2). eapply ok_mono; [apply (slot_ok s own inst a o r k); auto|]. intros _ s' [A F].
    split; [exact A|]. split; [eapply frame_nz; eauto|]. split; [apply frame_kept; exact F|exact Logic.I].
  - pose proof P as Parg. apply AV in P. destruct P as [P1 P2]. destruct d as [a|].
    2: { exists false, s. split; [reflexivity|]. split; [exact I|]. split; [exact N|]. split; [apply frame_kept, frame_refl|exact Logic.I]. }
    specialize (P1 ltac:(discriminate)). destruct (anch_live _ _ _ _ I P1) as (o & Ho & Ro). destruct (P2 a eq_refl) as [_ K]. specialize (K o Ho).
    destruct (body o) as [| | | | | | |r] eqn:B; simpl in K; try discriminate.
    assert (W : wt s (body o)) by (eapply i_wt; eauto). rewrite B in W. destruct W as (W1 & W2 & W3 & W4 & W5).
    unfold step_post. cbn [targets]. rewrite Ho, B. unfold driver_rewrap.
    apply ok_bind. exists r, s. split; [unfold read_driver, bind, read; rewrite Ho, B; reflexivity|]. cbv zeta.
    set (T := optl (dr_x r) ++ optl (dr_g r)).
    assert (Pa : In (Some a) own). { apply (Parg a eq_refl). }
    assert (Av : forall s' ext p, inv s' own inst -> frame ext s s' -> (forall b, In b ext -> b <> a) -> In p [dr_x r; dr_g r] -> pt s p is_vector -> avail s' own p is_vector).
    { intros s' ext p I' F' Hne Hp Hpt. split; [|eapply pt_frame; eauto]. intros Hn. split; [exact Hn|]. right.
      destruct (inv_live _ _ _ a I' Pa) as (o' & Ho' & _). exists a, o'. split; [exact Pa|]. split; [exact Ho'|].
      destruct (f_old _ _ _ F' a o') as (o1 & H1 & _ & Bd & _); [eapply get_lt; eauto|exact Ho'|]. rewrite Bd.
      - assert (o1 = o) by congruence. subst o1. rewrite B. simpl in *. tauto.
      - intros X. apply (Hne a X). reflexivity. }
    eapply ok_then; [apply (rewrap_step s own inst); auto; apply (Av s [] (dr_x r)); simpl; auto using frame_refl|].
    intros e1 s1 (A1 & N1 & K1 & F1 & Z1).
    assert (Inst : forall t v e, inst_after s (Rewrap t v (Some 0) None 0) (RStatus e) inst = inst) by (intros ? [?|] []; reflexivity).
    rewrite Inst in A1.
    assert (Kw : forall T1 s', incl T1 T -> kept T1 s s' -> kept T s s').
    { intros T1 s' Hi [k1 k2 k3]. split; auto. - intros b o' L H. destruct (k2 b o' L H) as (o1 & X1 & X2 & X3). exists o1. split; [exact X1|]. split; [exact X2|]. intros Nb. apply X3. intros X. apply Nb, Hi, X. - intros b o' r' L H Nb. eapply k3; eauto. }
    destruct (is_success e1) eqn:E1.
    2: { apply ok_ret. rewrite (Z1 eq_refl). split; [exact I|]. split; [exact N|]. split; [apply frame_kept, frame_refl|exact Logic.I]. }
    specialize (F1 eq_refl).
    destruct g as [i|].
    2: { apply ok_ret. split; [exact A1|]. split; [exact N1|]. split; [eapply Kw; [|exact K1]; intros y; unfold T; rewrite in_app_iff; auto|exact Logic.I]. }
    assert (Hxa : forall b, In b (optl (dr_x r)) -> b <> a).
    { intros b Hb ->. destruct (dr_x r) as [xx|]; [|destruct Hb]. destruct Hb as [<-|[]]. destruct (W3 xx eq_refl) as [_ Kx]. specialize (Kx o Ho). rewrite B in Kx. exact Kx. }
    eapply ok_then; [apply (rewrap_step s1 own inst); auto; apply (Av s1 (optl (dr_x r)) (dr_g r)); simpl; auto|].
    intros e2 s2 (A2 & N2 & K2 & F2 & Z2).
    assert (Inst2 : forall t v e, inst_after s1 (Rewrap t v (Some 0) None 0) (RStatus e) inst = inst) by (intros ? [?|] []; reflexivity).
    rewrite Inst2 in A2. apply ok_ret. split; [exact A2|]. split; [exact N2|]. split; [|exact Logic.I].
    destruct (is_success e2).
    + apply frame_kept. eapply frame_trans; [eapply frame_weaken; [|exact F1]|eapply frame_weaken; [|exact (F2 eq_refl)]]; intros y; unfold T; rewrite in_app_iff; auto.
    + rewrite (Z2 eq_refl). eapply Kw; [|exact K1]. intros y; unfold T; rewrite in_app_iff; auto.
  - destruct P as [Pn Pin]. destruct p as [a|]; [|congruence].
    destruct (anch_hold s own inst a I) as (s' & E & I' & F' & _); [apply anch_in; auto|].
    exists (Some a), s'. split; [exact E|]. split; [exact I'|]. split; [eapply frame_nz; eauto|]. split; [apply frame_kept; exact F'|reflexivity].
  - assert (Dr : forall o2, inv s (p :: o2) inst -> ok (drop p) s (fun _ s' => inv s' o2 inst /\ nz s' /\ kept [] s s')).
    { intros o2 I2. eapply ok_mono; [apply (drop_top s o2 inst p I2)|]. intros _ s' (A & F & _). split; [exact A|]. split; [eapply frame_nz; eauto|apply frame_kept; exact F]. }
    eapply ok_mono; [apply (Dr (remove_one p own))|].
    + eapply inv_perm; [|exact I]. intros b. simpl. destruct (in_dec ptr_eq_dec p own) as [Hin|Hn].
      * apply cnt_remove. exact Hin.
      * destruct P as [->|P]; [|contradiction]. simpl. clear - Hn. induction own as [|q own IH]; [reflexivity|]. simpl.
        destruct q as [q|]; [|exfalso; apply Hn; left; reflexivity]. simpl. rewrite <- IH; [reflexivity|]. intros X. apply Hn. right. exact X.
    + intros _ s' (A & B & C). split; [exact A|]. split; [exact B|]. split; [exact C|exact Logic.I].
  - destruct p as [a|].
    + destruct P as [P|P]; [discriminate|]. destruct (inv_live _ _ _ a I P) as (o & Ho & _).
      exists (refs o), s. split; [unfold get_object_references, bind, read; rewrite Ho; reflexivity|]. split; [exact I|]. split; [exact N|]. split; [apply frame_kept, frame_refl|exact Logic.I].
    + exists 0%Z, s. split; [reflexivity|]. split; [exact I|]. split; [exact N|]. split; [apply frame_kept, frame_refl|exact Logic.I].
Qed.

End Final.

Section Reach.
Context {V : Type} (zero : V) (convert : eltype -> eltype -> V -> V).
Notation st := (st V).
Notation exec := (exec zero convert).
Notation reach := (reach zero convert).
Notation later := (later zero convert).

Lemma reach_inv (s : st) own inst : reach s own inst -> inv s own inst /\ nz s.
Proof.
  induction 1 as [ar ma|s own inst c r s' R [I N] P E].
  - split.
    + split; simpl; intros; try (destruct a; discriminate); try lia; try reflexivity; unfold indeg in *; simpl in *; lia.
    + intros [|a] o; discriminate.
  - destruct (step_ok zero convert s own inst c I N P) as (r' & s2 & E2 & A & B & _). rewrite E in E2. injection E2 as <- <-. auto.
Qed.

Lemma inv_pos (s : st) own inst a o : inv s own inst -> nz s -> get s a = Some o -> (0 < refs o)%Z.
Proof. intros I N H. pose proof (i_cnt _ _ _ I a o H). specialize (N a o H). lia. Qed.

Lemma cnt_occ l a : cnt l a = count_occ ptr_eq_dec l (Some a).
Proof.
  induction l as [|[b|] l IH]; cbn [cnt count_occ pc]; [reflexivity| |destruct (ptr_eq_dec None (Some a)); [discriminate|exact IH]].
  rewrite IH. destruct (Nat.eqb_spec b a) as [->|N].
  - destruct (ptr_eq_dec (Some a) (Some a)); [reflexivity|congruence].
  - destruct (ptr_eq_dec (Some b) (Some a)); [congruence|reflexivity].
Qed.

Lemma sumof_sum (g g' : option (obj V) -> nat) (l : list (option (obj V))) : (forall x, In x l -> g x = g' x) -> sumof g l = list_sum (map g' l).
Proof. induction l; simpl; intros H; [reflexivity|]. rewrite (H a), IHl; auto. Qed.

Lemma references_cnt (s : st) own inst a : inv s own inst -> nz s -> references s own a = cnt own a + indeg s a.
Proof.
  intros I N. unfold references. rewrite cnt_occ. f_equal. symmetry. apply sumof_sum. intros [o|] H; [|reflexivity].
  apply In_nth_error in H. destruct H as [b H]. apply get_nth in H. pose proof (inv_pos _ _ _ _ _ I N H) as P. unfold edges_of.
  apply Z.ltb_lt in P. rewrite P. apply cnt_occ.
Qed.
Lemma nev_occ e (p : event -> bool) l : (forall x, p x = true <-> x = e) -> nev p l = count_occ event_eq_dec l e.
Proof.
  intros H. induction l as [|x l IH]; cbn [nev count_occ]; [reflexivity|]. rewrite IH. destruct (event_eq_dec x e) as [E|E].
  - apply H in E. rewrite E. reflexivity.
  - destruct (p x) eqn:P; [apply H in P; contradiction|reflexivity].
Qed.
Lemma fin_occ (s : st) a : nev (is_fin a) (events s) = happened s (Finalized a).
Proof. apply nev_occ. intros []; simpl; split; try discriminate; rewrite ?Nat.eqb_eq; congruence. Qed.
Lemma free_occ (s : st) a : nev (is_free a) (events s) = happened s (Freed a).
Proof. apply nev_occ. intros []; simpl; split; try discriminate; rewrite ?Nat.eqb_eq; congruence. Qed.
Lemma call_occ (s : st) f c : nev (is_call f c) (events s) = happened s (Called f c).
Proof. apply nev_occ. intros []; simpl; split; try discriminate; rewrite ?andb_true_iff, ?Nat.eqb_eq; [intros [-> ->]; reflexivity|]. intros [= -> ->]. auto. Qed.
Lemma npair_occ l f c : npair l f c = count_occ pair_eq_dec l (f, c).
Proof.
  induction l as [|[g d] l IH]; cbn [npair count_occ]; [reflexivity|]. rewrite IH.
  destruct (pair_eq_dec (g, d) (f, c)) as [E|E], (Nat.eqb_spec f g), (Nat.eqb_spec c d); simpl; congruence.
Qed.
Lemma holders_installed (s : st) own inst f c : inv s own inst -> nz s -> installed s f c = holders s f c.
Proof.
  intros I N. apply sumof_sum. intros [o|] H; [|reflexivity].
  apply In_nth_error in H. destruct H as [b H]. apply get_nth in H. pose proof (inv_pos _ _ _ _ _ I N H) as P. unfold pair_of.
  apply Z.ltb_lt in P. rewrite P. destruct (body o) as [|w d [g|] e| | | | | |]; try reflexivity.
  destruct (Nat.eqb_spec f g), (Nat.eqb_spec c e), (Nat.eq_dec g f), (Nat.eq_dec e c); simpl; congruence.
Qed.

(** What is referenced by an object is live *)
Lemma dropped_live (s : st) own inst b o a : inv s own inst -> nz s -> get s b = Some o -> In (Some a) (dropped (body o)) -> live s a.
Proof.
  intros I N H D. apply (i_edge _ _ _ I). pose proof (inv_pos _ _ _ _ _ I N H) as P. apply get_nth in H.
  pose proof (sumof_ge (fun oo => edges_of oo a) _ _ _ H) as G. unfold indeg. unfold edges_of at 1 in G. apply Z.ltb_lt in P. rewrite P in G.
  apply cnt_in in D. lia.
Qed.
Lemma member_dropped (s : st) (c : content V) a : wt s c -> In (Some a) (all_members c) -> In (Some a) (dropped c).
Proof.
  destruct c as [| |sp lo up| | |r|r|r]; simpl; auto.
  - intros _. rewrite !in_app_iff. simpl. destruct lo, up; simpl; tauto.
  - intros (_ & _ & _ & _ & _ & _ & _ & _ & _ & _ & W). rewrite !in_app_iff. destruct (vm_save_memory r).
    + destruct (W eq_refl) as [Wx Wg]. simpl. rewrite !in_app_iff.
      assert (X1 : vm_x0 r = Some a -> In (Some a) (vm_s r)) by (intros X; rewrite X in Wx; destruct Wx; [discriminate|assumption]).
      assert (X2 : vm_g0 r = Some a -> In (Some a) (vm_y r)) by (intros X; rewrite X in Wg; destruct Wg; [discriminate|assumption]).
      tauto.
    + simpl. rewrite !in_app_iff. tauto.
Qed.
Lemma referrer (s : st) own inst a o : inv s own inst -> nz s -> get s a = Some o ->
  In (Some a) own \/ exists b ob, get s b = Some ob /\ In (Some a) (dropped (body ob)) /\ krank (shape (body o)) < krank (shape (body ob)).
Proof.
  intros I N H. pose proof (inv_pos _ _ _ _ _ I N H) as P. rewrite (i_cnt _ _ _ I a o H) in P.
  destruct (Nat.eq_dec (cnt own a) 0) as [Z|Z]; [right|left; apply cnt_in; lia].
  destruct (sumof_pos (fun oo => edges_of oo a) (objs s)) as (b & [ob|] & E & G); [unfold indeg in P; lia| |simpl in G; lia].
  exists b, ob. apply get_nth in E. split; [exact E|]. unfold edges_of in G. destruct (0 <? refs ob)%Z; [|lia]. apply cnt_in in G. split; [exact G|].
  eapply wt_rank; eauto. eapply i_wt; eauto.
Qed.
Lemma rank_max (k : kind) : krank k <= 4. Proof. destruct k; simpl; lia. Qed.

(** A property of the objects which are referenced by the client and inherited through the references holds of every object. *)
Lemma down (s : st) own inst (P : addr -> Prop) : inv s own inst -> nz s -> (forall a, In (Some a) own -> P a) ->
  (forall b ob a, get s b = Some ob -> P b -> In (Some a) (dropped (body ob)) -> P a) -> forall a o, get s a = Some o -> P a.
Proof.
  intros I N Ho Hs. assert (H : forall k a o, get s a = Some o -> 4 - krank (shape (body o)) <= k -> P a).
  { induction k as [|k IH]; intros a o H L; destruct (referrer s own inst a o I N H) as [Hin|(b & ob & Hb & Hd & Hr)]; auto; pose proof (rank_max (shape (body ob))).
    - lia.
    - apply (Hs b ob a Hb); auto. apply (IH b ob Hb). lia. }
  intros a o Hg. exact (H _ a o Hg (le_n _)).
Qed.

Lemma no_object (s : st) own inst : inv s own inst -> nz s -> (forall a, ~ In (Some a) own) -> forall a, get s a = None.
Proof.
  intros I N H a. destruct (get s a) as [o|] eqn:E; [|reflexivity]. exfalso.
  apply (down s own inst (fun _ => False) I N) with (a := a) (o := o); auto.
Qed.

Lemma sumof_nil (g : option (obj V) -> nat) l : g None = 0 -> (forall a, nth_error l a = None \/ nth_error l a = Some None) -> sumof g l = 0.
Proof.
  intros Z H. apply sumof_zero. intros x Hx. apply In_nth_error in Hx. destruct Hx as [n Hx]. destruct (H n) as [E|E]; rewrite E in Hx; congruence.
Qed.
Lemma sumof_ext (g : option (obj V) -> nat) : g None = 0 -> forall l l' : list (option (obj V)),
  (forall a, match nth_error l a with Some x => g x | None => 0 end = match nth_error l' a with Some x => g x | None => 0 end) -> sumof g l = sumof g l'.
Proof.
  intros Z. induction l as [|x l IH]; intros l' H.
  - symmetry. apply sumof_zero. intros y Hy. apply In_nth_error in Hy. destruct Hy as [n Hy]. specialize (H n). rewrite Hy in H. destruct n; simpl in H; auto.
  - destruct l' as [|y l'].
    + apply sumof_zero. intros z Hz. apply In_nth_error in Hz. destruct Hz as [n Hz]. specialize (H n). rewrite Hz in H. destruct n; simpl in H; auto.
    + simpl. pose proof (H 0) as H0. simpl in H0. rewrite H0. f_equal. apply IH. intros a. apply (H (S a)).
Qed.

(** When the client owns the same references after a call which changes the members of no object, nothing changed. *)
Lemma same_heap (s s' : st) own inst inst' : inv s own inst -> nz s -> inv s' own inst' -> nz s' -> kept [] s s' -> forall a, get s' a = get s a.
Proof.
  intros I N I' N' K.
  assert (Lo : forall a o, get s' a = Some o -> a < length (objs s)).
  { apply (down s' own inst' (fun a => a < length (objs s)) I' N').
    - intros a H. destruct (inv_live _ _ _ _ I H) as (o & Ho & _). eapply get_lt; eauto.
    - intros b ob a Hb L D. destruct (k_old _ _ _ K b ob L Hb) as (o & Ho & _ & B). rewrite B in D by auto.
      destruct (dropped_live _ _ _ _ _ _ I N Ho D) as [oa Ha]. eapply get_lt; eauto. }
  assert (Li : forall a o, get s a = Some o -> exists o', get s' a = Some o').
  { apply (down s own inst (fun a => exists o', get s' a = Some o') I N).
    - intros a H. destruct (inv_live _ _ _ _ I' H) as (o & Ho & _). eauto.
    - intros b ob a Hb [ob' Hb'] D. destruct (k_old _ _ _ K b ob' (get_lt _ _ _ Hb) Hb') as (o & Ho & _ & B).
      assert (o = ob) by congruence. subst o. rewrite <- B in D by auto. exact (dropped_live _ _ _ _ _ _ I' N' Hb' D). }
  assert (Bd : forall a, option_map body (get s' a) = option_map body (get s a)).
  { intros a. destruct (get s' a) as [o'|] eqn:E'.
    - destruct (k_old _ _ _ K a o' (Lo _ _ E') E') as (o & Ho & _ & B). rewrite Ho. simpl. rewrite B; auto.
    - destruct (get s a) as [o|] eqn:E; [|reflexivity]. destruct (Li _ _ E) as [o' E2]. congruence. }
  assert (In : forall a, indeg s' a = indeg s a).
  { intros a. apply (sumof_ext (fun oo => edges_of oo a)); [reflexivity|]. intros b. specialize (Bd b).
    assert (X : forall (s : st), match nth_error (objs s) b with Some x => edges_of x a | None => 0 end = edges_of (get s b) a) by (intros s0; unfold get; destruct (nth_error (objs s0) b); reflexivity).
    rewrite !X. destruct (get s' b) as [o'|] eqn:E', (get s b) as [o|] eqn:E; simpl in Bd; try discriminate; [|reflexivity].
    injection Bd as Bd. pose proof (inv_pos _ _ _ _ _ I N E) as P. pose proof (inv_pos _ _ _ _ _ I' N' E') as P'.
    unfold edges_of. apply Z.ltb_lt in P, P'. rewrite P, P', Bd. reflexivity. }
  intros a. specialize (Bd a). destruct (get s' a) as [o'|] eqn:E', (get s a) as [o|] eqn:E; simpl in Bd; try discriminate; [|reflexivity].
  injection Bd as Bd. pose proof (i_cnt _ _ _ I _ _ E) as C. pose proof (i_cnt _ _ _ I' _ _ E') as C'. rewrite In in C'.
  destruct o as [ro bo], o' as [ro' bo']. simpl in *. congruence.
Qed.

(** ** Objects which no later call can change *)
Lemma target_kind (s : st) own inst c a o : inv s own inst -> nz s -> permitted s own c -> In a (targets s c) -> get s a = Some o ->
  match c with Slot _ _ => shape (body o) = KVm | _ => is_vector (shape (body o)) end.
Proof.
  intros I N P T H. destruct c as [t n|sp|t sp d f c|t v d f c|v k x|i l|sp lt lv ut uv|valid|i o0|valid mem save blmvm sp ln box|valid flags sp ln|opts t n lt lv ut uv ln|v k|d x g|p|p|p];
    simpl in T; try contradiction.
  - destruct v as [v|]; [|destruct T]. destruct T as [<-|[]]. simpl in P. destruct (P v eq_refl) as [_ K]. exact (K o H).
  - destruct v as [v|]; [|destruct T]. destruct T as [<-|[]]. simpl in P. destruct P as [P _]. destruct (P v eq_refl) as [_ K]. exact (K o H).
  - destruct T as [<-|[]]. destruct P as (_ & o1 & r & H1 & B & _). assert (o1 = o) by congruence. subst o1. rewrite B. reflexivity.
  - destruct d as [d|]; [|destruct T]. destruct (get s d) as [od|] eqn:E; [|destruct T]. destruct (body od) as [| | | | | | |r] eqn:B; try contradiction.
    assert (W : wt s (body od)) by (eapply i_wt; eauto). rewrite B in W. destruct W as (_ & _ & W3 & W4 & _).
    apply in_app_iff in T. destruct T as [T|T]; [destruct (dr_x r) as [y|]; [|destruct T]|destruct (dr_g r) as [y|]; [|destruct T]]; destruct T as [<-|[]].
    + destruct (W3 y eq_refl) as [_ K]. exact (K o H).
    + destruct (W4 y eq_refl) as [_ K]. exact (K o H).
Qed.
Lemma target_lt (s : st) own inst c a : inv s own inst -> nz s -> permitted s own c -> In a (targets s c) -> a < length (objs s).
Proof.
  intros I N P T. destruct c as [t n|sp|t sp d f c|t v d f c|v k x|i l|sp lt lv ut uv|valid|i o0|valid mem save blmvm sp ln box|valid flags sp ln|opts t n lt lv ut uv ln|v k|d x g|p|p|p];
    simpl in T; try contradiction.
  - destruct v as [v|]; [|destruct T]. destruct T as [<-|[]]. simpl in P. destruct (P v eq_refl) as [K _]. destruct (inv_live _ _ _ _ I K) as (o & Ho & _). eapply get_lt; eauto.
  - destruct v as [v|]; [|destruct T]. destruct T as [<-|[]]. simpl in P. destruct P as [P _]. destruct (P v eq_refl) as [K _]. destruct (inv_live _ _ _ _ I K) as (o & Ho & _). eapply get_lt; eauto.
  - destruct T as [<-|[]]. destruct P as (K & _). destruct (inv_live _ _ _ _ I K) as (o & Ho & _). eapply get_lt; eauto.
  - destruct d as [d|]; [|destruct T]. destruct (get s d) as [od|] eqn:E; [|destruct T]. destruct (body od) as [| | | | | | |r] eqn:B; try contradiction.
    assert (W : wt s (body od)) by (eapply i_wt; eauto). rewrite B in W. destruct W as (_ & _ & W3 & W4 & _).
    apply in_app_iff in T. destruct T as [T|T]; [destruct (dr_x r) as [y|]; [|destruct T]|destruct (dr_g r) as [y|]; [|destruct T]]; destruct T as [<-|[]].
    + apply (W3 y eq_refl).
    + apply (W4 y eq_refl).
Qed.

(** [v] belongs neither to the client nor to a driver *)
Definition hidden (s : st) (own : list ptr) (v : addr) : Prop :=
  v < length (objs s) /\ ~ In (Some v) own /\ forall a o r, get s a = Some o -> body o = CDriver r -> dr_x r <> Some v /\ dr_g r <> Some v.
(** [v] is hidden or is not a vector or an optimizer *)
Definition fixed (s : st) (own : list ptr) (v : addr) (c : content V) : Prop :=
  v < length (objs s) /\ (hidden s own v \/ (~ is_vector (shape c) /\ shape c <> KVm)) /\ shape c <> KVm /\ forall o, get s v = Some o -> body o = c.

Lemma own_fresh (c : op V) r own (s : st) v : result_fresh s c r -> v < length (objs s) -> permitted s own c -> In (Some v) (own_after c r own) -> In (Some v) own.
Proof.
  intros F L P H. destruct c; simpl in H; try (destruct r as [q| | | |]; auto; destruct H as [->|H]; auto; simpl in F; specialize (F v eq_refl); lia).
  - destruct r as [q| | | |]; auto. destruct H as [->|H]; auto. simpl in F. subst p. apply P.
  - assert (X : In (Some v) (remove_one p own)) by (destruct r; exact H). clear -X. revert X. induction own as [|q own IH]; [auto|]. simpl. destruct (ptr_eq_dec p q) as [->|]; [auto|]. intros [X|X]; auto.
Qed.

Lemma fixed_step (s : st) own inst c r s' v C : inv s own inst -> nz s -> permitted s own c -> exec c s = Some (r, s') ->
  fixed s own v C -> fixed s' (own_after c r own) v C.
Proof.
  intros I N P E (L & Hv & Hm & Hb).
  destruct (step_ok zero convert s own inst c I N P) as (r' & s2 & E2 & A & B & K & Rf). rewrite E in E2. injection E2 as <- <-.
  assert (Lv : v < length (objs s')) by (pose proof (k_len _ _ _ K); lia).
  assert (NT : ~ (In v (targets s c) /\ live s v)).
  { intros [T [o Ho]]. pose proof (target_kind _ _ _ _ _ _ I N P T Ho) as TK. rewrite (Hb o Ho) in TK.
    assert (TV : is_vector (shape C)) by (destruct c; auto; contradiction).
    destruct Hv as [(_ & Hown & Hd)|[Hn _]]; [|contradiction].
    destruct c as [t n|sp|t sp d f c|t v0 d f c|v0 k x|i l|sp lt lv ut uv|valid|i o0|valid mem save blmvm sp ln box|valid flags sp ln|opts t n lt lv ut uv ln|v0 k|d x g|p|p|p];
      simpl in T; try contradiction.
    - destruct v0 as [v0|]; [|destruct T]. destruct T as [<-|[]]. apply Hown. apply (P v0 eq_refl).
    - destruct v0 as [v0|]; [|destruct T]. destruct T as [<-|[]]. apply Hown. destruct P as [P _]. apply (P v0 eq_refl).
    - destruct d as [d|]; [|destruct T]. destruct (get s d) as [od|] eqn:Ed; [|destruct T]. destruct (body od) as [| | | | | | |rd] eqn:Bd; try contradiction.
      destruct (Hd d od rd Ed Bd) as [X Y]. apply in_app_iff in T.
      destruct T as [T|T]; [destruct (dr_x rd) as [y|]; [|destruct T]|destruct (dr_g rd) as [y|]; [|destruct T]]; destruct T as [<-|[]]; congruence. }
  split; [exact Lv|]. split; [|split; [exact Hm|]].
  - destruct Hv as [(_ & Hown & Hd)|Hn]; [left|right; exact Hn]. split; [exact Lv|]. split.
    + intros X. apply Hown. exact (own_fresh c r own s v Rf L P X).
    + intros a o rd Ho Bo. destruct (Nat.lt_ge_cases a (length (objs s))) as [La|La].
      * destruct (k_old _ _ _ K a o La Ho) as (o1 & Ho1 & Sh & Bd). rewrite Bo in Sh. simpl in Sh.
        assert (~ In a (targets s c)).
        { intros T. pose proof (target_kind _ _ _ _ _ _ I N P T Ho1) as TK. rewrite <- Sh in TK. destruct c; simpl in TK; auto; discriminate. }
        rewrite Bd in Bo by auto. exact (Hd a o1 rd Ho1 Bo).
      * assert (~ In a (targets s c)) by (intros T; pose proof (target_lt _ _ _ _ _ I N P T); lia).
        destruct (k_drv _ _ _ K a o rd La Ho) as [X Y]; auto. split; intros Z; [specialize (X v Z)|specialize (Y v Z)]; lia.
  - intros o Ho. destruct (k_old _ _ _ K v o L Ho) as (o1 & Ho1 & _ & Bd). rewrite Bd; [exact (Hb o1 Ho1)|]. intros T. apply NT. split; [exact T|]. exists o1. exact Ho1.
Qed.

Lemma later_inv (s : st) own s' own' inst : later s own s' own' -> inv s own inst -> nz s -> exists inst', inv s' own' inst' /\ nz s'.
Proof.
  intros L I N. induction L as [|s own s1 own1 c r s2 L IH P E]; [eauto|]. destruct (IH I N) as (i1 & I1 & N1).
  destruct (step_ok zero convert s1 own1 i1 c I1 N1 P) as (r' & s3 & E2 & A & B & _). rewrite E in E2. injection E2 as <- <-. eauto.
Qed.
Lemma fixed_later (s : st) own s' own' inst v C : later s own s' own' -> inv s own inst -> nz s -> fixed s own v C -> fixed s' own' v C.
Proof.
  intros L I N. induction L as [|s own s1 own1 c r s2 L IH P E]; [auto|]. intros H.
  destruct (later_inv _ _ _ _ _ L I N) as (i1 & I1 & N1). eapply fixed_step; eauto.
Qed.
End Reach.
