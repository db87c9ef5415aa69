(** * Bound constraints: proofs about the list level kernels *)
From Coq Require Import List ZArith Bool Reals Lra Lia.
From Flocq Require Import Core.
From Verif Require Import Num NumFacts OrdFacts VecModel ListFacts BoxSpec.
Import ListNotations.

Ltac kill O :=
  repeat match goal with
  | H : Some _ = Some _ |- _ => injection H as H; subst
  | H : Some _ = None |- _ => discriminate H
  | H : None = Some _ |- _ => discriminate H
  | H : forall a, Some ?x = Some a -> _ |- _ => specialize (H x eq_refl)
  | H : forall a, None = Some a -> _ |- _ => clear H
  | H : _ /\ _ |- _ => destruct H
  end; auto;
  unfold is_num in *; keys O;
  repeat match goal with
  | H : context [match key O ?v with _ => _ end] |- _ => destruct (key O v) eqn:?; try discriminate
  | |- context [match key O ?v with _ => _ end] => destruct (key O v) eqn:?; try discriminate
  end; try solve [rbool].

Ltac fin5 O :=
  repeat match goal with
  | H : forall a, Some ?x = Some a -> _ |- _ => specialize (H x eq_refl)
  | H : forall a, None = Some a -> _ |- _ => clear H
  | H : _ /\ _ |- _ => destruct H
  end;
  unfold is_num in *; keys O;
  repeat match goal with
  | H : context [match key O ?v with _ => _ end] |- _ => destruct (key O v) eqn:?; try discriminate
  | |- context [match key O ?v with _ => _ end] => destruct (key O v) eqn:?; try discriminate
  end;
  repeat match goal with
  | H : Rle_bool _ _ = true |- _ => apply Rle_bool_true_iff in H
  | H : Rlt_bool _ _ = true |- _ => apply Rlt_bool_true_iff in H
  | H : Rlt_bool _ _ = false |- _ => apply Rlt_bool_false_iff in H
  end;
  rewrite ?Rle_bool_true_iff;
  match goal with
  | |- (?a <= ?b)%R /\ _ \/ _ => destruct (Rle_lt_dec a b)
  end; lra.

Section Box.
Context {D E : Num} (c : Cast D E).
Notation bound := (bound D E).

(** The list of bounds. *)
Definition blist (n : nat) (b : bound) : list (option E) :=
  match b with BNone => repeat None n | BScalar a => repeat (Some (dn c a)) n | BVector l => map Some l end.

Lemma blist_length n b : bound_size n b -> length (blist n b) = n.
Proof. destruct b; simpl; rewrite ?repeat_length, ?map_length; auto. Qed.

Lemma blist_nth n b i : bound_size n b -> i < n -> nth_error (blist n b) i = Some (bound_at c b i).
Proof.
  destruct b as [|a|l]; simpl; intros Hs Hi; try (apply nth_error_repeat; exact Hi).
  rewrite nth_error_map. destruct (nth_error_Some_ex l i) as [z Hz]; [lia|]. rewrite Hz. reflexivity.
Qed.

(** One component, by cases on the presence of the bounds. *)
Definition clip_opt (lo hi : option E) (t : E) : E :=
  let t := match lo with Some a => clip_lo a t | None => t end in
  match hi with Some b => clip_hi b t | None => t end.

Definition dir_opt (desc : bool) (lo hi : option E) (xi di : E) : E :=
  match lo, hi with
  | None, None => di
  | Some a, None => dir_lower desc a xi di
  | None, Some b => dir_upper desc b xi di
  | Some a, Some b => dir_boxed desc a b xi di
  end.

Definition free_opt (desc : bool) (lo hi : option E) (xi di : E) : E :=
  match lo, hi with
  | None, None => nZ 1
  | Some a, None => free_lower desc a xi di
  | None, Some b => free_upper desc b xi di
  | Some a, Some b => free_boxed desc a b xi di
  end.

Ltac nthcases x i :=
  let t := fresh "t" in destruct (nth_error x i) as [t|] eqn:?; cbn [option_map]; auto.

Lemma bvec_nth n l i (x : list E) t :
  bound_size (length x) (BVector l : bound) -> nth_error x i = Some t -> n = length x ->
  exists z, nth_error l i = Some z.
Proof. simpl. intros Hs Ht Hn. apply nth_error_Some_ex. apply nth_error_lt in Ht. lia. Qed.

Lemma projvar_nth lo hi x i :
  bound_size (length x) lo -> bound_size (length x) hi ->
  nth_error (k_boxprojvar c lo hi x) i = option_map (clip_opt (bound_at c lo i) (bound_at c hi i)) (nth_error x i).
Proof.
  intros Hlo Hhi.
  assert (Q : forall l : list E, length l = length x -> nth_error x i <> None -> exists z, nth_error l i = Some z).
  { intros l Hl Hi. apply nth_error_Some_ex. apply nth_error_Some in Hi. lia. }
  destruct lo as [|a|xl], hi as [|b|xu]; simpl in *;
    rewrite ?nth_error_map, ?map2_nth_error, ?map3_nth_error; unfold clip_opt, clip;
    destruct (nth_error x i) as [t|] eqn:Ht; simpl; auto;
    try (destruct (Q xl Hlo) as [z Hz]; [discriminate|]; rewrite Hz);
    try (destruct (Q xu Hhi) as [z' Hz']; [discriminate|]; rewrite Hz'); auto;
    repeat match goal with |- context [match nth_error ?l i with _ => _ end] => destruct (nth_error l i) end; auto.
Qed.

Lemma projdir_nth desc lo hi x d i :
  length d = length x -> bound_size (length x) lo -> bound_size (length x) hi ->
  nth_error (k_boxprojdir c desc lo hi x d) i =
  match nth_error x i, nth_error d i with
  | Some xi, Some di => Some (dir_opt desc (bound_at c lo i) (bound_at c hi i) xi di)
  | _, _ => None
  end.
Proof.
  intros Hd Hlo Hhi.
  assert (Q : forall l : list E, length l = length x -> (exists z, nth_error l i = Some z) <-> (exists z, nth_error x i = Some z)).
  { intros l Hl. split; intros [z Hz]; apply nth_error_lt in Hz; apply nth_error_Some_ex; lia. }
  assert (Qd := Q d Hd).
  destruct lo as [|a|xl], hi as [|b|xu]; simpl in *;
    try (assert (Ql := Q xl Hlo)); try (assert (Qu := Q xu Hhi));
    rewrite ?nth_error_map, ?map2_nth_error, ?map3_nth_error, ?combine_nth_error; unfold dir_opt;
    try (destruct (nth_error xl i) as [zl|] eqn:?); try (destruct (nth_error xu i) as [zu|] eqn:?);
    destruct (nth_error x i) as [xi|] eqn:?, (nth_error d i) as [di|] eqn:?; auto;
    exfalso; first
      [ destruct Qd as [Qd1 Qd2]; first [destruct Qd1; eauto; discriminate | destruct Qd2; eauto; discriminate]
      | destruct Ql as [Qd1 Qd2]; first [destruct Qd1; eauto; discriminate | destruct Qd2; eauto; discriminate]
      | destruct Qu as [Qd1 Qd2]; first [destruct Qd1; eauto; discriminate | destruct Qd2; eauto; discriminate]].
Qed.

Lemma freevar_nth desc lo hi x d i :
  length d = length x -> bound_size (length x) lo -> bound_size (length x) hi ->
  nth_error (k_boxfreevar c desc lo hi x d) i =
  match nth_error x i, nth_error d i with
  | Some xi, Some di => Some (free_opt desc (bound_at c lo i) (bound_at c hi i) xi di)
  | _, _ => None
  end.
Proof.
  intros Hd Hlo Hhi.
  assert (Q : forall l : list E, length l = length x -> (exists z, nth_error l i = Some z) <-> (exists z, nth_error x i = Some z)).
  { intros l Hl. split; intros [z Hz]; apply nth_error_lt in Hz; apply nth_error_Some_ex; lia. }
  assert (Qd := Q d Hd).
  destruct lo as [|a|xl], hi as [|b|xu]; simpl in *;
    try (assert (Ql := Q xl Hlo)); try (assert (Qu := Q xu Hhi));
    rewrite ?nth_error_map, ?map2_nth_error, ?map3_nth_error, ?combine_nth_error; unfold free_opt;
    try (destruct (nth_error xl i) as [zl|] eqn:?); try (destruct (nth_error xu i) as [zu|] eqn:?);
    destruct (nth_error x i) as [xi|] eqn:?, (nth_error d i) as [di|] eqn:?; auto;
    exfalso; first
      [ destruct Qd as [Qd1 Qd2]; first [destruct Qd1; eauto; discriminate | destruct Qd2; eauto; discriminate]
      | destruct Ql as [Qd1 Qd2]; first [destruct Qd1; eauto; discriminate | destruct Qd2; eauto; discriminate]
      | destruct Qu as [Qd1 Qd2]; first [destruct Qd1; eauto; discriminate | destruct Qd2; eauto; discriminate]].
Qed.

Lemma projvar_length lo hi x :
  bound_size (length x) lo -> bound_size (length x) hi -> length (k_boxprojvar c lo hi x) = length x.
Proof.
  intros Hlo Hhi. destruct lo, hi; simpl in *; rewrite ?map_length; auto;
    first [apply map3_length; auto | apply map2_length; auto].
Qed.

Lemma projdir_length desc lo hi x d :
  length d = length x -> bound_size (length x) lo -> bound_size (length x) hi ->
  length (k_boxprojdir c desc lo hi x d) = length x.
Proof.
  intros Hd Hlo Hhi. destruct lo, hi; simpl in *; rewrite ?map_length; auto;
    first [apply map3_length; auto; rewrite combine_length; lia | apply map2_length; auto].
Qed.

Lemma freevar_length desc lo hi x d :
  length d = length x -> bound_size (length x) lo -> bound_size (length x) hi ->
  length (k_boxfreevar c desc lo hi x d) = length x.
Proof.
  intros Hd Hlo Hhi. destruct lo, hi; simpl in *; rewrite ?map_length; auto;
    first [apply map3_length; auto; rewrite combine_length; lia | apply map2_length; auto].
Qed.

(** ** Projection of the variables, with IEEE comparisons *)
Context (O : OrdLaws E).
Local Open Scope num_scope.

Lemma clip_opt_spec lo hi (t : E) :
  is_num t ->
  (forall a, lo = Some a -> is_num a) -> (forall b, hi = Some b -> is_num b) ->
  (forall a b, lo = Some a -> hi = Some b -> (a <=? b) = true) ->
  let p := clip_opt lo hi t in
  let ins z := (forall a, lo = Some a -> (a <=? z) = true) /\ (forall b, hi = Some b -> (z <=? b) = true) in
  ins p /\ (ins t -> p = t) /\
  (forall a, lo = Some a -> (t <? a) = true -> p = a) /\
  (forall b, hi = Some b -> (t >? b) = true -> p = b) /\
  (forall z, is_num z -> ins z -> ((t <=? p) = true /\ (p <=? z) = true) \/ ((z <=? p) = true /\ (p <=? t) = true)).
Proof.
  unfold is_num, clip_opt, clip_lo, clip_hi.
  intros Ht Hlo Hhi Hlh.
  destruct lo as [a|], hi as [b|]; cbv zeta;
    try (specialize (Hlh a b eq_refl eq_refl)); try (specialize (Hlo a eq_refl)); try (specialize (Hhi b eq_refl));
    try (destruct (t <? a) eqn:Ta);
    try (match goal with |- context [?z >? b] => destruct (z >? b) eqn:Tb end);
    (split; [split; intros z Hz; kill O
            |split; [intros Hc; kill O
                    |split; [intros z Hz Hc; kill O
                            |split; [intros z Hz Hc; kill O|intros z Hz Hc; fin5 O]]]]).
Qed.

Lemma project_variables_spec lo hi (x : list E) :
  good_box c (length x) lo hi -> (forall i xi, nth_error x i = Some xi -> is_num xi) ->
  let p := k_boxprojvar c lo hi x in
  length p = length x /\ feasible c lo hi p /\ k_boxprojvar c lo hi p = p /\
  forall i xi pi, nth_error x i = Some xi -> nth_error p i = Some pi ->
    (inside c lo hi i xi -> pi = xi) /\
    (forall a, bound_at c lo i = Some a -> (xi <? a) = true -> pi = a) /\
    (forall b, bound_at c hi i = Some b -> (xi >? b) = true -> pi = b) /\
    (forall z, is_num z -> inside c lo hi i z ->
       ((xi <=? pi) = true /\ (pi <=? z) = true) \/ ((z <=? pi) = true /\ (pi <=? xi) = true)).
Proof.
  intros (Slo & Shi & Nlo & Nhi & Hle) Hx p.
  assert (L : length p = length x) by (apply projvar_length; auto).
  assert (P : forall i xi, nth_error x i = Some xi ->
     nth_error p i = Some (clip_opt (bound_at c lo i) (bound_at c hi i) xi)).
  { intros i xi Hi. unfold p. rewrite projvar_nth by auto. rewrite Hi. reflexivity. }
  pose proof (fun i xi Hi => clip_opt_spec (bound_at c lo i) (bound_at c hi i) xi (Hx i xi Hi) (Nlo i) (Nhi i)
                        (fun a b => Hle i a b (nth_error_lt x i xi Hi))) as S.
  cbv zeta in S.
  assert (F : feasible c lo hi p).
  { intros i pi Hp. destruct (nth_error_Some_ex x i) as [xi Hi]. { apply nth_error_lt in Hp. lia. }
    rewrite (P i xi Hi) in Hp. injection Hp as <-. apply (S i xi Hi). }
  split; [exact L|]. split; [exact F|]. split.
  - apply list_eq_nth_error. intros i.
    rewrite projvar_nth by (rewrite L; auto).
    destruct (nth_error p i) as [pi|] eqn:Hp; [|reflexivity]. simpl. f_equal.
    destruct (nth_error_Some_ex x i) as [xi Hi]. { apply nth_error_lt in Hp. lia. }
    assert (Np : is_num pi).
    { rewrite (P i xi Hi) in Hp. injection Hp as <-. destruct (S i xi Hi) as (_ & _ & _ & _ & Hb).
      unfold clip_opt, clip_lo, clip_hi.
      assert (Hxi := Hx i xi Hi). assert (Nl := Nlo i). assert (Nh := Nhi i).
      destruct (bound_at c lo i) as [a|], (bound_at c hi i) as [b|]; auto;
      repeat match goal with |- context [if ?q then _ else _] => destruct q end; auto. }
    destruct (clip_opt_spec (bound_at c lo i) (bound_at c hi i) pi Np (Nlo i) (Nhi i)
                (fun a b => Hle i a b (nth_error_lt x i xi Hi))) as (_ & Hid & _).
    apply Hid. apply F in Hp. exact Hp.
  - intros i xi pi Hi Hp. rewrite (P i xi Hi) in Hp. injection Hp as <-.
    destruct (S i xi Hi) as (_ & H1 & H2 & H3 & H4). split; [|split; [|split]]; auto.
Qed.

Lemma projvar_is_projection lo hi (x : list E) :
  good_box c (length x) lo hi -> (forall i xi, nth_error x i = Some xi -> is_num xi) ->
  is_projection c lo hi x (k_boxprojvar c lo hi x).
Proof.
  intros Hg Hx. destruct (project_variables_spec lo hi x Hg Hx) as (L & F & _ & S).
  split; [exact L|]. intros i xi pi Hi Hp. destruct (S i xi pi Hi Hp) as (S1 & S2 & S3 & _).
  split; [apply F; exact Hp|]. split; [|split]; auto.
Qed.

(** ** Projection of the direction, free variables *)

Lemma dir_opt_spec (desc : bool) lo hi (xi di : E) :
  is_num (nZ 0 : E) -> is_num xi -> is_num di ->
  (forall a, lo = Some a -> is_num a) -> (forall b, hi = Some b -> is_num b) ->
  let dn := if desc then di <? nZ 0 else di >? nZ 0 in   (* the variable decreases *)
  let inc := if desc then di >? nZ 0 else di <? nZ 0 in
  let leaves := (dn = true /\ exists a, lo = Some a /\ (xi <=? a) = true)
             \/ (inc = true /\ exists b, hi = Some b /\ (b <=? xi) = true) in
  (leaves -> dir_opt desc lo hi xi di = nZ 0) /\
  (~ leaves -> dir_opt desc lo hi xi di = di \/ ((di =? nZ 0) = true /\ dir_opt desc lo hi xi di = nZ 0)).
Proof.
  unfold dir_opt, dir_lower, dir_upper, dir_boxed. cbv zeta. intros N0 Nx Nd Nlo Nhi.
  unfold is_num in *.
  destruct lo as [a|], hi as [b|]; try specialize (Nlo a eq_refl); try specialize (Nhi b eq_refl);
    (split; [intros [[Hd (e & He & Hl)]|[Hd (e & He & Hl)]]; try discriminate; injection He as <-|intros Hn]).
  all: try (left; reflexivity).
  all: destruct desc.
  all: keys O.
  all: destruct (key O (nZ 0)) as [k0|] eqn:K0; [|discriminate].
  all: destruct (key O xi) as [kx|] eqn:Kx; [|discriminate].
  all: destruct (key O di) as [kd|] eqn:Kd; [|discriminate].
  all: try (destruct (key O a) as [ka|] eqn:Ka; [|discriminate]).
  all: try (destruct (key O b) as [kb|] eqn:Kb; [|discriminate]).
  all: repeat match goal with
    | |- context [Rlt_bool ?u ?v] => destruct (Rlt_bool_spec u v)
    | |- context [Rle_bool ?u ?v] => destruct (Rle_bool_spec u v)
    | H : Rle_bool _ _ = true |- _ => apply Rle_bool_true_iff in H
    | H : Rlt_bool _ _ = true |- _ => apply Rlt_bool_true_iff in H
    end; simpl; auto; try lra.
  all: try (right; split; auto; apply Req_bool_true; lra).
  all: exfalso; apply Hn.
  all: try solve [left; split; [first [reflexivity | apply Rlt_bool_true; lra]|exists a; split; auto; keys O; rewrite Kx, Ka; apply Rle_bool_true; lra]].
  all: try solve [right; split; [first [reflexivity | apply Rlt_bool_true; lra]|exists b; split; auto; keys O; rewrite Kx, Kb; apply Rle_bool_true; lra]].
Qed.

Lemma free_opt_spec (desc : bool) lo hi (xi di : E) :
  is_num (nZ 0 : E) -> is_num di -> (lo <> None \/ hi <> None) ->
  let p := dir_opt desc lo hi xi di in
  (free_opt desc lo hi xi di = nZ 1 /\ (p =? nZ 0) = false) \/ (free_opt desc lo hi xi di = nZ 0 /\ (p =? nZ 0) = true).
Proof.
  unfold dir_opt, dir_lower, dir_upper, dir_boxed, free_opt, free_lower, free_upper, free_boxed. cbv zeta. intros N0 Nd Hb.
  unfold is_num in *.
  assert (T : ((di <? nZ 0) = true /\ (di >? nZ 0) = false /\ (di <=? nZ 0) = true /\ (di >=? nZ 0) = false /\ (di =? nZ 0) = false)
           \/ ((di <? nZ 0) = false /\ (di >? nZ 0) = true /\ (di <=? nZ 0) = false /\ (di >=? nZ 0) = true /\ (di =? nZ 0) = false)
           \/ ((di <? nZ 0) = false /\ (di >? nZ 0) = false /\ (di <=? nZ 0) = true /\ (di >=? nZ 0) = true /\ (di =? nZ 0) = true)).
  { keys O. destruct (key O (nZ 0)) as [k0|]; [|discriminate]. destruct (key O di) as [kd|]; [|discriminate].
    destruct (Rtotal_order kd k0) as [H|[H|H]]; [left|right; right|right; left]; repeat split; rbool. }
  destruct lo as [a|], hi as [b|]; [| | |destruct Hb; congruence];
    destruct desc;
    destruct T as [(H1 & H2 & H3 & H4 & H5)|[(H1 & H2 & H3 & H4 & H5)|(H1 & H2 & H3 & H4 & H5)]];
    rewrite ?H1, ?H2, ?H3, ?H4; simpl; auto;
    repeat match goal with |- context [if ?q then _ else _] => destruct q end; auto.
Qed.
Lemma projdir_spec desc lo hi (x d : list E) :
  is_num (nZ 0 : E) -> good_box c (length x) lo hi ->
  length d = length x ->
  (forall i xi, nth_error x i = Some xi -> is_num xi) -> (forall i di, nth_error d i = Some di -> is_num di) ->
  let p := k_boxprojdir c desc lo hi x d in
  length p = length x /\
  forall i xi di pi, nth_error x i = Some xi -> nth_error d i = Some di -> nth_error p i = Some pi ->
    (blocked c desc lo hi i xi di -> pi = nZ 0) /\
    (~ blocked c desc lo hi i xi di -> pi = di \/ (di =? nZ 0) = true /\ pi = nZ 0).
Proof.
  intros N0 (Slo & Shi & Nlo & Nhi & _) Hd Hx Hdn p. split; [apply projdir_length; auto|].
  intros i xi di pi Hi Hdi Hp. unfold p in Hp. rewrite projdir_nth, Hi, Hdi in Hp by auto. injection Hp as <-.
  apply dir_opt_spec; eauto.
Qed.

Lemma freevar_spec desc lo hi (x d : list E) :
  is_num (nZ 0 : E) -> bound_size (length x) lo -> bound_size (length x) hi ->
  length d = length x -> (lo <> BNone \/ hi <> BNone) ->
  (forall i di, nth_error d i = Some di -> is_num di) ->
  let p := k_boxprojdir c desc lo hi x d in
  let f := k_boxfreevar c desc lo hi x d in
  length f = length x /\
  forall i pi fi, nth_error p i = Some pi -> nth_error f i = Some fi ->
    (fi = nZ 1 /\ (pi =? nZ 0) = false) \/ (fi = nZ 0 /\ (pi =? nZ 0) = true).
Proof.
  intros N0 Slo Shi Hd Hb Hdn p f. split; [apply freevar_length; auto|].
  intros i pi fi Hp Hf. unfold p in Hp. unfold f in Hf. rewrite projdir_nth in Hp by auto. rewrite freevar_nth in Hf by auto.
  destruct (nth_error x i) as [xi|] eqn:Hi; [|discriminate].
  destruct (nth_error d i) as [di|] eqn:Hdi; [|discriminate]. injection Hp as <-. injection Hf as <-.
  apply free_opt_spec; eauto.
  assert (Hlt := nth_error_lt _ _ _ Hi).
  destruct Hb as [Hb|Hb]; [left|right].
  - destruct lo as [|a|l]; [congruence|discriminate|]. simpl. simpl in Slo. apply nth_error_Some. lia.
  - destruct hi as [|a|l]; [congruence|discriminate|]. simpl. simpl in Shi. apply nth_error_Some. lia.
Qed.

End Box.
