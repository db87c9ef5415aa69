(** * The recurrences of the conjugate gradient method: conjugacy and orthogonality

    [h] is the list of the pairs (residuals, direction) of the steps already done, the last one first. *)
From Coq Require Import ZArith Reals List Lia Lra.
From Verif Require Import Base Num LaSpec LaMem LcgModel LcgSpec LcgVec.
Import ListNotations.
Local Open Scope R_scope.

Section CG.
Variables (n : Z) (z : option Z) (A K : Z -> Z -> R) (b : Z -> R).
Hypothesis SA : symmetric n A.
Hypothesis PA : pos_def n A.
Hypothesis SK : z <> None -> symmetric n K.
Hypothesis PK : z <> None -> pos_def n K.

Notation vec := (Z -> R).
Notation "u .* v" := (dotp n u v) (at level 40).
Notation "u == v" := (same n u v) (at level 70).
Notation Av := (mulv n A).
Notation Kv := (pre n z K).

Lemma pre_ext : forall u v, u == v -> Kv u == Kv v.
Proof. intros u v E. unfold pre. destruct z; [apply mulv_ext; exact E|exact E]. Qed.

Lemma pre_sym : forall u v, u .* Kv v = v .* Kv u.
Proof. intros u v. unfold pre. destruct z; [apply mulv_sym; apply SK; discriminate|apply dotp_comm]. Qed.

Lemma pre_pos : forall u, (exists i, (0 <= i < n)%Z /\ u i <> 0) -> 0 < u .* Kv u.
Proof.
  intros u Hu. unfold pre. destruct z; [apply pos_def_dotp; [apply PK; discriminate|exact Hu]|].
  pose proof (dotp_sq n u) as Hs. destruct (Req_dec (u .* u) 0) as [E|E]; [|lra].
  destruct Hu as [i [Hi Hu]]. exfalso. apply Hu. apply (dotp_sq_0 n u E i Hi).
Qed.

Lemma pre_nonneg : forall u, 0 <= u .* Kv u.
Proof.
  intros u. destruct (nonzero_or n u) as [Hu|Hu]; [apply Rlt_le, pre_pos; exact Hu|].
  rewrite dotp_zero_l by exact Hu. lra.
Qed.

(** what holds whatever the stage *)
Record Base (hs : list (vec * vec)) (X V : vec) : Prop := mkBase {
  b_res : V == (fun i => b i - Av X i);
  b_or : forall h, In h hs -> V .* Kv (fst h) = 0;
  b_op : forall h, In h hs -> V .* snd h = 0;
  b_span : forall h, In h hs -> forall v, (forall h', In h' hs -> v .* snd h' = 0) -> v .* Kv (fst h) = 0;
  b_pair_r : ForallOrdPairs (fun h h' => fst h .* Kv (fst h') = 0) hs;
  b_pair_p : ForallOrdPairs (fun h h' => snd h .* Av (snd h') = 0) hs;
  b_pos : forall h, In h hs -> 0 < snd h .* Av (snd h) }.

(** new variables and residuals; P is the last search direction, r0 is rho[0] *)
Record Nst (hs : list (vec * vec)) (r0 : R) (P X V : vec) : Prop := mkN {
  n_base : Base hs X V;
  n_last : match hs with
           | [] => r0 = 0
           | (R1, P1) :: hs' =>
             P == P1 /\ r0 = R1 .* Kv R1 /\ 0 < r0 /\
             exists a, 0 < a /\ Av P1 == (fun i => (R1 i - V i) / a) /\ P1 .* Av P1 = r0 / a /\
               forall h, In h hs' -> forall v, (forall h', In h' hs -> v .* fst h' = 0) -> v .* Av (snd h) = 0
           end }.

(** new search direction P, r1 is rho[1] *)
Record Dst (hs : list (vec * vec)) (r1 : R) (P X V : vec) : Prop := mkD {
  d_base : Base hs X V;
  d_r1 : r1 = V .* Kv V;
  d_r1_pos : 0 < r1;
  d_pr : P .* V = r1;
  d_conj : forall h, In h hs -> P .* Av (snd h) = 0;
  d_pos : 0 < P .* Av P;
  d_span : forall v, v .* P = 0 -> (forall h, In h hs -> v .* snd h = 0) -> v .* Kv V = 0;
  d_dual : forall h, In h hs -> forall v, v .* V = 0 -> (forall h', In h' hs -> v .* fst h' = 0) -> v .* Av (snd h) = 0;
  d_zp : Kv V .* Av P = P .* Av P }.

Lemma start_N : forall P X V, V == (fun i => b i - Av X i) -> Nst [] 0 P X V.
Proof.
  intros P X V E. split; [|reflexivity]. split; [exact E|intros h []|intros h []|intros h []|constructor|constructor|intros h []].
Qed.

Lemma N_to_D : forall hs r0 P X V W P' r1 be, Nst hs r0 P X V ->
  W == Kv V -> r1 = V .* W -> 0 < r1 ->
  (0 < r0 /\ be = r1 / r0 \/ r0 <= 0 /\ be = 0) -> P' == (fun i => W i + be * P i) ->
  Dst hs r1 P' X V.
Proof.
  intros hs r0 P X V W P' r1 be [B L] EW Er1 Hr1 Hbe EP.
  assert (Er1' : r1 = V .* Kv V) by (rewrite Er1; apply dotp_ext; [apply same_refl|exact EW]).
  assert (EP' : P' == (fun i => Kv V i + be * P i)).
  { intros i Hi. rewrite EP by exact Hi. rewrite (EW i Hi). reflexivity. }
  assert (Epv : forall v, v .* P' = v .* Kv V + be * (v .* P)).
  { intros v. rewrite (dotp_ext n v v P' _ (same_refl n v) EP'). apply dotp_lin_r. }
  assert (Hpr : P' .* V = r1).
  { rewrite dotp_comm, Epv, <- Er1'. destruct hs as [|[R1 P1] hs].
    - destruct Hbe as [[Hr _]|[_ ->]]; [lra|ring].
    - destruct L as [EP1 _]. rewrite (dotp_ext n V V P P1 (same_refl n V) EP1).
      pose proof (b_op _ _ _ B (R1, P1) (or_introl eq_refl)) as E0. cbn [snd] in E0. rewrite E0. ring. }
  assert (Hconj : forall h, In h hs -> P' .* Av (snd h) = 0).
  { intros h Hh. rewrite dotp_comm, Epv. destruct hs as [|[R1 P1] hs]; [destruct Hh|].
    destruct L as [EP1 [Er0 [Hr0 [a [Ha [EA [Epp Hd]]]]]]].
    destruct Hbe as [[_ Ebe]|[Hr _]]; [|lra].
    rewrite (dotp_comm n _ (Kv V)), (dotp_comm n _ P).
    rewrite (dotp_ext n P P1 (Av (snd h)) _ EP1 (same_refl n _)).
    destruct Hh as [<-|Hh].
    - cbn [snd]. rewrite Epp.
      rewrite (dotp_ext n (Kv V) (Kv V) (Av P1) _ (same_refl n _) EA).
      replace (Kv V .* (fun i => (R1 i - V i) / a)) with ((Kv V .* R1 - Kv V .* V) / a).
      + rewrite (dotp_comm n (Kv V) R1), (pre_sym R1 V).
        pose proof (b_or _ _ _ B (R1, P1) (or_introl eq_refl)) as E0. cbn [fst] in E0. rewrite E0.
        rewrite (dotp_comm n (Kv V) V), <- Er1', Ebe. field. split; lra.
      + replace (Kv V .* (fun i => (R1 i - V i) / a)) with (Kv V .* (fun i => 0 + / a * (R1 i + -1 * V i)))
          by (apply dotp_ext; [apply same_refl|intros i _; unfold Rdiv; ring]).
        rewrite (dotp_lin_r n (fun _ => 0) (fun i => R1 i + -1 * V i)), dotp_lin_r.
        rewrite (dotp_comm n (Kv V) (fun _ => 0)), (dotp_zero_l n (fun _ => 0)) by reflexivity. field. lra.
    - pose proof (b_pair_p _ _ _ B) as Bp. inversion Bp as [|h0 l0 Hf Hp]; subst. clear Bp.
      rewrite Forall_forall in Hf. pose proof (Hf h Hh) as Hf'. cbn [snd] in Hf'. rewrite Hf'.
      rewrite (Hd h Hh (Kv V)); [ring|]. intros h' Hh'.
      rewrite dotp_comm, pre_sym. apply (b_or _ _ _ B). exact Hh'. }
  split; try assumption.
  - apply pos_def_dotp; [exact PA|]. destruct (nonzero_or n P') as [Hn|Hz]; [exact Hn|].
    rewrite (dotp_zero_l n P' V Hz) in Hpr. lra.
  - intros v Hv Hh. rewrite Epv in Hv. destruct hs as [|[R1 P1] hs].
    + destruct Hbe as [[Hr _]|[_ E0]]; [lra|]. rewrite E0 in Hv. lra.
    + destruct L as [EP1 _]. rewrite (dotp_ext n v v P P1 (same_refl n v) EP1) in Hv.
      pose proof (Hh (R1, P1) (or_introl eq_refl)) as E0. cbn [snd] in E0. rewrite E0 in Hv. lra.
  - intros h Hh v HvV Hvh. destruct hs as [|[R1 P1] hs]; [destruct Hh|].
    destruct L as [EP1 [Er0 [Hr0 [a [Ha [EA [Epp Hd]]]]]]]. destruct Hh as [<-|Hh]; [|apply Hd; assumption].
    cbn [snd]. rewrite (dotp_ext n v v (Av P1) _ (same_refl n v) EA).
    pose proof (Hvh (R1, P1) (or_introl eq_refl)) as E0. cbn [fst] in E0.
    replace (v .* (fun i => (R1 i - V i) / a)) with (v .* (fun i => / a * R1 i + (- / a) * V i))
      by (apply dotp_ext; [apply same_refl|intros i _; unfold Rdiv; ring]).
    rewrite (dotp_lin_r n (fun i => / a * R1 i)), HvV, dotp_comm, dotp_scal_l, dotp_comm, E0. ring.
  - assert (E1 : Av P' .* P' = Av P' .* Kv V + be * (Av P' .* P)) by apply Epv.
    rewrite (dotp_comm n (Kv V)), (dotp_comm n P' (Av P')), E1.
    assert (E2 : be * (Av P' .* P) = 0); [|rewrite E2; ring].
    destruct hs as [|[R1 P1] hs].
    + destruct Hbe as [[Hr _]|[_ E0]]; [lra|]. rewrite E0. ring.
    + destruct L as [EP1 _]. rewrite (dotp_comm n (Av P') P), (dotp_ext n P P1 _ _ EP1 (same_refl n _)).
      rewrite (mulv_sym n A P1 P' SA). pose proof (Hconj (R1, P1) (or_introl eq_refl)) as E0. cbn [snd] in E0. rewrite E0. ring.
Qed.

Lemma D_to_N : forall hs r1 P X V X' V' al, Dst hs r1 P X V ->
  al = r1 / (P .* Av P) -> X' == (fun i => X i + al * P i) -> V' == (fun i => V i + - al * Av P i) ->
  Nst ((V, P) :: hs) r1 P X' V' /\ 0 < al.
Proof.
  intros hs r1 P X V X' V' al [B Er1 Hr1 Hpr Hconj Hpos Hspan Hdual Hzp] Eal EX EV.
  assert (Hal : 0 < al) by (rewrite Eal; apply Rdiv_lt_0_compat; assumption).
  split; [|exact Hal].
  assert (Evv : forall v, V' .* v = V .* v - al * (Av P .* v)).
  { intros v. rewrite (dotp_ext n V' _ v v EV (same_refl n v)). rewrite dotp_lin_l. ring. }
  assert (Epp : V' .* P = 0).
  { rewrite Evv, (dotp_comm n V P), Hpr, (dotp_comm n (Av P)), Eal. field. lra. }
  assert (Ekk : V' .* Kv V = 0).
  { rewrite Evv, <- Er1, (dotp_comm n (Av P)), Hzp, Eal. field. lra. }
  assert (Ehp : forall h, In h hs -> V' .* snd h = 0).
  { intros h Hh. rewrite Evv, (b_op _ _ _ B h Hh), (dotp_comm n (Av P)), (mulv_sym n A (snd h) P SA), (Hconj h Hh). ring. }
  assert (Ehr : forall h, In h hs -> V' .* Kv (fst h) = 0).
  { intros h Hh. apply (b_span _ _ _ B h Hh). exact Ehp. }
  split.
  - split.
    + intros i Hi. rewrite (EV i Hi), (b_res _ _ _ B i Hi).
      rewrite (mulv_ext n A X' _ EX i Hi), mulv_lin. ring.
    + intros h [<-|Hh]; [exact Ekk|apply Ehr; exact Hh].
    + intros h [<-|Hh]; [exact Epp|apply Ehp; exact Hh].
    + intros h Hh v Hv. destruct Hh as [<-|Hh].
      * cbn [fst]. apply Hspan; [apply (Hv (V, P)); left; reflexivity|]. intros h' Hh'. apply Hv. right. exact Hh'.
      * apply (b_span _ _ _ B h Hh). intros h' Hh'. apply Hv. right. exact Hh'.
    + constructor; [|apply (b_pair_r _ _ _ B)]. apply Forall_forall. intros h Hh. apply (b_or _ _ _ B h Hh).
    + constructor; [|apply (b_pair_p _ _ _ B)]. apply Forall_forall. intros h Hh. apply (Hconj h Hh).
    + intros h [<-|Hh]; [exact Hpos|apply (b_pos _ _ _ B h Hh)].
  - split; [apply same_refl|]. split; [exact Er1|]. split; [exact Hr1|].
    exists al. split; [exact Hal|]. split.
    + intros i Hi. rewrite (EV i Hi). field. lra.
    + split; [rewrite Eal; field; split; lra|].
      intros h Hh v Hv. apply (Hdual h Hh v); [apply (Hv (V, P)); left; reflexivity|]. intros h' Hh'. apply Hv. right. exact Hh'.
Qed.

(** the step is the best one along the direction *)
Lemma D_best : forall hs r1 P X V al t, Dst hs r1 P X V -> al = r1 / (P .* Av P) ->
  quad n A b (fun i => X i + al * P i) = quad n A b X - r1 * r1 / (P .* Av P) / 2 /\
  quad n A b (fun i => X i + al * P i) <= quad n A b (fun i => X i + t * P i).
Proof.
  intros hs r1 P X V al t [B Er1 Hr1 Hpr Hconj Hpos Hspan Hdual Hzp] Eal.
  rewrite !(quad_along n A b X V P) by (try exact SA; apply (b_res _ _ _ B)).
  rewrite (dotp_comm n V P), Hpr. set (c := P .* Av P) in *. split; [rewrite Eal; field; lra|].
  assert (E : - al * r1 + al * al * c / 2 = - t * r1 + t * t * c / 2 - c * ((t - al) * (t - al)) / 2).
  { rewrite Eal. field. lra. }
  assert (0 <= c * ((t - al) * (t - al))) by (apply Rmult_le_pos; [lra|apply Rle_0_sqr]). lra.
Qed.

(** the variables are the best ones among those which differ by a combination of the previous directions *)
Lemma base_best : forall hs X V c, Base hs X V ->
  quad n A b X <= quad n A b (fun i => X i + lin c (map snd hs) i).
Proof.
  intros hs X V c B.
  assert (E : quad n A b (fun i => X i + lin c (map snd hs) i) = quad n A b (fun i => X i + 1 * lin c (map snd hs) i))
    by (apply quad_ext; intros i _; ring).
  rewrite E, (quad_along n A b X V (fun i => lin c (map snd hs) i)) by (try exact SA; apply (b_res _ _ _ B)).
  assert (Z0 : V .* (fun i => lin c (map snd hs) i) = 0).
  { rewrite dotp_lin. pose proof (b_op _ _ _ B) as Hop. clear B E. revert c. induction hs as [|h hs IH]; intros [|c0 c]; cbn [map combine fold_right]; try reflexivity.
    cbn [fst snd]. rewrite (Hop h (or_introl eq_refl)), IH by (intros h' Hh'; apply Hop; right; exact Hh'). ring. }
  rewrite Z0. pose proof (pos_def_nonneg n A (fun i => lin c (map snd hs) i) PA). lra.
Qed.

End CG.
