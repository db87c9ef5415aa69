(** * The point returned by COBYLA, in exact arithmetic: it is one of the points that were tried, with its values *)
From Coq Require Import ZArith Reals List Bool Lia Lra.
From Flocq Require Import Core.
From Verif Require Import Num BqLang BqModel BqWp BqSafe BqEval BqRun BqStart BqPc BqSpec BqBest CbModel CbSafe CbMain.
Import ListNotations.
Local Open Scope Z_scope.

(** ** Programs that do not change some cells *)
Section Keeps.
Context {N : Num}.
Notation mst := (mst N).
Notation prog := (prog N).
Definition keepg (P : Z -> Prop) (s s' : mst) : Prop := evs s' = evs s /\ forall q, P q -> mm s' q = mm s q.
Definition keeps {A} (P : Z -> Prop) (p : prog A) : Prop := forall s, wp p s (fun _ s' => keepg P s s').
Lemma keepg_refl P s : keepg P s s.
Proof. split; auto. Qed.
Lemma keepg_trans P s1 s2 s3 : keepg P s1 s2 -> keepg P s2 s3 -> keepg P s1 s3.
Proof. intros [A B] [A' B']. split; [congruence|]. intros q Hq. rewrite B' by exact Hq. auto. Qed.
Lemma keepg_upd P s a v : ~ P a -> keepg P s (upd s a v).
Proof. intros H. split; [reflexivity|]. intros q Hq. cbn. destruct (Z.eqb_spec q a); [subst; contradiction|reflexivity]. Qed.
Variable P : Z -> Prop.
Lemma keeps_ret {A} (a : A) : keeps P (ret a).
Proof. intros s. apply wp_ret, keepg_refl. Qed.
Lemma keeps_ld a : keeps P (ld a).
Proof. intros s. apply wp_ld. intros v _. apply keepg_refl. Qed.
Lemma keeps_bind {A B} (p : prog A) (q : A -> prog B) : keeps P p -> (forall a, keeps P (q a)) -> keeps P (bind p q).
Proof.
  intros Hp Hq s. apply wp_bind. eapply wp_weak; [apply Hp|]. intros a s1 H1. eapply wp_weak; [apply Hq|]. intros b s2 H2.
  exact (keepg_trans P _ _ _ H1 H2).
Qed.
Lemma keeps_sto a v : ~ P a -> keeps P (sto a v).
Proof. intros H s. apply wp_sto, keepg_upd, H. Qed.
Lemma keeps_assign a e : ~ P a -> keeps P e -> keeps P (assign a e).
Proof. intros H K. apply keeps_bind; [exact K|]. intros v. apply keeps_sto, H. Qed.
Lemma keeps_lift1 {A B} (f : A -> B) p : keeps P p -> keeps P (lift1 f p).
Proof. intros H. apply keeps_bind; [exact H|]. intros a. apply keeps_ret. Qed.
Lemma keeps_lift2 {A B D} (f : A -> B -> D) p q : keeps P p -> keeps P q -> keeps P (lift2 f p q).
Proof. intros H K. apply keeps_bind; [exact H|]. intros a. apply keeps_bind; [exact K|]. intros b. apply keeps_ret. Qed.
Lemma keeps_assign_add a e : ~ P a -> keeps P e -> keeps P (assign_add a e).
Proof. intros H K. apply keeps_bind; [apply keeps_lift2; [apply keeps_ld|exact K]|]. intros v. apply keeps_sto, H. Qed.
Lemma keeps_assign_sub a e : ~ P a -> keeps P e -> keeps P (assign_sub a e).
Proof. intros H K. apply keeps_bind; [apply keeps_lift2; [apply keeps_ld|exact K]|]. intros v. apply keeps_sto, H. Qed.
Lemma keeps_ifp {A} c (p q : prog A) : keeps P c -> keeps P p -> keeps P q -> keeps P (ifp c p q).
Proof. intros H K L. apply keeps_bind; [exact H|]. intros [|]; auto. Qed.
Lemma keeps_andp p q : keeps P p -> keeps P q -> keeps P (andp p q).
Proof. intros H K. apply keeps_bind; [exact H|]. intros [|]; auto. apply keeps_ret. Qed.
Lemma keeps_orp p q : keeps P p -> keeps P q -> keeps P (orp p q).
Proof. intros H K. apply keeps_bind; [exact H|]. intros [|]; auto. apply keeps_ret. Qed.
Lemma keeps_loop {A} lo hi (body : Z -> A -> prog A) a : (forall i b, lo <= i <= hi -> keeps P (body i b)) -> keeps P (loop lo hi body a).
Proof.
  intros H s. destruct (Z_le_gt_dec lo (hi + 1)) as [Hl|Hl].
  - apply (wp_loopJ (fun _ _ t => keepg P s t)); auto using keepg_refl. intros i b t Hi Ht. eapply wp_weak; [apply H, Hi|].
    intros c t' Ht'. exact (keepg_trans P _ _ _ Ht Ht').
  - unfold loop. replace (Z.to_nat (hi - lo + 1)) with O by lia. apply wp_ret, keepg_refl.
Qed.
Lemma keeps_loopx {A B} lo hi (body : Z -> A -> prog (A + B)) a : (forall i b, lo <= i <= hi -> keeps P (body i b)) -> keeps P (loopx lo hi body a).
Proof.
  intros H s. destruct (Z_le_gt_dec lo (hi + 1)) as [Hl|Hl].
  - apply (wp_loopx (fun _ _ t => keepg P s t)); auto using keepg_refl. intros i b t Hi Ht. eapply wp_weak; [apply H, Hi|].
    intros [c|c] t' Ht'; exact (keepg_trans P _ _ _ Ht Ht').
  - unfold loopx. replace (Z.to_nat (hi - lo + 1)) with O by lia. apply wp_ret, keepg_refl.
Qed.
End Keeps.
Ltac kp1 :=
  lazymatch goal with
  | |- keeps _ (ret _) => apply keeps_ret
  | |- keeps _ (ld _) => apply keeps_ld
  | |- keeps _ (lift1 _ _) => apply keeps_lift1
  | |- keeps _ (lift2 _ _ _) => apply keeps_lift2
  | |- keeps _ (ifp _ _ _) => apply keeps_ifp
  | |- keeps _ (andp _ _) => apply keeps_andp
  | |- keeps _ (orp _ _) => apply keeps_orp
  | |- keeps _ (assign _ _) => apply keeps_assign
  | |- keeps _ (assign_add _ _) => apply keeps_assign_add
  | |- keeps _ (assign_sub _ _) => apply keeps_assign_sub
  | |- keeps _ (loop _ _ _ _) => apply keeps_loop; intros
  | |- keeps _ (loopx _ _ _ _) => apply keeps_loopx; intros
  | |- keeps _ (LOOP _ _ _) => unfold LOOP
  | |- keeps _ (LOOP_ _ _) => unfold LOOP_
  | |- keeps _ (bind _ _) => apply keeps_bind; [|intros ?]
  | |- keeps _ (if ?b then _ else _) => destruct b
  | |- keeps _ (match ?b with _ => _ end) => destruct b
  | |- keeps _ (let _ := _ in _) => cbv zeta
  end.
Ltac kp := unfold eabs, emax, emin, esqrt; repeat kp1.

Lemma wp_keep {N : Num} {A B} P (p : prog N A) (q : A -> prog N B) s0 s Q : keeps P p -> keepg P s0 s ->
  (forall a s', keepg P s0 s' -> wp (q a) s' Q) -> wp (bind p q) s Q.
Proof.
  intros Hp K HQ. apply wp_bind. eapply wp_weak; [apply Hp|]. intros a s' K'. apply HQ. exact (keepg_trans P _ _ _ K K').
Qed.

Section Best.
Variables HH II : R.
Notation N := (NumR HH II).
Notation mst := (mst N).
Notation prog := (prog N).
Notation cvars := (cvars (N := N)).
Variables (n m x : Z) (rhobeg rhoend : N) (maxfun : Z).
Variables (con sim simi datmat a vsig veta sigbar dx w wend : Z).
Notation np := (n + 1).
Notation mp := (m + 1).
Notation mpp := (m + 2).
Hypothesis (Hn : 1 <= n) (Hm : 0 <= m).
(** The layout of the workspace; [G]: the arrays after DATMAT *)
Hypothesis (L0 : con + mpp <= sim) (L1 : sim + n * np <= simi) (L2 : simi + n * n <= datmat) (L3 : datmat + mpp * np <= a) (L4 : a <= wend)
  (L5 : x + n <= con \/ wend <= x).
Notation G := (fun q => a <= q < wend).
Hypothesis (Ga : mat G a n 1 n 1 mp) (Gvsig : arr G vsig 1 n) (Gveta : arr G veta 1 n) (Gsig : arr G sigbar 1 n)
  (Gdx : arr G dx 1 n) (Gw : arr G w 1 n) (Gz : mat G w n 1 n 0 n) (Gzd : arr G (w + n * n) 0 n) (Gvc : arr G (w + n * n + n) 0 mp)
  (Gsd : arr G (w + n * n + n + mp) 1 n) (Gdn : arr G (w + n * n + n + mp + n) 1 n) (Gvd : arr G (w + n * n + n + mp + n + n) 0 mp).
Hypothesis L6 : sigbar + n <= dx.

Lemma nn1 : 0 <= n * n /\ 0 <= n * np /\ 0 <= mpp * np. Proof. nia. Qed.
Ltac geo := pose proof nn1; lia.
Notation SIM := (at2 sim n).
Notation SIMI := (at2 simi n).
Notation DAT := (at2 datmat mpp).
Lemma simr i j : 1 <= i <= n -> 1 <= j <= np -> sim <= SIM i j < simi.
Proof. intros Hi Hj. pose proof (at2_range sim n np i j Hi Hj). lia. Qed.
Lemma simir i j : 1 <= i <= n -> 1 <= j <= n -> simi <= SIMI i j < datmat.
Proof. intros Hi Hj. pose proof (at2_range simi n n i j Hi Hj). lia. Qed.
Lemma datr i j : 1 <= i <= mpp -> 1 <= j <= np -> datmat <= DAT i j < a.
Proof. intros Hi Hj. pose proof (at2_range datmat mpp np i j Hi Hj). lia. Qed.

Lemma gdxr i : 1 <= i <= n -> a <= at1 dx i < wend. Proof. apply Gdx. Qed.

(** ** Values *)
Definition get (s : mst) (q : Z) : R := match mm s q with Some v => v | None => 0%R end.
Lemma wp_ldg q s (Q : N -> mst -> Prop) : Q (get s q) s -> wp (ld q) s Q.
Proof. intros H. apply wp_ld. intros v E. unfold get in H. rewrite E in H. exact H. Qed.
Lemma get_same (s : mst) q (v : N) : get (upd s q v) q = v.
Proof. unfold get. rewrite upd_same. reflexivity. Qed.
Lemma get_other (s : mst) q b (v : N) : b <> q -> get (upd s q v) b = get s b.
Proof. intros H. unfold get. rewrite upd_other by exact H. reflexivity. Qed.
Lemma get_keep P s s' q : keepg P s s' -> P q -> get s' q = get s q.
Proof. intros [_ F] H. unfold get. rewrite F by exact H. reflexivity. Qed.

(** Loops that set the elements of an array *)
Lemma wp_fill lo hi (ad : Z -> Z) (e : Z -> prog N) (g : Z -> R) s :
  lo <= hi + 1 -> (forall i j, lo <= i <= hi -> lo <= j <= hi -> ad i = ad j -> i = j) ->
  (forall i t, lo <= i <= hi -> keepg (fun q => forall j, lo <= j < i -> q <> ad j) s t -> wp (e i) t (fun v t' => t' = t /\ v = g i)) ->
  wp (loop lo hi (fun i _ => assign (ad i) (e i)) tt) s (fun _ s' =>
    keepg (fun q => forall j, lo <= j <= hi -> q <> ad j) s s' /\ forall i, lo <= i <= hi -> get s' (ad i) = g i).
Proof.
  intros Hl Hi He.
  apply (wp_loopJ (fun i (_ : unit) t => keepg (fun q => forall j, lo <= j < i -> q <> ad j) s t /\ forall j, lo <= j < i -> get t (ad j) = g j)).
  - exact Hl.
  - split; [apply keepg_refl|]. intros j Hj. lia.
  - intros i u t Hi' [K1 K2]. apply wp_assign. eapply wp_weak; [apply He; [exact Hi'|exact K1]|]. intros v t' [-> ->]. split.
    + split; [apply K1|]. intros q Hq. rewrite upd_other by (apply Hq; lia). apply K1. intros j Hj. apply Hq. lia.
    + intros j Hj. destruct (Z.eq_dec j i) as [->|Ne]; [apply get_same|]. rewrite get_other; [apply K2; lia|].
      intros E. apply Hi in E; lia.
  - intros u t [K1 K2]. split.
    + split; [apply K1|]. intros q Hq. apply K1. intros j Hj. apply Hq. lia.
    + intros i Hi'. apply K2. lia.
Qed.

(** ** The points that were tried *)
Variables (maximize : bool) (scaled : bool) (sc : Z -> R) (cn : list (list N * N) -> list N -> Z -> N).
Definition img (i : Z) (v : R) : N := if scaled then (sc i * v)%R else v.
Definition point (p : list N) (X : Z -> R) : Prop :=
  length p = Z.to_nat n /\ forall i, 1 <= i <= n -> nth_error p (Z.to_nat (i - 1)) = Some (img i (X i)).
Lemma point_ext p X Y : (forall i, 1 <= i <= n -> X i = Y i) -> point p X -> point p Y.
Proof. intros H [K1 K2]. split; [exact K1|]. intros i Hi. rewrite <- H by exact Hi. auto. Qed.
(** [r] is the worst violation of the constraints for the call made after the calls [h] *)
Definition worst (h : list (list N * N)) (p : list N) (r : R) : Prop :=
  (0 <= r)%R /\ (forall k, 0 <= k < m -> (- cn h p k <= r)%R) /\ (r = 0%R \/ exists k, 0 <= k < m /\ r = (- cn h p k)%R).
Definition tried (L : list (list N * N)) (X : Z -> R) (F r : R) : Prop :=
  exists p f h l, L = l ++ (p, f) :: h /\ point p X /\ F = (if maximize then - f else f)%R /\ worst h p r.
Lemma tried_cons e L X F r : tried L X F r -> tried (e :: L) X F r.
Proof. intros (p & f & h & l & -> & K). exists p, f, h, (e :: l). split; [reflexivity|exact K]. Qed.
Lemma tried_ext L X Y F F' r r' : (forall i, 1 <= i <= n -> X i = Y i) -> F = F' -> r = r' -> tried L X F r -> tried L Y F' r'.
Proof. intros H -> -> (p & f & h & l & E & K1 & K2). exists p, f, h, l. split; [exact E|]. split; [|exact K2]. eapply point_ext; eauto. Qed.

(** The vertices of the simplex; NP is the pole *)
Definition vertex (s : mst) (j i : Z) : R := if j =? np then get s (SIM i np) else (get s (SIM i np) + get s (SIM i j))%R.
Definition gv (L : list (list N * N)) (s : mst) (j : Z) : Prop := tried L (vertex s j) (get s (DAT mp j)) (get s (DAT mpp j)).
Definition curx (s : mst) (i : Z) : R := get s (at1 x i).
Lemma vertex_np s i : vertex s np i = get s (SIM i np).
Proof. unfold vertex. rewrite Z.eqb_refl. reflexivity. Qed.
Lemma vertex_n s j i : j <= n -> vertex s j i = (get s (SIM i np) + get s (SIM i j))%R.
Proof. intros H. unfold vertex. destruct (Z.eqb_spec j np); [lia|reflexivity]. Qed.
Lemma gv_ext L s s' j : (forall i, 1 <= i <= n -> get s' (SIM i np) = get s (SIM i np)) -> (j <= n -> forall i, 1 <= i <= n -> get s' (SIM i j) = get s (SIM i j)) ->
  get s' (DAT mp j) = get s (DAT mp j) -> get s' (DAT mpp j) = get s (DAT mpp j) -> 1 <= j <= np -> gv L s j -> gv L s' j.
Proof.
  intros H1 H2 H3 H4 Hj. apply tried_ext; auto. intros i Hi. unfold vertex. rewrite H1 by exact Hi.
  destruct (Z.eqb_spec j np); [reflexivity|]. rewrite H2 by (auto; lia). reflexivity.
Qed.
(** The cells of SIM and DATMAT, and the ones of x *)
Definition PS (q : Z) : Prop := sim <= q < simi \/ datmat <= q < a.
Definition PX (q : Z) : Prop := PS q \/ x <= q < x + n.
Lemma PS_sim i j : 1 <= i <= n -> 1 <= j <= np -> PS (SIM i j).
Proof. intros Hi Hj. left. apply simr; auto. Qed.
Lemma PS_dat i j : 1 <= i <= mpp -> 1 <= j <= np -> PS (DAT i j).
Proof. intros Hi Hj. right. apply datr; auto. Qed.
Lemma gv_keep (P : Z -> Prop) L s s' j : (forall q, PS q -> P q) -> keepg P s s' -> 1 <= j <= np -> gv L s j -> gv L s' j.
Proof.
  intros HP K Hj. apply gv_ext; auto.
  - intros i Hi. apply (get_keep P s s' _ K), HP, PS_sim; lia.
  - intros _ i Hi. apply (get_keep P s s' _ K), HP, PS_sim; lia.
  - apply (get_keep P s s' _ K), HP, PS_dat; lia.
  - apply (get_keep P s s' _ K), HP, PS_dat; lia.
Qed.
Definition all (L : list (list N * N)) (s : mst) : Prop := forall j, 1 <= j <= np -> gv L s j.
Lemma all_keep (P : Z -> Prop) L s s' : (forall q, PS q -> P q) -> keepg P s s' -> all L s -> all L s'.
Proof. intros HP K H j Hj. eapply gv_keep; eauto. Qed.

(** SIM during the first evaluations: the rows from [k] on are not changed yet *)
Definition tri (k : Z) (rho : R) (s : mst) : Prop :=
  forall i j, 1 <= i <= n -> 1 <= j <= n -> (i < j -> get s (SIM i j) = 0%R) /\ (k <= i -> get s (SIM i j) = if i =? j then rho else 0%R).

(** What is known at a label *)
Definition atcall (L : list (list N * N)) (v : cvars) (s : mst) : Prop :=
  (1 <= c_nfvals v -> gv L s np) /\
  (c_ibrnch v = 1 -> np <= c_nfvals v /\ all L s /\ forall i, 1 <= i <= n -> curx s i = (get s (SIM i np) + get s (at1 dx i))%R) /\
  (c_ibrnch v <> 1 -> (forall i, 1 <= i <= n -> curx s i = vertex s (c_jdrop v) i) /\
    (c_nfvals v <= n -> c_jdrop v = (if c_nfvals v =? 0 then np else c_nfvals v) /\ tri (c_nfvals v) (c_rho v) s /\
       forall j, 1 <= j < c_nfvals v -> gv L s j) /\
    (np <= c_nfvals v -> 1 <= c_jdrop v <= n /\ forall j, 1 <= j <= np -> j <> c_jdrop v -> gv L s j)).
Definition curtried (L : list (list N * N)) (v : cvars) (s : mst) : Prop := tried L (curx s) (c_f v) (c_resmax v).
Definition binv (l : clabel * cvars) (s : mst) : Prop :=
  let v := snd l in
  match fst l with
  | Ccall | Ceval => 0 <= c_nfvals v /\ atcall (evs s) v s
  | Cnew => 0 <= c_nfvals v /\ exists p f h, evs s = (p, f) :: h /\ c_f v = (if maximize then - f else f)%R /\ point p (curx s) /\
      (forall k, 0 <= k < m -> get s (con + k) = cn h p k) /\ atcall h v s
  | C140 | C370 => np <= c_nfvals v /\ all (evs s) s
  | C440 => np <= c_nfvals v /\ all (evs s) s /\ curtried (evs s) v s /\
      (forall i, 1 <= i <= n -> curx s i = (get s (SIM i np) + get s (at1 dx i))%R) /\ get s (at1 con mp) = c_f v /\ get s (at1 con mpp) = c_resmax v
  | C550 => np <= c_nfvals v /\ all (evs s) s /\ (c_ifull v = 1 -> curtried (evs s) v s)
  | C600 => gv (evs s) s np
  | Cend => curtried (evs s) v s
  end.
(** The labels after a step are assumed to satisfy the invariant of CbMain.v *)
Definition bpost {B} (r : clabel * cvars + B) (s : mst) : Prop :=
  match r with inl l => clab n maxfun l -> binv l s | inr _ => False end.
Ltac gr := unfold bpost, binv in *; cvs.

Lemma b_call {B} v s : binv (Ccall, v) s -> wp (co_call maxfun (B := B) v) s bpost.
Proof.
  intros H. unfold co_call, cfail, cgoto. destruct (andb _ _) eqn:E; apply wp_ret; gr; intros _; [|exact H].
  apply andb_true_iff in E. destruct E as [_ E]. apply Z.ltb_lt in E. destruct H as (_ & H & _). apply H. lia.
Qed.
Lemma b_600 {B} v s : binv (C600, v) s -> wp (co_600 n m x sim datmat (B := B) v) s bpost.
Proof.
  intros H. gr. unfold co_600, LOOP_. apply wp_bind. eapply wp_weak; [apply (wp_fill 1 n (at1 x) _ (fun i => get s (SIM i np)))|].
  - lia.
  - unfold at1. lia.
  - intros i t Hi K. apply wp_ldg. split; [reflexivity|]. apply (get_keep _ _ _ _ K). intros j Hj. pose proof (simr i np Hi ltac:(lia)).
    pose proof nn1. unfold at1. lia.
  - intros _ s1 [K E]. apply wp_bind, wp_ldg, wp_bind, wp_ldg. apply wp_ret. gr. intros _. unfold curtried. cvs.
    assert (K' : keepg PS s s1).
    { split; [apply K|]. intros q Hq. apply K. intros j Hj. pose proof nn1. unfold PS, at1 in *. lia. }
    rewrite (proj1 K). eapply tried_ext; [| | |exact H].
    + intros i Hi. unfold curx. rewrite vertex_np, E by exact Hi. reflexivity.
    + symmetry. apply (get_keep PS s s1 _ K'), PS_dat; lia.
    + symmetry. apply (get_keep PS s s1 _ K'), PS_dat; lia.
Qed.

(** Programs that write only in the arrays after DATMAT, in SIMI or in CON *)
Ltac nps := first
  [ match goal with |- ~ _ (at2 simi n ?i ?j) => pose proof (simir i j ltac:(lia) ltac:(lia)) end
  | match goal with |- ~ _ (at2 a n ?i ?j) => pose proof (Ga i j ltac:(lia) ltac:(lia)) end
  | match goal with |- ~ _ (at1 con ?i) => idtac end
  | match goal with |- ~ _ (at1 vsig ?i) => pose proof (Gvsig i ltac:(lia)) end
  | match goal with |- ~ _ (at1 veta ?i) => pose proof (Gveta i ltac:(lia)) end
  | match goal with |- ~ _ (at1 sigbar ?i) => pose proof (Gsig i ltac:(lia)) end
  | match goal with |- ~ _ (at1 dx ?i) => pose proof (Gdx i ltac:(lia)) end
  | match goal with |- ~ _ (at1 w ?i) => pose proof (Gw i ltac:(lia)) end ];
  pose proof nn1; unfold PX, PS, at1 in *; lia.

Lemma k_error : keeps PX (co_error (N := N) n sim simi). Proof. unfold co_error. kp. Qed.
Lemma k_linear : keeps PX (co_linear (N := N) n m con simi datmat a w). Proof. unfold co_linear. kp; nps. Qed.
Lemma k_best mu : keeps PX (co_best (N := N) n m datmat mu). Proof. unfold co_best. kp. Qed.
Lemma k_sigma p q : keeps PX (co_sigma (N := N) n sim simi vsig veta p q). Proof. unfold co_sigma. kp; nps. Qed.
Lemma k_drop p : keeps PX (co_drop (N := N) n vsig veta p). Proof. unfold co_drop. kp. Qed.
Lemma k_altered mu : keeps PX (co_altered (N := N) n m datmat mu). Proof. unfold co_altered. kp. Qed.
Lemma k_parmu mu : keeps PX (co_parmu (N := N) n m datmat mu). Proof. unfold co_parmu. kp. Qed.
(** The cells that co_choose does not change *)
Definition PC (q : Z) : Prop := PX q \/ con <= q < sim \/ exists i, 1 <= i <= n /\ q = at1 dx i.

Lemma sim_ne i j i' j' : 1 <= i <= n -> 1 <= i' <= n -> i <> i' \/ j <> j' -> SIM i j <> SIM i' j'.
Proof. intros H1 H2 H E. apply at2_inj in E; lia. Qed.
Lemma dat_ne i j i' j' : 1 <= i <= mpp -> 1 <= i' <= mpp -> i <> i' \/ j <> j' -> DAT i j <> DAT i' j'.
Proof. intros H1 H2 H E. apply at2_inj in E; lia. Qed.

(** The switch of the best vertex *)
Lemma b_swap nb s : 1 <= nb <= n ->
  wp (LOOP_ mpp (fun i => bind (ld (DAT i np)) (fun temp => bind (assign (DAT i np) (ld (DAT i nb))) (fun _ => assign (DAT i nb) (ret temp))))) s
    (fun _ t => evs t = evs s /\ (forall q, ~ (datmat <= q < a) -> mm t q = mm s q) /\
       forall k j, 1 <= k <= mpp -> 1 <= j <= np ->
         get t (DAT k j) = get s (DAT k (if j =? np then nb else if j =? nb then np else j))).
Proof.
  intros Hb. unfold LOOP_.
  apply (wp_loopJ (fun i (_ : unit) t => evs t = evs s /\ (forall q, ~ (datmat <= q < a) -> mm t q = mm s q) /\
       forall k j, 1 <= k <= mpp -> 1 <= j <= np ->
         get t (DAT k j) = get s (DAT k (if k <? i then if j =? np then nb else if j =? nb then np else j else j)))).
  - lia.
  - split; [reflexivity|]. split; [auto|]. intros k j Hk Hj. destruct (Z.ltb_spec k 1); [lia|reflexivity].
  - intros i u t Hi (T1 & T2 & T3). apply wp_bind, wp_ldg, wp_bind, wp_assign, wp_ldg, wp_assign, wp_ret. rewrite !T3 by lia.
    destruct (Z.ltb_spec i i) as [|_]; [lia|]. pose proof (datr i np Hi ltac:(lia)). pose proof (datr i nb Hi ltac:(lia)).
    split; [exact T1|]. split.
    + intros q Hq. rewrite !upd_other by lia. auto.
    + intros k j Hk Hj. destruct (Z.eq_dec k i) as [->|Ne].
      * destruct (Z.ltb_spec i (i + 1)); [|lia]. destruct (Z.eqb_spec j np) as [->|N1].
        -- rewrite get_other by (apply dat_ne; lia). apply get_same.
        -- destruct (Z.eqb_spec j nb) as [->|N2]; [apply get_same|]. rewrite !get_other by (apply dat_ne; lia).
           rewrite T3 by lia. destruct (Z.ltb_spec i i); [lia|reflexivity].
      * rewrite !get_other by (apply dat_ne; lia). rewrite T3 by lia. destruct (Z.ltb_spec k i), (Z.ltb_spec k (i + 1)); try lia; reflexivity.
  - intros u t (T1 & T2 & T3). split; [exact T1|]. split; [exact T2|]. intros k j Hk Hj. rewrite T3 by lia.
    destruct (Z.ltb_spec k (mpp + 1)); [reflexivity|lia].
Qed.

Definition moved (s t : mst) (nb i j : Z) : R :=
  (if j =? np then get s (SIM i np) + get s (SIM i nb) else (if j =? nb then 0 else get s (SIM i j)) - get s (SIM i nb))%R.
Lemma b_moverow nb i s : 1 <= nb <= n -> 1 <= i <= n ->
  wp (bind (ld (SIM i nb)) (fun temp =>
      bind (assign (SIM i nb) (ret zero)) (fun _ => bind (assign_add (SIM i np) (ret temp)) (fun _ =>
      bind (LOOP n (fun k tempa => bind (assign_sub (SIM i k) (ret temp)) (fun _ => lift2 nsub (ret tempa) (ld (SIMI k i)))) zero)
        (fun tempa => assign (SIMI nb i) (ret tempa)))))) s
    (fun _ t => evs t = evs s /\ (forall q, datmat <= q < a -> mm t q = mm s q) /\
       forall k j, 1 <= k <= n -> 1 <= j <= np -> get t (SIM k j) = if k =? i then moved s t nb i j else get s (SIM k j)).
Proof.
  intros Hb Hi. pose proof nn1. apply wp_bind, wp_ldg. set (temp := get s (SIM i nb)).
  apply wp_bind, wp_assign, wp_ret. apply wp_bind, wp_assign_add, wp_ldg, wp_ret. unfold zero. cbn [nadd nZ NumR].
  rewrite get_other by (apply sim_ne; lia). set (t2 := upd _ (SIM i np) _).
  assert (E2 : evs t2 = evs s) by reflexivity.
  assert (D2 : forall q, datmat <= q < a -> mm t2 q = mm s q).
  { intros q Hq. unfold t2. pose proof (simr i np Hi ltac:(lia)). pose proof (simr i nb Hi ltac:(lia)). rewrite !upd_other by lia. reflexivity. }
  assert (S2 : forall k j, 1 <= k <= n -> 1 <= j <= np -> get t2 (SIM k j) =
    if k =? i then if j =? np then (get s (SIM i np) + temp)%R else if j =? nb then 0%R else get s (SIM i j) else get s (SIM k j)).
  { intros k j Hk Hj. unfold t2. destruct (Z.eqb_spec k i) as [->|N1]; [|rewrite !get_other by (apply sim_ne; lia); reflexivity].
    destruct (Z.eqb_spec j np) as [->|N2]; [apply get_same|]. rewrite get_other by (apply sim_ne; lia).
    destruct (Z.eqb_spec j nb) as [->|N3]; [apply get_same|]. rewrite get_other by (apply sim_ne; lia). reflexivity. }
  clearbody t2. apply wp_bind. unfold LOOP.
  apply (wp_loopJ (fun l (_ : N) t => evs t = evs s /\ (forall q, datmat <= q < a -> mm t q = mm s q) /\
       forall k j, 1 <= k <= n -> 1 <= j <= np -> get t (SIM k j) = (if (k =? i) && (j <? l) then get t2 (SIM k j) - temp else get t2 (SIM k j))%R)).
  - lia.
  - split; [exact E2|]. split; [exact D2|]. intros k j Hk Hj. destruct (Z.ltb_spec j 1); [lia|]. rewrite andb_false_r. reflexivity.
  - intros l u t Hl (T1 & T2 & T3). apply wp_bind, wp_assign_sub, wp_ldg, wp_ret. apply wp_lift2, wp_ret, wp_ldg.
    pose proof (simr i l Hi ltac:(lia)). split; [exact T1|]. split.
    + intros q Hq. rewrite upd_other by lia. auto.
    + intros k j Hk Hj. destruct (Z.eq_dec k i) as [->|N1].
      * rewrite Z.eqb_refl. cbn [andb]. destruct (Z.eq_dec j l) as [->|N2].
        -- rewrite get_same, T3 by lia. rewrite Z.eqb_refl. cbn [andb]. destruct (Z.ltb_spec l l), (Z.ltb_spec l (l + 1)); try lia. reflexivity.
        -- rewrite get_other by (apply sim_ne; lia). rewrite T3 by lia. rewrite Z.eqb_refl. cbn [andb].
           destruct (Z.ltb_spec j l), (Z.ltb_spec j (l + 1)); try lia; reflexivity.
      * rewrite get_other by (apply sim_ne; lia). rewrite T3 by lia. destruct (Z.eqb_spec k i); [lia|reflexivity].
  - intros u t (T1 & T2 & T3). apply wp_assign, wp_ret. pose proof (simir nb i ltac:(lia) Hi). split; [exact T1|]. split.
    + intros q Hq. rewrite upd_other by lia. auto.
    + intros k j Hk Hj. pose proof (simr k j Hk Hj). rewrite get_other by lia. rewrite T3, S2 by lia. unfold moved. fold temp.
      destruct (Z.eqb_spec k i) as [->|N1]; [|reflexivity]. cbn [andb].
      destruct (Z.eqb_spec j np) as [->|N2]; [destruct (Z.ltb_spec np (n + 1)); [lia|reflexivity]|].
      destruct (Z.ltb_spec j (n + 1)); [reflexivity|lia].
Qed.
Lemma b_pole L nb s : 1 <= nb <= np -> all L s -> wp (co_pole n m sim simi datmat nb) s (fun _ t => evs t = evs s /\ all L t).
Proof.
  intros Hb HA. unfold co_pole. destruct (Z.leb_spec nb n) as [Hn'|Hn']; [|apply wp_ret; auto].
  apply wp_bind. eapply wp_weak; [apply b_swap; lia|]. intros _ s1 (E1 & F1 & D1). unfold LOOP_.
  apply (wp_loopJ (fun i (_ : unit) t => evs t = evs s /\ (forall q, datmat <= q < a -> mm t q = mm s1 q) /\
       forall k j, 1 <= k <= n -> 1 <= j <= np -> get t (SIM k j) = if k <? i then moved s t nb k j else get s (SIM k j))).
  - lia.
  - split; [exact E1|]. split; [auto|]. intros k j Hk Hj. destruct (Z.ltb_spec k 1); [lia|].
    unfold get. rewrite F1; [reflexivity|]. pose proof (simr k j Hk Hj). pose proof nn1. lia.
  - intros i u t Hi (T1 & T2 & T3). eapply wp_weak; [apply b_moverow; lia|]. intros _ t' (U1 & U2 & U3).
    split; [congruence|]. split; [intros q Hq; rewrite U2 by exact Hq; auto|]. intros k j Hk Hj. rewrite U3 by lia.
    destruct (Z.eqb_spec k i) as [->|Ne].
    + destruct (Z.ltb_spec i (i + 1)); [|lia]. unfold moved. rewrite !T3 by lia. destruct (Z.ltb_spec i i); [lia|reflexivity].
    + rewrite T3 by lia. destruct (Z.ltb_spec k i), (Z.ltb_spec k (i + 1)); try lia; reflexivity.
  - intros u t (T1 & T2 & T3). split; [exact T1|].
    assert (S : forall k j, 1 <= k <= n -> 1 <= j <= np -> get t (SIM k j) = moved s t nb k j).
    { intros k j Hk Hj. rewrite T3 by lia. destruct (Z.ltb_spec k (n + 1)); [reflexivity|lia]. }
    assert (D : forall k j, 1 <= k <= mpp -> 1 <= j <= np ->
         get t (DAT k j) = get s (DAT k (if j =? np then nb else if j =? nb then np else j))).
    { intros k j Hk Hj. unfold get at 1. rewrite T2 by (apply datr; lia). apply D1; lia. }
    intros j Hj. assert (HA' := HA (if j =? np then nb else if j =? nb then np else j)). unfold gv in HA'.
    eapply tried_ext; [| | |apply HA'].
    + clear HA'. intros i Hi. unfold vertex. destruct (Z.eqb_spec j np) as [->|N1].
      * destruct (Z.eqb_spec nb np); [lia|]. rewrite S by lia. unfold moved. rewrite Z.eqb_refl. reflexivity.
      * rewrite !S by lia. unfold moved. rewrite Z.eqb_refl. destruct (Z.eqb_spec j np); [lia|].
        destruct (Z.eqb_spec j nb) as [->|N2].
        -- rewrite Z.eqb_refl. ring.
        -- destruct (Z.eqb_spec j np); [lia|]. ring.
    + symmetry. apply D; lia.
    + symmetry. apply D; lia.
    + destruct (j =? np); [lia|]. destruct (j =? nb); lia.
Qed.

Lemma wp_any {A B} (p : prog A) (q : A -> prog B) s Q : (forall a s', wp (q a) s' Q) -> wp (bind p q) s Q.
Proof. intros H. apply wp_bind. intros r s' _. apply H. Qed.
Lemma b_best mu (s : mst) : wp (co_best (N := N) n m datmat mu) s (fun nb _ => 1 <= nb <= np).
Proof.
  unfold co_best. apply wp_any. intros phi s1. apply wp_bind. unfold LOOP.
  apply (wp_loopJ (fun _ (r : Z * N) _ => 1 <= fst r <= np)).
  - lia.
  - cbn [fst]. lia.
  - intros j [nb ph] t Hj Hr. apply wp_any. intros temp s2. destruct (nlt temp ph); [apply wp_ret; cbn [fst]; lia|].
    destruct (andb _ _); [|apply wp_ret; exact Hr]. apply wp_ifp. intros b s3 _. destruct b; apply wp_ret; cbn [fst] in *; lia.
  - intros [nb ph] t Hr. apply wp_ret. exact Hr.
Qed.

(** The new vertex JDROP *)
Definition PQ (jdrop q : Z) : Prop := ~ (simi <= q < datmat) /\ forall i, 1 <= i <= n -> q <> SIM i jdrop.
Definition PNS (q : Z) : Prop := ~ (simi <= q < datmat).
Lemma b_replace jdrop s : 1 <= jdrop <= n ->
  wp (co_replace n sim simi dx jdrop) s (fun _ t => keepg (PQ jdrop) s t /\ forall i, 1 <= i <= n -> get t (SIM i jdrop) = get s (at1 dx i)).
Proof.
  intros Hj. pose proof nn1. unfold co_replace. apply wp_bind. unfold LOOP at 1.
  apply (wp_loopJ (fun i (_ : N) t => keepg (PQ jdrop) s t /\ forall k, 1 <= k < i -> get t (SIM k jdrop) = get s (at1 dx k))).
  - lia.
  - split; [apply keepg_refl|]. intros k Hk. lia.
  - intros i u t Hi [T1 T2]. apply wp_bind, wp_assign, wp_ldg.
    assert (E : get t (at1 dx i) = get s (at1 dx i)).
    { apply (get_keep _ _ _ _ T1). pose proof (gdxr i Hi). split; [lia|]. intros k Hk. pose proof (simr k jdrop Hk ltac:(lia)). lia. }
    apply wp_lift2, wp_ret. apply wp_lift2, wp_ldg, wp_ldg. split.
    + eapply keepg_trans; [exact T1|]. apply keepg_upd. intros [_ K]. apply (K i Hi). reflexivity.
    + intros k Hk. destruct (Z.eq_dec k i) as [->|Ne]; [rewrite get_same; exact E|]. rewrite get_other by (apply sim_ne; lia). apply T2. lia.
  - intros temp t [T1 T2].
    assert (K : keeps PNS (
      (LOOP_ n (fun i => SIMI jdrop i <~ !(SIMI jdrop i) / $temp) ;;
       LOOP_ n (fun j => if (j =? jdrop)%Z then $tt else
         let* temp := LOOP n (fun i temp => $temp + !(SIMI j i) * ld (at1 dx i)) zero in
         LOOP_ n (fun i => SIMI j i -~ $temp * !(SIMI jdrop i))))%bq)).
    { kp; match goal with |- ~ _ (at2 simi n ?i ?j) => pose proof (simir i j ltac:(lia) ltac:(lia)) end; unfold PNS; lia. }
    eapply wp_weak; [apply K|]. intros u t' K'. cbv beta in K'. split.
    + eapply keepg_trans; [exact T1|]. split; [apply K'|]. intros q [Hq _]. apply K', Hq.
    + intros i Hi. rewrite (get_keep _ _ _ (SIM i jdrop) K'); [apply T2; lia|]. unfold PNS. pose proof (simr i jdrop Hi ltac:(lia)). lia.
Qed.
(** The other vertices do not change *)
Lemma replace_gv L jdrop s t j : 1 <= jdrop <= n -> keepg (PQ jdrop) s t -> 1 <= j <= np -> j <> jdrop -> gv L s j -> gv L t j.
Proof.
  intros Hd K Hj Ne. pose proof nn1.
  assert (S : forall i k, 1 <= i <= n -> 1 <= k <= np -> k <> jdrop -> get t (SIM i k) = get s (SIM i k)).
  { intros i k Hi Hk Nk. apply (get_keep _ _ _ _ K). pose proof (simr i k Hi Hk). split; [lia|]. intros i' Hi'. apply sim_ne; lia. }
  assert (D : forall i k, 1 <= i <= mpp -> 1 <= k <= np -> get t (DAT i k) = get s (DAT i k)).
  { intros i k Hi Hk. apply (get_keep _ _ _ _ K). pose proof (datr i k Hi Hk). split; [lia|]. intros i' Hi'.
    pose proof (simr i' jdrop Hi' ltac:(lia)). lia. }
  apply gv_ext; [intros i Hi; apply S; lia|intros _ i Hi; apply S; lia|apply D; lia|apply D; lia|exact Hj].
Qed.
Lemma atx_ne i q : 1 <= i <= n -> con <= q < wend -> q <> at1 x i.
Proof. intros Hi Hq. unfold at1. lia. Qed.

(** X = SIM(.,NP) + DX *)
Lemma b_setx s : wp (LOOP_ n (fun j => assign (at1 x j) (lift2 nadd (ld (SIM j np)) (ld (at1 dx j))))) s (fun _ t =>
  keepg (fun q => con <= q < wend) s t /\ forall i, 1 <= i <= n -> curx t i = (get t (SIM i np) + get t (at1 dx i))%R).
Proof.
  pose proof nn1. unfold LOOP_.
  eapply wp_weak; [apply (wp_fill 1 n (at1 x) _ (fun i => (get s (SIM i np) + get s (at1 dx i))%R))|].
  - lia.
  - unfold at1. lia.
  - intros i t Hi K. apply wp_lift2, wp_ldg, wp_ldg. split; [reflexivity|].
    pose proof (simr i np Hi ltac:(lia)). pose proof (gdxr i Hi).
    rewrite !(get_keep _ _ _ _ K); [reflexivity| |]; intros j Hj; apply atx_ne; lia.
  - intros _ t [K E]. assert (K' : keepg (fun q => con <= q < wend) s t).
    { split; [apply K|]. intros q Hq. apply K. intros j Hj. apply atx_ne; auto. }
    split; [exact K'|]. intros i Hi. unfold curx. rewrite E by exact Hi. pose proof (simr i np Hi ltac:(lia)). pose proof (gdxr i Hi).
    rewrite !(get_keep _ _ _ _ K') by lia. reflexivity.
Qed.
Lemma b_vertex {B} v jdrop s : jdrop <= n -> c_ibrnch v <> 1 -> np <= c_nfvals v -> all (evs s) s ->
  wp (co_vertex n m x sim simi datmat a vsig dx (B := B) v jdrop) s bpost.
Proof.
  intros Hj Hb Hf HA. pose proof nn1. unfold co_vertex.
  destruct (Z_lt_ge_dec jdrop 1) as [Hz|Hz].
  { repeat first [apply wp_ret | apply wp_any; intros ? ? | match goal with |- wp (let '(_, _) := ?p in _) _ _ => destruct p end].
    gr. unfold clab. cvs. intros [_ [E|E]]; [contradiction|lia]. }
  apply (wp_keep PX _ _ s); [kp|apply keepg_refl|]. intros temp s1 K1.
  apply (wp_keep PX _ _ s); [kp; nps|exact K1|]. intros _ s2 K2.
  apply (wp_keep PX _ _ s); [kp|exact K2|]. intros [[cp cm] su] s3 K3. cbv zeta.
  apply (wp_keep PX _ _ s); [kp; nps|exact K3|]. intros _ s4 K4.
  assert (A4 : all (evs s) s4) by (eapply all_keep; [|exact K4|exact HA]; intros q Hq; left; exact Hq).
  apply wp_bind. eapply wp_weak; [apply b_replace; lia|]. intros _ s5 [K5 D5].
  assert (A5 : forall j, 1 <= j <= np -> j <> jdrop -> gv (evs s) s5 j).
  { intros j Hj' Ne. eapply replace_gv; eauto. lia. }
  apply wp_bind. eapply wp_weak; [apply b_setx|]. intros _ s6 [K6 D6].
  assert (A6 : forall j, 1 <= j <= np -> j <> jdrop -> gv (evs s) s6 j).
  { intros j Hj' Ne. eapply gv_keep; [|exact K6|exact Hj'|auto]. intros q Hq. cbv beta. unfold PS in Hq. lia. }
  assert (E6 : evs s6 = evs s) by (rewrite (proj1 K6), (proj1 K5), (proj1 K4); reflexivity).
  apply wp_ret. gr. intros _. split; [lia|]. unfold atcall. cvs. rewrite E6. split; [intros _; apply A6; lia|]. split; [lia|]. intros _.
  split; [|split; [lia|]].
  - intros i Hi. rewrite D6 by exact Hi. rewrite vertex_n by lia. f_equal.
    pose proof (simr i jdrop Hi ltac:(lia)). pose proof (gdxr i Hi). rewrite !(get_keep _ _ _ _ K6) by lia. rewrite D5 by exact Hi.
    apply (get_keep _ _ _ _ K5). split; [lia|]. intros k Hk. pose proof (simr k jdrop Hk ltac:(lia)). lia.
  - intros _. split; [lia|]. exact A6.
Qed.
Lemma b_drop p (s : mst) : wp (co_drop (N := N) n vsig veta p) s (fun j _ => j <= n).
Proof.
  unfold co_drop. apply wp_bind. unfold LOOP at 1. apply (wp_loopJ (fun _ (r : Z * N) _ => fst r <= n)).
  - lia.
  - cbn [fst]. lia.
  - intros j [jd e] t Hj Hr. apply wp_any. intros e' s1. apply wp_ret. destruct (nlt e e'); cbn [fst] in *; lia.
  - intros [jd e] t Hr. cbn [fst] in Hr. destruct (jd =? 0); [|apply wp_ret; exact Hr]. apply wp_bind. unfold LOOP.
    apply (wp_loopJ (fun _ (r : Z * N) _ => fst r <= n)).
    + lia.
    + exact Hr.
    + intros j [jd' e2] t' Hj Hr'. apply wp_any. intros e' s1. apply wp_ret. destruct (nlt e' e2); cbn [fst] in *; lia.
    + intros [jd' e2] t' Hr'. apply wp_ret. exact Hr'.
Qed.
Lemma PSX q : PS q -> PX q. Proof. left. exact H. Qed.

Lemma b_140 {B} v s : binv (C140, v) s -> wp (co_140 n m x con sim simi datmat a vsig veta dx w (B := B) v) s bpost.
Proof.
  intros [Hf HA]. cbn [snd] in *. unfold co_140. apply wp_bind.
  intros nb s1 E. assert (Hb := b_best _ _ _ _ E). cbv beta in Hb. destruct (k_best _ _ _ _ E) as [E1 K1].
  assert (A1 : all (evs s1) s1) by (rewrite E1; eapply all_keep; [apply PSX|split; [exact E1|exact K1]|exact HA]).
  clear E E1 K1 HA. clear s. rename s1 into s, A1 into HA.
  apply wp_bind. eapply wp_weak; [apply b_pole; [exact Hb|exact HA]|]. intros _ s1 [E1 A1]. rewrite <- E1 in A1. clear HA E1 s.
  apply (wp_keep PX _ _ s1); [apply k_error|apply keepg_refl|]. intros er s2 K2. unfold cfail, cgoto.
  destruct (nlt tenth er).
  { apply wp_ret. gr. intros _. rewrite (proj1 K2). eapply gv_keep; [apply PSX|exact K2|lia|apply A1; lia]. }
  apply (wp_keep PX _ _ s1); [apply k_linear|exact K2|]. intros _ s3 K3. cbv zeta.
  apply (wp_keep PX _ _ s1); [apply k_sigma|exact K3|]. intros iflag s4 K4.
  assert (A4 : all (evs s4) s4) by (rewrite (proj1 K4); eapply all_keep; [apply PSX|exact K4|exact A1]).
  destruct (orb _ _) eqn:Eb.
  { apply wp_ret. gr. intros _. split; [exact Hf|exact A4]. }
  apply wp_bind. intros jd s5 E. assert (Hj := b_drop _ _ _ _ E). cbv beta in Hj. destruct (k_drop _ _ _ _ E) as [E5 K5]. clear E.
  apply b_vertex; cvs; auto.
  - apply orb_false_iff in Eb. destruct Eb as [Eb _]. apply Z.eqb_neq in Eb. exact Eb.
  - rewrite E5. eapply all_keep; [apply PSX|split; [exact E5|exact K5]|exact A4].
Qed.

Lemma b_550 {B} v s : binv (C550, v) s -> wp (co_550 n m rhoend datmat (B := B) v) s bpost.
Proof.
  intros (Hf & HA & Hc). cbn [snd] in *. unfold co_550, cgoto. destruct (c_iflag v =? 0); [apply wp_ret; gr; auto|].
  destruct (nlt rhoend (c_rho v)).
  - cbv zeta. eapply wp_keep; [|apply keepg_refl|].
    + match goal with |- keeps _ (if ?b then _ else _) => destruct b end; [apply k_parmu|apply keeps_ret].
    + intros mu s1 K1. apply wp_ret. gr. intros _. split; [exact Hf|]. rewrite (proj1 K1). eapply all_keep; [apply PSX|exact K1|exact HA].
  - cbv zeta. cvs. destruct (Z.eqb_spec (c_ifull v) 1) as [E|E]; apply wp_ret; gr; intros _.
    + exact (Hc E).
    + apply HA. lia.
Qed.

(** ** The steps of the trust region *)
Variables (Rd : Z -> Prop) (C : Z -> option N).
Hypothesis (HRd : forall q, con <= q < wend -> Rd q) (HC : forall q v, C q = Some v -> ~ (con <= q < wend)).
Lemma zeq : neq (zero : N) zero = true.
Proof. unfold zero. cbn [neq nZ NumR]. apply Req_bool_true. reflexivity. Qed.
Lemma k_trstlp fuel rho s : good Rd C s ->
  wp (trstlp n m a con rho dx w (w + n * n) (w + n * n + n) (w + n * n + n + mp) (w + n * n + n + mp + n) (w + n * n + n + mp + n + n) fuel) s
    (fun r t => keepg PX s t /\ (r = 0 \/ r = 1)).
Proof.
  intros Gs. pose proof nn1. eapply wp_safe with (W := G) (Rd := Rd) (C := C); [apply trstlp_safe|exact Gs|]; auto.
  - exact zeq.
  - intros q Hq. cbv beta in Hq. apply HRd. lia.
  - intros q v Hq K. apply (HC q v Hq). lia.
  - intros i j Hi Hj. apply HRd. pose proof (Ga i j Hi Hj). cbv beta in *. lia.
  - intros i Hi. apply HRd. unfold at1. lia.
  - intros r t Hr _ [F E]. split; [|exact Hr]. split; [exact E|]. intros q Hq. apply F. unfold PX, PS in Hq. lia.
Qed.
Lemma b_370 {B} fuel v s : good Rd C s -> binv (C370, v) s -> wp (co_370 n m x con sim datmat a dx w (B := B) fuel v) s bpost.
Proof.
  intros Gs [Hf HA]. cbn [snd] in *. pose proof nn1. unfold co_370. cbv zeta. apply wp_bind.
  eapply wp_weak; [apply k_trstlp, Gs|]. intros ifull s1 [K1 Hr]. unfold cgoto.
  assert (A : forall t, keepg PX s t -> all (evs t) t).
  { intros t K. rewrite (proj1 K). eapply all_keep; [apply PSX|exact K|exact HA]. }
  apply wp_bind. eapply wp_weak with (P := fun b t => keepg PX s t /\ (b = true -> ifull = 0)).
  { destruct (Z.eqb_spec ifull 0) as [E|E].
    - intros b t E'. split; [|intros _; exact E].
      assert (K : keeps PX (let* temp := LOOP n (fun i temp => $temp + ld (at1 dx i) * ld (at1 dx i)) zero in
         $(nlt temp (nmul (nmul (nQ 1 4) (c_rho (p_ifull ifull v))) (c_rho (p_ifull ifull v)))))%bq) by kp.
      exact (keepg_trans PX _ _ _ K1 (K _ _ _ E')).
    - apply wp_ret. split; [exact K1|discriminate]. }
  intros short s2 [K2 Hs]. destruct short.
  { apply wp_ret. gr. intros _. split; [exact Hf|]. split; [apply A, K2|]. specialize (Hs eq_refl). lia. }
  apply (wp_keep PX _ _ s); [kp; nps|exact K2|]. intros _ s3 K3.
  apply (wp_keep PX _ _ s); [kp|exact K3|]. intros [rn su] s4 K4.
  apply (wp_keep PX _ _ s); [kp|exact K4|]. intros prerec s5 K5.
  apply (wp_keep PX _ _ s); [match goal with |- keeps _ (if ?b then _ else _) => destruct b end; [apply k_altered|apply keeps_ret]|exact K5|].
  intros alt s6 K6. destruct alt.
  { apply wp_ret. gr. intros _. split; [exact Hf|apply A, K6]. }
  apply wp_bind. eapply wp_weak; [apply b_setx|]. intros _ s7 [K7 D7]. apply wp_ret. gr. intros _. split; [lia|].
  assert (A7 : all (evs s7) s7).
  { rewrite (proj1 K7). eapply all_keep; [|exact K7|apply A, K6]. intros q Hq. cbv beta. unfold PS in Hq. lia. }
  unfold atcall. cvs. split; [intros _; apply A7; lia|]. split; [|lia]. intros _. split; [exact Hf|]. split; [exact A7|exact D7].
Qed.

Lemma k_choose v tr : keeps PC (co_choose (N := N) n sim simi vsig veta sigbar dx v tr).
Proof.
  unfold co_choose. kp. pose proof nn1. match goal with |- ~ _ (at1 sigbar ?i) => pose proof (Gsig i ltac:(lia)) end.
  unfold PC, PX, PS. cbv beta in *. intros [K|[K|(j & Hj & K)]]; unfold at1 in *; lia.
Qed.
Lemma b_choose v tr (s : mst) : wp (co_choose (N := N) n sim simi vsig veta sigbar dx v tr) s (fun j _ => 0 <= j <= n).
Proof.
  unfold co_choose. cbv zeta. apply wp_bind. unfold LOOP at 1. apply (wp_loopJ (fun _ (r : Z * N) _ => 0 <= fst r <= n)).
  - lia.
  - cbn [fst]. lia.
  - intros j [jd e] t Hj Hr. apply wp_any. intros e' s1. apply wp_any. intros e2 s2. apply wp_ret. destruct (nlt e _); cbn [fst] in *; lia.
  - intros [jd e] t Hr. cbn [fst] in Hr. apply wp_bind. unfold LOOP at 1.
    apply (wp_loopJ (fun _ (r : Z * N) _ => 0 <= fst r <= n)).
    + lia.
    + cbn [fst]. lia.
    + intros j [l e2] t' Hj Hr'. apply wp_ifp. intros b s1 _. destruct b; [|apply wp_ret; exact Hr'].
      apply wp_any. intros e3 s2. apply wp_any. intros e4 s3. apply wp_ret. destruct (nlt _ _); cbn [fst] in *; lia.
    + intros [l e2] t' Hr'. cbn [fst] in Hr'. apply wp_ret. destruct (0 <? l); lia.
Qed.
Lemma PSC q : PS q -> PC q. Proof. intros H. left. left. exact H. Qed.

Lemma b_440 {B} v s : binv (C440, v) s -> wp (co_440 n m con sim simi datmat vsig veta sigbar dx (B := B) v) s bpost.
Proof.
  intros (Hf & HA & Hc & Hx & Hcf & Hcr). cbn [snd] in *. pose proof nn1. unfold co_440. cbv zeta.
  apply wp_bind, wp_ldg, wp_bind, wp_ldg. set (b := andb _ _).
  set (v1 := if b then p_prerem (c_prerec v) v else v). set (tr := if b then _ else _).
  assert (Ev : c_f v1 = c_f v /\ c_resmax v1 = c_resmax v /\ c_nfvals v1 = c_nfvals v /\ c_ifull v1 = c_ifull v)
    by (unfold v1; destruct b; auto).
  clearbody v1 tr. clear b. destruct Ev as (Ev1 & Ev2 & Ev3 & Ev4).
  apply wp_bind. intros jd s1 E. assert (Hj := b_choose _ _ _ _ _ E). cbv beta in Hj. assert (K1 := k_choose _ _ _ _ _ E). cbv beta in K1. clear E.
  assert (A1 : all (evs s1) s1) by (rewrite (proj1 K1); eapply all_keep; [apply PSC|exact K1|exact HA]).
  assert (X1 : forall i, 1 <= i <= n -> curx s1 i = curx s i).
  { intros i Hi. unfold curx. apply (get_keep _ _ _ _ K1). left. right. unfold at1. lia. }
  assert (C1 : curtried (evs s1) (p_jdrop jd v1) s1).
  { rewrite (proj1 K1). unfold curtried in *. cvs. eapply tried_ext; [| | |exact Hc]; auto. intros i Hi. symmetry. apply X1, Hi. }
  unfold cgoto. destruct (Z.eqb_spec jd 0) as [Ej|Ej].
  { apply wp_ret. gr. intros _. rewrite Ev3. split; [exact Hf|]. split; [exact A1|]. intros _. exact C1. }
  apply wp_bind. eapply wp_weak; [apply b_replace; lia|]. intros _ s2 [K2 D2].
  apply wp_bind. unfold LOOP_. eapply wp_weak; [apply (wp_fill 1 mpp (fun k => DAT k jd) _ (fun k => get s1 (at1 con k)))|].
  - lia.
  - intros i j Hi Hj' E. apply at2_inj in E; lia.
  - intros i t Hi K. apply wp_ldg. split; [reflexivity|]. rewrite (get_keep _ _ _ _ K).
    + apply (get_keep _ _ _ _ K2). split; [unfold at1; lia|]. intros k Hk. pose proof (simr k jd Hk ltac:(lia)). unfold at1. lia.
    + intros j Hj'. pose proof (datr j jd ltac:(lia) ltac:(lia)). unfold at1. lia.
  - intros _ s3 [K3 D3]. cbv beta in K3, D3.
    assert (E3 : evs s3 = evs s) by (rewrite (proj1 K3), (proj1 K2), (proj1 K1); reflexivity).
    assert (S3 : forall i j, 1 <= i <= n -> 1 <= j <= np -> get s3 (SIM i j) = get s2 (SIM i j)).
    { intros i j Hi Hj'. apply (get_keep _ _ _ _ K3). intros k Hk. pose proof (datr k jd Hk ltac:(lia)). pose proof (simr i j Hi Hj'). lia. }
    assert (X3 : forall i, 1 <= i <= n -> curx s3 i = curx s i).
    { intros i Hi. rewrite <- X1 by exact Hi. unfold curx. rewrite (get_keep _ _ _ _ K3).
      - apply (get_keep _ _ _ _ K2). split; [unfold at1; lia|]. intros k Hk. pose proof (simr k jd Hk ltac:(lia)). unfold at1. lia.
      - intros k Hk. pose proof (datr k jd Hk ltac:(lia)). unfold at1. lia. }
    assert (P1 : forall k, 1 <= k <= mpp -> get s1 (at1 con k) = get s (at1 con k)).
    { intros k Hk. apply (get_keep _ _ _ _ K1). right. left. unfold at1. lia. }
    assert (A3 : all (evs s3) s3).
    { intros j Hj'. rewrite E3. destruct (Z.eq_dec j jd) as [->|Ne].
      - eapply tried_ext; [| | |exact Hc].
        + intros i Hi. rewrite Hx by exact Hi. rewrite vertex_n by lia. rewrite !S3 by lia. f_equal.
          * rewrite (get_keep _ _ _ (SIM i np) K2); [symmetry; apply (get_keep _ _ _ _ K1), PSC, PS_sim; lia|].
            pose proof (simr i np Hi ltac:(lia)). split; [lia|]. intros k Hk. apply sim_ne; lia.
          * rewrite D2 by exact Hi. symmetry. apply (get_keep _ _ _ _ K1). right. right. exists i. auto.
        + rewrite D3 by lia. rewrite P1 by lia. symmetry. exact Hcf.
        + rewrite D3 by lia. rewrite P1 by lia. symmetry. exact Hcr.
      - assert (G2 : gv (evs s) s2 j).
        { eapply replace_gv; [|exact K2|exact Hj'|exact Ne|]; [lia|]. rewrite <- (proj1 K1). apply A1, Hj'. }
        eapply gv_ext; [| | | |exact Hj'|exact G2].
        + intros i Hi. apply S3; lia.
        + intros _ i Hi. apply S3; lia.
        + apply (get_keep _ _ _ _ K3). intros k Hk. apply dat_ne; lia.
        + apply (get_keep _ _ _ _ K3). intros k Hk. apply dat_ne; lia. }
    destruct (andb _ _); apply wp_ret; gr; intros _; rewrite Ev3; (split; [exact Hf|]).
    + exact A3.
    + split; [exact A3|]. intros _. rewrite E3. unfold curtried in *. cvs. eapply tried_ext; [| | |exact Hc]; auto.
      intros i Hi. symmetry. apply X3, Hi.
Qed.

(** ** The new values *)
Lemma b_resmax h p s : (forall k, 0 <= k < m -> get s (con + k) = cn h p k) ->
  wp (co_resmax (N := N) m con None) s (fun r t => t = s /\ worst h p r).
Proof.
  intros Hc. unfold co_resmax.
  apply (wp_loopJ (fun k (r : R) t => t = s /\ (0 <= r)%R /\ (forall j, 0 <= j < k -> (- cn h p j <= r)%R) /\
    (r = 0%R \/ exists j, 0 <= j < k /\ r = (- cn h p j)%R))).
  - lia.
  - split; [reflexivity|]. unfold zero. cbn [nZ NumR num]. split; [lra|]. split; [lia|]. left. reflexivity.
  - intros k r t Hk (-> & T1 & T2 & T3). apply wp_bind, wp_lift1, wp_ldg, wp_ret. rewrite Hc by lia. cbn [nlt nopp NumR].
    split; [reflexivity|]. destruct (Rlt_bool_spec r (- cn h p k)) as [E|E].
    + split; [lra|]. split.
      * intros j Hj. destruct (Z.eq_dec j k) as [->|Ne]; [lra|]. specialize (T2 j ltac:(lia)). lra.
      * right. exists k. split; [lia|reflexivity].
    + split; [exact T1|]. split.
      * intros j Hj. destruct (Z.eq_dec j k) as [->|Ne]; [exact E|]. apply T2. lia.
      * destruct T3 as [T3|(j & Hj & T3)]; [left; exact T3|right; exists j; split; [lia|exact T3]].
  - intros r t (-> & T1 & T2 & T3). split; [reflexivity|]. split; [exact T1|]. replace (m - 1 + 1) with m in * by lia. auto.
Qed.

(** The first evaluations; [k] is the number of the vertices before this evaluation *)
Definition isx (s : mst) : Prop := forall i, 1 <= i <= n -> curx s i = get s (SIM i np).
Definition ginit (L : list (list N * N)) (k : Z) (s : mst) : Prop := gv L s np /\ forall j, 1 <= j <= k -> gv L s j.
Lemma b_first L (v : cvars) k (s : mst) : 1 <= k <= n -> c_jdrop v = k -> tri k (c_rho v) s -> ginit L k s ->
  (forall i, 1 <= i <= n -> curx s i = vertex s k i) -> (forall r, 1 <= r <= mpp -> get s (at1 con r) = get s (DAT r k)) ->
  wp (ifp (lift2 nle (ld (DAT mp np)) (ret (c_f v))) (assign (at1 x k) (ld (SIM k np)))
       (SIM k np <~ ld (at1 x k) ;;
        LOOP_ mpp (fun r => DAT r k <~ ld (DAT r np) ;; DAT r np <~ ld (at1 con r)) ;;
        LOOP_ k (fun j =>
          SIM k j <~ $(nopp (c_rho v)) ;;
          let* temp := loop j k (fun i temp => $temp - ld (SIMI i j)) zero in
          SIMI k j <~ $temp))%bq) s
    (fun _ t => evs t = evs s /\ isx t /\ ginit L k t /\ tri (k + 1) (c_rho v) t).
Proof.
  intros Hk Hj HT [Gp Gk] Hx Hc. pose proof nn1.
  assert (Z0 : forall i, 1 <= i <= n -> i <> k -> get s (SIM i k) = 0%R).
  { intros i Hi Ne. destruct (HT i k Hi Hk) as [H1 H2]. destruct (Z_lt_ge_dec i k) as [Hl|Hl]; [auto|].
    rewrite H2 by lia. destruct (Z.eqb_spec i k); [contradiction|reflexivity]. }
  assert (Z1 : get s (SIM k k) = c_rho v).
  { destruct (HT k k Hk Hk) as [_ H2]. rewrite H2 by lia. rewrite Z.eqb_refl. reflexivity. }
  assert (X0 : forall i, 1 <= i <= n -> i <> k -> curx s i = get s (SIM i np)).
  { intros i Hi Ne. rewrite Hx by exact Hi. rewrite vertex_n by lia. rewrite Z0 by auto. ring. }
  apply wp_ifp, wp_lift2, wp_ldg, wp_ret. destruct (nle _ _).
  - apply wp_assign, wp_ldg. set (t := upd s _ _).
    assert (K : keepg (fun q => con <= q < wend) s t).
    { apply keepg_upd. cbv beta. unfold at1. lia. }
    assert (S : forall i j, 1 <= i <= n -> 1 <= j <= np -> get t (SIM i j) = get s (SIM i j)).
    { intros i j Hi Hj'. apply (get_keep _ _ _ _ K). pose proof (simr i j Hi Hj'). lia. }
    assert (PP : forall q, PS q -> con <= q < wend) by (intros q Hq; unfold PS in Hq; lia).
    split; [reflexivity|]. split; [|split].
    + intros i Hi. rewrite S by lia. unfold curx, t. destruct (Z.eq_dec i k) as [->|Ne]; [apply get_same|].
      rewrite get_other by (unfold at1; lia). apply X0; auto.
    + split; [eapply gv_keep; [exact PP|exact K|lia|exact Gp]|]. intros j Hj'. eapply gv_keep; [exact PP|exact K|lia|apply Gk; lia].
    + intros i j Hi Hj'. rewrite S by lia. destruct (HT i j Hi Hj') as [H1 H2]. split; [exact H1|]. intros Hki. apply H2. lia.
  - apply wp_bind, wp_assign, wp_ldg. fold (curx s k). set (s1 := upd s _ _).
    assert (E1 : evs s1 = evs s) by reflexivity.
    assert (S1 : forall i j, 1 <= i <= n -> 1 <= j <= np -> get s1 (SIM i j) = if ((i =? k) && (j =? np))%bool then curx s k else get s (SIM i j)).
    { intros i j Hi Hj'. unfold s1. destruct (Z.eqb_spec i k) as [->|Ne]; cbn [andb].
      - destruct (Z.eqb_spec j np) as [->|Ne]; [apply get_same|]. rewrite get_other by (apply sim_ne; lia). reflexivity.
      - rewrite get_other by (apply sim_ne; lia). reflexivity. }
    assert (O1 : forall q, ~ (sim <= q < simi) -> mm s1 q = mm s q).
    { intros q Hq. unfold s1. pose proof (simr k np Hk ltac:(lia)). apply upd_other. lia. }
    clearbody s1. apply wp_bind. unfold LOOP_ at 1.
    eapply wp_loopJ with (J := fun r (_ : unit) t => evs t = evs s /\ (forall q, ~ (datmat <= q < a) -> mm t q = mm s1 q) /\
      forall i j, 1 <= i <= mpp -> 1 <= j <= np -> get t (DAT i j) =
        get s (DAT i (if i <? r then if j =? np then k else if j =? k then np else j else j))).
    + lia.
    + split; [exact E1|]. split; [auto|]. intros i j Hi Hj'. destruct (Z.ltb_spec i 1); [lia|]. unfold get. rewrite O1; [reflexivity|].
      pose proof (datr i j Hi Hj'). lia.
    + intros r u t Hr (T1 & T2 & T3). apply wp_bind, wp_assign, wp_ldg, wp_assign, wp_ldg.
      pose proof (datr r k Hr ltac:(lia)). pose proof (datr r np Hr ltac:(lia)).
      rewrite (get_other _ _ (at1 con r)) by (unfold at1; lia).
      assert (Ec : get t (at1 con r) = get s (DAT r k)).
      { rewrite <- Hc by exact Hr. unfold get. rewrite T2 by (unfold at1; lia). rewrite O1 by (unfold at1; lia). reflexivity. }
      rewrite Ec. rewrite T3 by lia. destruct (Z.ltb_spec r r); [lia|]. split; [exact T1|]. split.
      * intros q Hq. rewrite !upd_other by lia. auto.
      * intros i j Hi Hj'. destruct (Z.eq_dec i r) as [->|Ne].
        -- destruct (Z.ltb_spec r (r + 1)); [|lia]. destruct (Z.eqb_spec j np) as [->|N1]; [apply get_same|].
           rewrite get_other by (apply dat_ne; lia). destruct (Z.eqb_spec j k) as [->|N2]; [apply get_same|].
           rewrite get_other by (apply dat_ne; lia). rewrite T3 by lia. destruct (Z.ltb_spec r r); [lia|reflexivity].
        -- rewrite !get_other by (apply dat_ne; lia). rewrite T3 by lia. destruct (Z.ltb_spec i r), (Z.ltb_spec i (r + 1)); try lia; reflexivity.
    + intros u s2 (E2 & O2 & D2). unfold LOOP_.
      eapply wp_loopJ with (J := fun r (_ : unit) t => evs t = evs s /\
        (forall q, ~ (sim <= q < datmat) -> mm t q = mm s2 q) /\
        forall i j, 1 <= i <= n -> 1 <= j <= np -> get t (SIM i j) =
          if ((i =? k) && (j <? r))%bool then (- c_rho v)%R else if ((i =? k) && (j =? np))%bool then curx s k else get s (SIM i j)).
      * lia.
      * split; [exact E2|]. split; [auto|]. intros i j Hi Hj'. destruct (Z.ltb_spec j 1); [lia|]. rewrite andb_false_r.
        rewrite <- S1 by lia. unfold get. rewrite O2; [reflexivity|]. pose proof (simr i j Hi Hj'). lia.
      * intros r u' t Hr (T1 & T2 & T3). apply wp_bind, wp_assign, wp_ret.
        apply (wp_keep (fun _ => True) _ _ (upd t (SIM k r) (nopp (c_rho v)))); [kp|apply keepg_refl|]. intros temp t' K'.
        apply wp_assign, wp_ret. pose proof (simr k r Hk ltac:(lia)). pose proof (simir k r Hk ltac:(lia)).
        split; [cbn [evs upd]; rewrite (proj1 K'); exact T1|]. split.
        -- intros q Hq. rewrite upd_other by lia. rewrite (proj2 K') by exact Logic.I. rewrite upd_other by lia. auto.
        -- intros i j Hi Hj'. pose proof (simr i j Hi Hj'). rewrite get_other by lia. rewrite (get_keep _ _ _ _ K') by exact Logic.I.
           destruct (Z.eq_dec i k) as [->|Ne].
           ++ rewrite Z.eqb_refl. cbn [andb]. destruct (Z.eq_dec j r) as [->|N1].
              ** rewrite get_same. destruct (Z.ltb_spec r (r + 1)); [reflexivity|lia].
              ** rewrite get_other by (apply sim_ne; lia). rewrite T3 by lia. rewrite Z.eqb_refl. cbn [andb].
                 destruct (Z.ltb_spec j r), (Z.ltb_spec j (r + 1)); try lia; reflexivity.
           ++ rewrite get_other by (apply sim_ne; lia). rewrite T3 by lia. destruct (Z.eqb_spec i k); [lia|reflexivity].
      * intros u' t (T1 & T2 & T3).
        assert (Dt : forall i j, 1 <= i <= mpp -> 1 <= j <= np -> get t (DAT i j) = get s (DAT i (if j =? np then k else if j =? k then np else j))).
        { intros i j Hi Hj'. pose proof (datr i j Hi Hj'). unfold get at 1. rewrite T2 by lia. fold (get s2 (DAT i j)). rewrite D2 by lia.
          destruct (Z.ltb_spec i (mpp + 1)); [reflexivity|lia]. }
        assert (Xt : forall i, 1 <= i <= n -> curx t i = curx s i).
        { intros i Hi. unfold curx, get. rewrite T2, O2, O1 by (unfold at1; lia). reflexivity. }
        assert (Pt : forall i, 1 <= i <= n -> get t (SIM i np) = curx s i).
        { intros i Hi. rewrite T3 by lia. destruct (Z.ltb_spec np (k + 1)); [lia|]. rewrite andb_false_r.
          destruct (Z.eqb_spec i k) as [->|Ne]; cbn [andb]; [rewrite Z.eqb_refl; reflexivity|]. symmetry. apply X0; auto. }
        assert (Vt : forall i j, 1 <= i <= n -> 1 <= j <= n -> get t (SIM i j) = if ((i =? k) && (j <=? k))%bool then (- c_rho v)%R else get s (SIM i j)).
        { intros i j Hi Hj'. rewrite T3 by lia. destruct (Z.eqb_spec j np); [lia|]. rewrite (andb_false_r (i =? k)).
          destruct (Z.ltb_spec j (k + 1)), (Z.leb_spec j k); try lia; reflexivity. }
        assert (Xk : curx s k = (get s (SIM k np) + c_rho v)%R).
        { rewrite Hx by exact Hk. rewrite vertex_n by lia. rewrite Z1. reflexivity. }
        split; [exact T1|]. split; [|split].
        -- intros i Hi. rewrite Pt, Xt by exact Hi. reflexivity.
        -- split.
           ++ eapply tried_ext; [| | |exact (Gk k ltac:(lia))].
              ** intros i Hi. rewrite vertex_np, Pt, Hx by exact Hi. reflexivity.
              ** rewrite Dt by lia. rewrite Z.eqb_refl. reflexivity.
              ** rewrite Dt by lia. rewrite Z.eqb_refl. reflexivity.
           ++ intros j Hj'. destruct (Z.eq_dec j k) as [->|Ne].
              ** eapply tried_ext; [| | |exact Gp].
                 --- intros i Hi. rewrite vertex_np, vertex_n by lia. rewrite Pt, Vt by lia. destruct (Z.eqb_spec i k) as [->|Ni]; cbn [andb].
                     +++ destruct (Z.leb_spec k k); [|lia]. rewrite Xk. ring.
                     +++ rewrite Z0 by auto. rewrite X0 by auto. ring.
                 --- rewrite Dt by lia. destruct (Z.eqb_spec k np); [lia|]. rewrite Z.eqb_refl. reflexivity.
                 --- rewrite Dt by lia. destruct (Z.eqb_spec k np); [lia|]. rewrite Z.eqb_refl. reflexivity.
              ** eapply tried_ext; [| | |exact (Gk j Hj')].
                 --- intros i Hi. rewrite !vertex_n by lia. rewrite Pt, Vt by lia. destruct (Z.eqb_spec i k) as [->|Ni]; cbn [andb].
                     +++ destruct (Z.leb_spec j k); [|lia]. rewrite Xk. destruct (HT k j Hk ltac:(lia)) as [_ H2]. rewrite H2 by lia.
                         destruct (Z.eqb_spec k j); [lia|]. ring.
                     +++ rewrite X0 by auto. reflexivity.
                 --- rewrite Dt by lia. destruct (Z.eqb_spec j np); [lia|]. destruct (Z.eqb_spec j k); [lia|reflexivity].
                 --- rewrite Dt by lia. destruct (Z.eqb_spec j np); [lia|]. destruct (Z.eqb_spec j k); [lia|reflexivity].
        -- intros i j Hi Hj'. rewrite Vt by lia. destruct (HT i j Hi Hj') as [H1 H2]. split.
           ++ intros Hl. destruct (Z.eqb_spec i k), (Z.leb_spec j k); cbn [andb]; try lia; auto.
           ++ intros Hl. destruct (Z.eqb_spec i k); [lia|]. cbn [andb]. apply H2. lia.
Qed.

Lemma gv_cons e L s j : gv L s j -> gv (e :: L) s j.
Proof. apply tried_cons. Qed.
(** The vertex [k] becomes the next one to be tried *)
Lemma b_next {B} (v : cvars) k (s : mst) : 0 <= k <= n -> c_nfvals v = k + 1 -> c_ibrnch v <> 1 -> isx s -> ginit (evs s) k s -> tri (k + 1) (c_rho v) s ->
  wp (if (c_nfvals v <=? n) then
        bind (assign_add (at1 x (c_nfvals v)) (ret (c_rho v))) (fun _ => cgoto (B := B) Ccall (p_jdrop (c_nfvals v) v))
      else cgoto C140 (p_ibrnch 1 v)) s bpost.
Proof.
  intros Hk Hf Hb Hx [Gp Gk] HT. pose proof nn1. rewrite Hf. unfold cgoto. destruct (Z.leb_spec (k + 1) n) as [Hl|Hl].
  - apply wp_bind, wp_assign_add, wp_ldg, wp_ret, wp_ret. cbn [nadd NumR]. set (t := upd s _ _).
    assert (K : keepg (fun q => con <= q < wend) s t) by (apply keepg_upd; cbv beta; unfold at1; lia).
    assert (S : forall i j, 1 <= i <= n -> 1 <= j <= np -> get t (SIM i j) = get s (SIM i j)).
    { intros i j Hi Hj'. apply (get_keep _ _ _ _ K). pose proof (simr i j Hi Hj'). lia. }
    assert (PP : forall q, PS q -> con <= q < wend) by (intros q Hq; unfold PS in Hq; lia).
    gr. intros _. split; [lia|]. unfold atcall. cvs. rewrite Hf. rewrite (proj1 K).
    split; [intros _; eapply gv_keep; [exact PP|exact K|lia|exact Gp]|]. split; [intros E; contradiction|]. intros _. split; [|split; [|lia]].
    + intros i Hi. rewrite vertex_n by lia. rewrite !S by lia. destruct (HT i (k + 1) Hi ltac:(lia)) as [H1 H2].
      unfold curx, t. destruct (Z.eq_dec i (k + 1)) as [->|Ne].
      * rewrite get_same. rewrite H2 by lia. rewrite Z.eqb_refl. fold (curx s (k + 1)). rewrite Hx by lia. reflexivity.
      * rewrite get_other by (unfold at1; lia). fold (curx s i). rewrite Hx by exact Hi.
        assert (E : get s (SIM i (k + 1)) = 0%R).
        { destruct (Z_lt_ge_dec i (k + 1)); [apply H1; lia|]. rewrite H2 by lia. destruct (Z.eqb_spec i (k + 1)); [lia|reflexivity]. }
        rewrite E. ring.
    + intros _. destruct (Z.eqb_spec (k + 1) 0); [lia|]. split; [reflexivity|]. split.
      * intros i j Hi Hj. rewrite S by lia. apply HT; auto.
      * intros j Hj. eapply gv_keep; [exact PP|exact K|lia|apply Gk; lia].
  - apply wp_ret. gr. intros _. rewrite Hf. split; [lia|]. intros j Hj. destruct (Z.eq_dec j np) as [->|]; [exact Gp|apply Gk; lia].
Qed.
Lemma b_initial {B} (v : cvars) k (s : mst) : 0 <= k <= n -> c_nfvals v = k + 1 -> c_ibrnch v <> 1 -> c_jdrop v = (if k =? 0 then np else k) ->
  tri k (c_rho v) s -> ginit (evs s) k s -> (forall i, 1 <= i <= n -> curx s i = vertex s (c_jdrop v) i) ->
  (forall r, 1 <= r <= mpp -> get s (at1 con r) = get s (DAT r (c_jdrop v))) ->
  wp (co_initial n m x con sim simi datmat (B := B) v) s bpost.
Proof.
  intros Hk Hf Hb Hj HT HG Hx Hc. pose proof nn1. unfold co_initial. cbv zeta. destruct (Z.eqb_spec k 0) as [E|E].
  - rewrite Hj. destruct (Z.leb_spec np n) as [|_]; [lia|]. apply wp_bind, wp_ret. apply (b_next v k); auto.
    + intros i Hi. rewrite Hx by exact Hi. rewrite Hj. apply vertex_np.
    + intros i j Hi Hj'. destruct (HT i j Hi Hj') as [H1 H2]. split; [exact H1|]. intros _. apply H2. lia.
  - rewrite Hj in *. destruct (Z.leb_spec k n) as [_|]; [|lia]. apply wp_bind.
    eapply wp_weak; [apply (b_first (evs s) v k s); auto; lia|]. intros _ t (T1 & T2 & T3 & T4).
    apply (b_next v k); auto. rewrite T1. exact T3.
Qed.

Lemma b_new {B} v s : binv (Cnew, v) s -> wp (co_new n m x con sim simi datmat None (B := B) v) s bpost.
Proof.
  intros (Hf0 & p & f & h & Ev & Hf & Hp & Hcn & HA1 & HA2 & HA3). cbn [snd] in *. pose proof nn1. unfold co_new. cbv zeta.
  apply wp_bind. eapply wp_weak; [apply (b_resmax h p s Hcn)|]. intros r s' [-> Hr].
  apply wp_bind, wp_assign, wp_ret, wp_bind, wp_assign, wp_ret. cvs. set (t := upd (upd s _ _) _ _).
  assert (K : keepg PX s t).
  { unfold t. eapply keepg_trans; apply keepg_upd; unfold PX, PS, at1; lia. }
  assert (Kd : forall i, 1 <= i <= n -> get t (at1 dx i) = get s (at1 dx i)).
  { intros i Hi. pose proof (gdxr i Hi). unfold t. rewrite !get_other by (unfold at1 in *; lia). reflexivity. }
  assert (C1 : get t (at1 con mp) = c_f v).
  { unfold t. rewrite get_other by (unfold at1; lia). apply get_same. }
  assert (C2 : get t (at1 con mpp) = r) by apply get_same.
  clearbody t. assert (Et : evs t = evs s) by apply K.
  assert (X1 : forall i, 1 <= i <= n -> curx t i = curx s i).
  { intros i Hi. unfold curx. apply (get_keep _ _ _ _ K). right. unfold at1. lia. }
  assert (S1 : forall i j, 1 <= i <= n -> 1 <= j <= np -> get t (SIM i j) = get s (SIM i j)).
  { intros i j Hi Hj. apply (get_keep _ _ _ _ K), PSX, PS_sim; auto. }
  assert (T1 : tried (evs t) (curx t) (c_f v) r).
  { rewrite Et, Ev. exists p, f, h, nil. split; [reflexivity|]. split; [|auto]. eapply point_ext; [|exact Hp].
    intros i Hi. symmetry. apply X1, Hi. }
  assert (GK : forall j, 1 <= j <= np -> gv h s j -> gv (evs t) t j).
  { intros j Hj HG. rewrite Et, Ev. apply gv_cons. eapply gv_keep; [apply PSX|exact K|exact Hj|exact HG]. }
  destruct (Z.eqb_spec (c_ibrnch v) 1) as [Eb|Eb].
  - apply wp_ret. gr. intros _. destruct (HA2 Eb) as (B1 & B2 & B3). split; [lia|]. split; [|split; [|split]].
    + intros j Hj. apply GK; auto.
    + unfold curtried. cvs. exact T1.
    + intros i Hi. rewrite X1, S1, Kd by lia. apply B3, Hi.
    + auto.
  - clear HA2. destruct (HA3 Eb) as (B1 & B2 & B3). clear HA3.
    assert (Hj : 1 <= c_jdrop v <= np).
    { destruct (Z_le_gt_dec (c_nfvals v) n) as [Hl|Hl]; [|destruct (B3 ltac:(lia)); lia].
      destruct (B2 Hl) as (-> & _). destruct (Z.eqb_spec (c_nfvals v) 0); lia. }
    unfold LOOP_. apply wp_bind. eapply wp_weak; [apply (wp_fill 1 mpp (fun k => DAT k (c_jdrop v)) _ (fun k => get t (at1 con k)))|].
    + lia.
    + intros i j Hi Hj' E. apply at2_inj in E; lia.
    + intros i t' Hi K'. apply wp_ldg. split; [reflexivity|]. apply (get_keep _ _ _ _ K').
      intros j Hj'. pose proof (datr j (c_jdrop v) ltac:(lia) Hj). unfold at1. lia.
    + intros _ s3 [K3 D3]. cbv beta in K3, D3.
      assert (E3 : evs s3 = evs t) by apply K3.
      assert (S3 : forall i j, 1 <= i <= n -> 1 <= j <= np -> get s3 (SIM i j) = get t (SIM i j)).
      { intros i j Hi Hj'. apply (get_keep _ _ _ _ K3). intros k Hk. pose proof (datr k (c_jdrop v) Hk Hj). pose proof (simr i j Hi Hj'). lia. }
      assert (X3 : forall i, 1 <= i <= n -> curx s3 i = curx s i).
      { intros i Hi. rewrite <- X1 by exact Hi. unfold curx. apply (get_keep _ _ _ _ K3).
        intros k Hk. pose proof (datr k (c_jdrop v) Hk Hj). unfold at1. lia. }
      assert (V3 : forall i, 1 <= i <= n -> curx s3 i = vertex s3 (c_jdrop v) i).
      { intros i Hi. rewrite X3, B1 by exact Hi. unfold vertex. rewrite !S3, !S1 by lia. reflexivity. }
      assert (C3 : forall k, 1 <= k <= mpp -> get s3 (at1 con k) = get t (at1 con k)).
      { intros k Hk. apply (get_keep _ _ _ _ K3). intros j Hj'. pose proof (datr j (c_jdrop v) Hj' Hj). unfold at1. lia. }
      assert (Gd : gv (evs s3) s3 (c_jdrop v)).
      { rewrite E3. eapply tried_ext; [| | |exact T1].
        - intros i Hi. rewrite X1, <- X3 by exact Hi. apply V3, Hi.
        - rewrite D3 by lia. symmetry. exact C1.
        - rewrite D3 by lia. symmetry. exact C2. }
      assert (Go : forall j, 1 <= j <= np -> j <> c_jdrop v -> gv h s j -> gv (evs s3) s3 j).
      { intros j Hj' Ne HG. rewrite E3. eapply gv_ext; [| | | |exact Hj'|apply GK; [exact Hj'|exact HG]].
        - intros i Hi. apply S3; lia.
        - intros _ i Hi. apply S3; lia.
        - apply (get_keep _ _ _ _ K3). intros k Hk. apply dat_ne; lia.
        - apply (get_keep _ _ _ _ K3). intros k Hk. apply dat_ne; lia. }
      destruct (Z.ltb_spec np (c_nfvals v + 1)) as [Hl|Hl].
      * apply wp_ret. gr. intros _. split; [lia|]. destruct (B3 ltac:(lia)) as [_ B4]. intros j Hj'.
        destruct (Z.eq_dec j (c_jdrop v)) as [->|Ne]; [exact Gd|]. apply Go; auto.
      * destruct (B2 ltac:(lia)) as (B4 & B5 & B6). apply (b_initial _ (c_nfvals v)); cvs; auto; try lia.
        -- intros i j Hi Hj'. rewrite S3, S1 by lia. apply B5; auto.
        -- split.
           ++ revert B4; destruct (Z.eqb_spec (c_nfvals v) 0) as [E0|E0]; intros B4; [rewrite <- B4; exact Gd|]. apply Go; [lia|lia|apply HA1; lia].
           ++ intros j Hj'. revert B4. destruct (Z.eqb_spec (c_nfvals v) 0) as [E0|E0]; [lia|]. intros B4.
              destruct (Z.eq_dec j (c_nfvals v)) as [->|Ne]; [rewrite <- B4; exact Gd|]. apply Go; [lia|lia|apply B6; lia].
        -- intros k Hk. rewrite C3, D3 by exact Hk. reflexivity.
Qed.

(** ** The initial values *)
Lemma b_start v0 s : c_nfvals v0 = 0 -> c_ibrnch v0 = 0 ->
  wp (co_start n x rhobeg sim simi v0) s (fun v t => evs t = evs s /\ binv (Ccall, v) t).
Proof.
  intros Hf Hb. pose proof nn1. unfold co_start. cbv zeta. apply wp_bind. unfold LOOP_ at 1.
  apply (wp_loopJ (fun i (_ : unit) t => evs t = evs s /\ (forall q, x <= q < x + n -> mm t q = mm s q) /\
    forall k j, 1 <= k < i -> 1 <= j <= np -> get t (SIM k j) = if j =? np then curx s k else if k =? j then rhobeg else 0%R)).
  - lia.
  - split; [reflexivity|]. split; [auto|]. intros k j Hk. lia.
  - intros i u t Hi (T1 & T2 & T3). apply wp_bind, wp_assign, wp_ldg.
    assert (Ex : get t (at1 x i) = curx s i) by (unfold curx, get; rewrite T2 by (unfold at1; lia); reflexivity). rewrite Ex.
    apply wp_bind. unfold LOOP_.
    eapply wp_loopJ with (J := fun r (_ : unit) t' => evs t' = evs s /\ (forall q, x <= q < x + n -> mm t' q = mm s q) /\
      (forall k j, 1 <= k < i -> 1 <= j <= np -> get t' (SIM k j) = get t (SIM k j)) /\ get t' (SIM i np) = curx s i /\
      forall j, 1 <= j < r -> get t' (SIM i j) = 0%R).
    + lia.
    + pose proof (simr i np Hi ltac:(lia)). split; [exact T1|]. split; [|split; [|split]].
      * intros q Hq. rewrite upd_other by lia. auto.
      * intros k j Hk Hj. apply get_other, sim_ne; lia.
      * apply get_same.
      * intros j Hj. lia.
    + intros r u' t' Hr (U1 & U2 & U3 & U4 & U5). apply wp_bind, wp_assign, wp_ret, wp_assign, wp_ret. unfold zero. cbn [nZ NumR].
      pose proof (simr i r Hi ltac:(lia)). pose proof (simir i r Hi Hr).
      split; [exact U1|]. split; [|split; [|split]].
      * intros q Hq. rewrite !upd_other by lia. auto.
      * intros k j Hk Hj. pose proof (simr k j ltac:(lia) Hj). rewrite get_other by lia. rewrite get_other by (apply sim_ne; lia). apply U3; lia.
      * pose proof (simr i np Hi ltac:(lia)). rewrite get_other by lia. rewrite get_other by (apply sim_ne; lia). exact U4.
      * intros j Hj. pose proof (simr i j Hi ltac:(lia)). rewrite get_other by lia. destruct (Z.eq_dec j r) as [->|Ne]; [apply get_same|].
        rewrite get_other by (apply sim_ne; lia). apply U5. lia.
    + intros u' t' (U1 & U2 & U3 & U4 & U5). apply wp_bind, wp_assign, wp_ret, wp_assign, wp_ret.
      pose proof (simr i i Hi ltac:(lia)). pose proof (simir i i Hi Hi).
      split; [exact U1|]. split.
      * intros q Hq. rewrite !upd_other by lia. auto.
      * intros k j Hk Hj. pose proof (simr k j ltac:(lia) Hj). rewrite get_other by lia. destruct (Z.eq_dec k i) as [->|Nk].
        -- destruct (Z.eq_dec j i) as [->|Nj].
           ++ destruct (Z.eqb_spec i np); [lia|]. rewrite Z.eqb_refl. apply get_same.
           ++ rewrite get_other by (apply sim_ne; lia). destruct (Z.eqb_spec j np) as [->|Np]; [exact U4|].
              destruct (Z.eqb_spec i j); [lia|]. apply U5. lia.
        -- rewrite get_other by (apply sim_ne; lia). rewrite U3 by lia. apply T3; lia.
  - intros u t (T1 & T2 & T3). apply wp_ret. split; [exact T1|]. gr. rewrite Hf. split; [lia|]. unfold atcall. cvs. rewrite Hf.
    split; [lia|]. split; [discriminate|]. intros _. split; [|split; [|lia]].
    + intros i Hi. rewrite vertex_np, T3 by lia. rewrite Z.eqb_refl. unfold curx, get. rewrite T2 by (unfold at1; lia). reflexivity.
    + intros _. split; [reflexivity|]. split; [|intros j Hj; lia]. intros i j Hi Hj. rewrite T3 by lia. destruct (Z.eqb_spec j np); [lia|].
      split; [|auto]. intros Hl. destruct (Z.eqb_spec i j); [lia|reflexivity].
Qed.

(** ** The evaluations and the end *)
Section Ends.
Variables (fn : list (list N * N) -> list N -> N) (scl : option Z).
Hypothesis Hscaled : scaled = match scl with None => false | Some _ => true end.
Hypothesis Hw : o_w n m con = w.
Hypothesis L7 : dx + n <= w.
Hypothesis Rx : forall q, x <= q < x + n -> Rd q.
Hypothesis L9 : forall b, scl = Some b -> (b + n <= con \/ wend <= b) /\ (b + n <= x \/ x + n <= b).
Definition sclv (s : mst) : Prop := forall b, scl = Some b -> forall i, 1 <= i <= n -> get s (at1 b i) = sc i.
Lemma good_get s q : good Rd C s -> Rd q -> mm s q = Some (get s q : N).
Proof. intros [Gs _] Ha. destruct (Gs q Ha) as [v Ev]. unfold get. rewrite Ev. reflexivity. Qed.
(** The cells the evaluation leaves alone *)
Definition PE (q : Z) : Prop := PX q \/ exists i, 1 <= i <= n /\ q = at1 dx i.
Lemma atcall_ext L (v v' : cvars) (s t : mst) : (forall q, PE q -> get t q = get s q) -> c_nfvals v' = c_nfvals v -> c_ibrnch v' = c_ibrnch v ->
  c_jdrop v' = c_jdrop v -> c_rho v' = c_rho v -> 0 <= c_nfvals v -> atcall L v s -> atcall L v' t.
Proof.
  intros K E1 E2 E3 E4 H0 (H1 & H2 & H3).
  assert (S : forall i j, 1 <= i <= n -> 1 <= j <= np -> get t (SIM i j) = get s (SIM i j)).
  { intros i j Hi Hj. apply K. left. apply PSX, PS_sim; auto. }
  assert (D : forall i j, 1 <= i <= mpp -> 1 <= j <= np -> get t (DAT i j) = get s (DAT i j)).
  { intros i j Hi Hj. apply K. left. apply PSX, PS_dat; auto. }
  assert (X : forall i, 1 <= i <= n -> curx t i = curx s i).
  { intros i Hi. apply K. left. right. unfold at1. lia. }
  assert (Y : forall i, 1 <= i <= n -> get t (at1 dx i) = get s (at1 dx i)).
  { intros i Hi. apply K. right. exists i. auto. }
  assert (GV : forall j, 1 <= j <= np -> gv L s j -> gv L t j).
  { intros j Hj. apply gv_ext; [intros i Hi; apply S; lia|intros _ i Hi; apply S; lia|apply D; lia|apply D; lia|exact Hj]. }
  unfold atcall. rewrite E1, E2, E3, E4. split; [intros A; apply GV; [lia|auto]|]. split.
  - intros A. destruct (H2 A) as (A1 & A2 & A3). split; [exact A1|]. split; [intros j Hj; apply GV; auto|].
    intros i Hi. rewrite X, S, Y by lia. auto.
  - intros A. destruct (H3 A) as (A1 & A2 & A3).
    assert (J : 1 <= c_jdrop v <= np).
    { destruct (Z_le_gt_dec (c_nfvals v) n) as [Hl|Hl]; [|destruct (A3 ltac:(lia)); lia].
      destruct (A2 Hl) as (-> & _). destruct (Z.eqb_spec (c_nfvals v) 0); lia. }
    split; [|split].
    + intros i Hi. rewrite X, A1 by exact Hi. unfold vertex. rewrite !S by lia. reflexivity.
    + intros B. destruct (A2 B) as (B1 & B2 & B3). split; [exact B1|]. split.
      * intros i j Hi Hj. rewrite S by lia. apply B2; auto.
      * intros j Hj. apply GV; [lia|auto].
    + intros B. destruct (A3 B) as (B1 & B2). split; [exact B1|]. intros j Hj Ne. apply GV; auto.
Qed.

Lemma wp_read q (X : Z -> R) (s : mst) (Q : list N -> mst -> Prop) : (forall i, 1 <= i <= n -> mm s (at1 q i) = Some (img i (X i))) ->
  (forall p, point p X -> Q p s) -> wp (readn (Z.to_nat n) q) s Q.
Proof.
  intros H HQ. destruct (readn_spec (Z.to_nat n) q s) as (p & E1 & E2 & E3).
  - intros i Hi. exists (img (i + 1) (X (i + 1))). rewrite <- H by lia. f_equal. unfold at1. lia.
  - intros r t Er. rewrite E1 in Er. injection Er as <- <-. apply HQ. split; [exact E2|]. intros i Hi. rewrite E3 by lia.
    rewrite <- H by exact Hi. f_equal. unfold at1. lia.
Qed.
Lemma b_eval v s : good Rd C s -> sclv s -> binv (Ceval, v) s -> wp (cb_call n m maximize fn cn x con scl v) s bpost.
Proof.
  intros Gs Hs [Hf HA]. cbn [snd] in *. pose proof nn1. unfold cb_call. cbv zeta. rewrite Hw.
  assert (WW : forall i, 1 <= i <= n -> a <= at1 w i < wend) by (intros i Hi; apply (Gw i Hi)).
  assert (K : forall q s1, evs s1 = evs s -> (forall b, PE b -> get s1 b = get s b) ->
     (forall i, 1 <= i <= n -> mm s1 (at1 q i) = Some (img i (curx s i))) ->
     wp (bind (calcfc n m fn cn con q) (fun f : N => ret (inl (B := cstatus * Z) (Cnew, p_f (if maximize then nopp f else f) v)))) s1 bpost).
  { intros q s1 E1 F1 M1. apply wp_bind. unfold calcfc. apply wp_bind. apply (wp_read q (curx s)); [exact M1|]. intros p Hp.
    apply wp_bind. intros h t [= <- <-]. apply wp_bind.
    eapply wp_weak; [apply (wp_fill 0 (m - 1) (fun k => con + k) _ (fun k => cn (evs s1) p k))|].
    - lia.
    - lia.
    - intros i t Hi _. apply wp_ret. auto.
    - intros _ t [K1 K2]. cbv beta in K1, K2. intros f t' [= <- <-]. apply wp_ret. gr. intros _. split; [exact Hf|].
      exists p, (fn (evs s1) p), (evs s1). cbn [evs]. rewrite (proj1 K1). split; [reflexivity|]. split; [destruct maximize; reflexivity|].
      assert (Ft : forall b, PE b -> get t b = get s b).
      { intros b Hb. rewrite (get_keep _ _ _ _ K1); [auto|]. intros j Hj.
        destruct Hb as [[[Hb|Hb]|Hb]|(i & Hi & ->)]; [lia|lia|lia|]. pose proof (gdxr i Hi). lia. }
      split; [|split].
      + eapply point_ext; [|exact Hp]. intros i Hi. symmetry. change (curx t i = curx s i). apply Ft. left. right. unfold at1. lia.
      + intros k Hk. change (get t (con + k) = cn (evs s1) p k). apply K2. lia.
      + rewrite E1. eapply atcall_ext; [| | | | | |exact HA]; try reflexivity; [|exact Hf]. exact Ft. }
  assert (D : scl = None \/ exists b, scl = Some b) by (clear; destruct scl; eauto).
  destruct D as [Eb|[b Eb]]; assert (Hsd := Hscaled); rewrite Eb in Hsd; rewrite Eb.
  2:{ destruct (L9 b Eb) as [L9a L9b]. apply wp_bind, wp_bind. unfold scale.
    pose proof (WW 1 ltac:(lia)). pose proof (WW n ltac:(lia)). unfold at1 in *.
    apply (wp_loopJ (fun i (_ : unit) t => evs t = evs s /\ (forall a, ~ (w <= a < w + n) -> get t a = get s a) /\
      forall j, 1 <= j < i + 1 -> mm t (at1 w j) = Some (img j (curx s j)))).
    + lia.
    + split; [reflexivity|]. split; [auto|]. intros j Hj. lia.
    + intros i u t Hi (T1 & T2 & T3). apply wp_assign, wp_lift2, wp_ldg, wp_ldg.
      rewrite !T2 by lia.
      assert (Es : get s (b + i) = sc (i + 1)).
      { rewrite <- (Hs b Eb (i + 1)) by lia. f_equal. unfold at1. lia. }
      split; [exact T1|]. split.
      * intros q Hq. rewrite get_other by lia. auto.
      * intros j Hj. destruct (Z.eq_dec j (i + 1)) as [->|Ne].
        -- replace (at1 w (i + 1)) with (w + i) by (unfold at1; lia). rewrite upd_same. f_equal.
           unfold img. rewrite Hsd, Es. cbn [nmul NumR]. f_equal. unfold curx. f_equal. unfold at1. lia.
        -- rewrite upd_other by (unfold at1; lia). apply T3. lia.
    + intros u t (T1 & T2 & T3). apply wp_ret. apply K; [exact T1| |].
      * intros q Hq. apply T2. destruct Hq as [[[Hb|Hb]|Hb]|(i & Hi & ->)]; [lia|lia|lia|]. unfold at1. lia.
      * intros i Hi. apply T3. lia. }
  apply wp_bind, wp_ret. apply K; [reflexivity|auto|]. intros i Hi. rewrite (good_get s) by (auto; apply Rx; unfold at1; lia).
    unfold img. rewrite Hsd. reflexivity.
Qed.

Lemma b_end v s : sclv s -> wp (cb_end n maximize x con scl v) s
  (fun _ t => evs t = evs s /\ (forall i, 1 <= i <= n -> curx t i = img i (curx s i)) /\
     mm t con = Some ((if maximize then - c_f v else c_f v)%R : N) /\ mm t (con + 1) = Some (c_resmax v)).
Proof.
  intros Hs. pose proof nn1. unfold cb_end. apply wp_bind.
  eapply wp_weak with (P := fun (_ : unit) t => evs t = evs s /\ forall i, 1 <= i <= n -> curx t i = img i (curx s i)).
  - unfold img. assert (D : scl = None \/ exists b, scl = Some b) by (clear; destruct scl; eauto).
    destruct D as [Eb|[b Eb]]; assert (Hsd := Hscaled); rewrite Eb in Hsd; rewrite Eb, Hsd; [apply wp_ret; auto|].
    destruct (L9 b Eb) as [_ L9b].
    apply (wp_loopJ (fun i (_ : unit) t => evs t = evs s /\ (forall a, ~ (x <= a < x + i) -> get t a = get s a) /\
      forall j, 1 <= j < i + 1 -> get t (at1 x j) = (sc j * get s (at1 x j))%R)).
    + lia.
    + split; [reflexivity|]. split; [auto|]. intros j Hj. lia.
    + intros i u t Hi (T1 & T2 & T3). apply wp_assign, wp_lift2, wp_ldg, wp_ldg. rewrite !T2 by lia.
      assert (Es : get s (b + i) = sc (i + 1)).
      { rewrite <- (Hs b Eb (i + 1)) by lia. f_equal. unfold at1. lia. }
      split; [exact T1|]. split.
      * intros q Hq. rewrite get_other by lia. apply T2. lia.
      * intros j Hj. destruct (Z.eq_dec j (i + 1)) as [->|Ne].
        -- replace (at1 x (i + 1)) with (x + i) by (unfold at1; lia). rewrite get_same, Es. reflexivity.
        -- rewrite get_other by (unfold at1; lia). apply T3. lia.
    + intros u t (T1 & T2 & T3). split; [exact T1|]. intros i Hi. apply T3. lia.
  - intros u t [T1 T2]. apply wp_bind, wp_assign, wp_ret. apply wp_bind, wp_assign, wp_ret. apply wp_ret. split; [exact T1|]. split; [|split].
    + intros i Hi. unfold curx. rewrite !get_other by (unfold at1; lia). apply T2, Hi.
    + rewrite upd_other by lia. rewrite upd_same. destruct maximize; reflexivity.
    + apply upd_same.
Qed.

Definition bres (s : mst) : Prop :=
  exists p f h l r, evs s = l ++ (p, f) :: h /\ length p = Z.to_nat n /\
    (forall i, 1 <= i <= n -> nth_error p (Z.to_nat (i - 1)) = Some (curx s i : N)) /\ worst h p r /\
    mm s con = Some f /\ mm s (con + 1) = Some (r : N).
Lemma b_step fi l s : good Rd C s -> sclv s -> binv l s ->
  wp (co_step n m x rhoend maxfun con sim simi datmat a vsig veta sigbar dx w None
    (cb_call n m maximize fn cn x con scl) (cb_end n maximize x con scl) fi l) s
    (fun r t => match r with inl l' => clab n maxfun l' -> binv l' t | inr _ => bres t end).
Proof.
  intros Gs Hs Hb.
  assert (K : forall p, wp p s bpost ->
     wp p s (fun (r : clabel * cvars + (cstatus * Z)) t => match r with inl l' => clab n maxfun l' -> binv l' t | inr _ => bres t end)).
  { intros p Hp. eapply wp_weak; [exact Hp|]. intros [r|r] t Ht; [exact Ht|contradiction]. }
  destruct l as [l v]. unfold co_step. cbn [fst snd]. destruct l; lazymatch goal with |- context [cb_end] => idtac | _ => apply K end.
  - apply b_call; auto.
  - apply b_eval; auto.
  - apply b_new; auto.
  - apply b_140; auto.
  - apply b_370; auto.
  - apply b_440; auto.
  - apply b_550; auto.
  - apply b_600; auto.
  - clear K. apply wp_bind. eapply wp_weak; [apply b_end, Hs|]. intros r t (T1 & T2 & T3 & T4). apply wp_ret.
    destruct Hb as (p & f & h & l & E & P & F & W). exists p, f, h, l, (c_resmax v). rewrite T1. split; [exact E|].
    split; [apply P|]. split; [intros i Hi; rewrite T2 by exact Hi; apply P, Hi|]. split; [exact W|]. split; [|exact T4].
    rewrite T3. f_equal. cbn [snd] in F. rewrite F. destruct maximize; cbn [num NumR] in *; ring.
Qed.
End Ends.
End Best.
