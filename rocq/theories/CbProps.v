(** * Properties of COBYLA (cobyla.c)

    The theorems are about [cobyla_optimize], [cobyla_create] and [cobyla_iterate] (CbModel.v); the specification is in
    CbSpec.v: [clayout] describes the arrays of the caller, [coutputs] the cells of x and of the workspace, [creach] the contexts
    that the client of the reverse communication version can have, [CbLaws] what is needed of the arithmetic, which is true
    for double and single precision and for exact reals ([C61_arithmetics]); [final] (BqSpec.v) is the state at the end of an
    execution.  The numbers of steps [fi] (inner loops) and [fuel] are arbitrary, so that the theorems hold at any moment of an
    execution that does not end. *)
From Coq Require Import ZArith Reals List Bool Lia Lra.
From Flocq Require Import Core BinarySingleNaN.
From Verif Require Import Num NumFacts BqLang BqModel BqWp BqSpec BqProps NwTop CbModel CbSpec CbMain CbNum CbTop.
Import ListNotations.
Local Open Scope Z_scope.

(** ** C61: the accesses *)

(** The arrays of cobyla.c 236-248 and 448-459 in the workspace at the address w: offset and number of elements (con, sim, simi, datmat,
    a, vsig, veta, sigbar, dx, then in w the arrays z, zdota, vmultc, sdirn, dxnew and vmultd of trstlp) *)
Definition carrays (n m : Z) : list (Z * Z) :=
  let w := o_w n m 0 in
  [(0, m + 2); (o_sim n m 0, n * (n + 1)); (o_simi n m 0, n * n); (o_datmat n m 0, (m + 2) * (n + 1)); (o_a n m 0, n * (m + 1));
   (o_vsig n m 0, n); (o_veta n m 0, n); (o_sigbar n m 0, n); (o_dx n m 0, n);
   (w, n * n); (w + n * n, n); (w + n * n + n, m + 1); (w + n * n + n + (m + 1), n); (w + n * n + n + (m + 1) + n, n);
   (w + n * n + n + (m + 1) + n + n, m + 1)].

Theorem C61_partition n m :
  1 <= n -> 0 <= m ->
  let size := n * (3 * n + 2 * m + 11) + 4 * m + 6 in
  Forall (fun a => 0 <= fst a /\ 0 <= snd a /\ fst a + snd a <= size) (carrays n m) /\
  ForallOrdPairs (fun a b => fst a + snd a <= fst b) (carrays n m) /\
  fst (last (carrays n m) (0, 0)) + snd (last (carrays n m) (0, 0)) = size.
Proof.
  intros Hn Hm size. pose proof (cpartition_end n m 0) as Pe. unfold cb_size in Pe. fold size in Pe.
  destruct (chain_ok (carrays n m) 0 size) as [A B].
  - lia.
  - unfold carrays. cbn [chain].
    assert (Q1 : 0 <= n * (n + 1)) by nia. assert (Q2 : 0 <= n * n) by nia. assert (Q3 : 0 <= (m + 2) * (n + 1)) by nia.
    assert (Q4 : 0 <= n * (m + 1)) by nia.
    do 4 (split; [reflexivity|]; split; [lia|]).
    split; [reflexivity|]. split; [exact Q4|]. split; [unfold o_vsig; ring|]. split; [lia|].
    do 9 (split; [reflexivity|]; split; [lia|]). lia.
  - split; [eapply Forall_impl; [|exact A]; cbn; tauto|]. split; [exact B|]. cbn [carrays last fst snd]. lia.
Qed.
Example C61_partition_ex : carrays 2 1 =
  [(0, 3); (3, 6); (9, 4); (13, 9); (22, 4); (26, 2); (28, 2); (30, 2); (32, 2); (34, 4); (38, 2); (40, 2); (42, 2); (44, 2); (46, 2)] /\
  2 * (3 * 2 + 2 * 1 + 11) + 4 * 1 + 6 = 48.
Proof. split; reflexivity. Qed.
Print Assumptions C61_partition.

(** The assumption on the arithmetic is true for the usual ones. *)
Theorem C61_arithmetics : CbLaws NumD /\ CbLaws NumS /\ forall H I, CbLaws (NumR H I).
Proof. split; [exact CbLawsD|]. split; [exact CbLawsS|exact CbLawsR]. Qed.
Print Assumptions C61_arithmetics.

(** Whatever the functions (infinite values, NaN), cobyla_optimize makes no access out of the arrays of the caller and modifies
    nothing else than x and the workspace. *)
Theorem C61_memory_safe (N : Num) n m maximize fn cn x scl (rhobeg rhoend : N) maxfun w fi fuel s :
  CbLaws N -> clayout n m x scl w s ->
  exists s', final (cobyla_optimize n m maximize fn cn x scl rhobeg rhoend maxfun w fi fuel s) = Some s' /\
    forall a, ~ coutputs n m x w a -> mm s' a = mm s a.
Proof.
  intros HN HL. eapply ok_final; [apply (cobyla_optimize_ok HN n m maximize fn cn x scl rhobeg rhoend maxfun w s HL)| |].
  - intros st s' [[K _] _]. exact K.
  - intros s' [K _]. exact K.
Qed.
Print Assumptions C61_memory_safe.

(** The status returned; nothing is modified if the arguments are refused. *)
Theorem C61_status (N : Num) n m maximize fn cn x scl (rhobeg rhoend : N) maxfun w fi fuel s st i s' :
  CbLaws N -> clayout n m x scl w s ->
  cobyla_optimize n m maximize fn cn x scl rhobeg rhoend maxfun w fi fuel s = Ret (st, i) s' ->
  (st = CB_SUCCESS \/ st = CB_ROUNDING_ERRORS \/ st = CB_TOO_MANY_EVALUATIONS) \/
  ((st = CB_BAD_NVARS \/ st = CB_BAD_NCONS \/ st = CB_BAD_RHO_RANGE \/ st = CB_BAD_SCALING) /\ s' = s).
Proof.
  intros HN HL E. assert (H := cobyla_optimize_ok HN n m maximize fn cn x scl rhobeg rhoend maxfun w s HL fi fuel).
  unfold ok in H. rewrite E in H. destruct H as (_ & [[H _]|[H [_ H']]]); auto.
Qed.
Print Assumptions C61_status.

(** Which arguments are refused *)
Theorem C61_refused (N : Num) n m maximize fn cn x scl (rhobeg rhoend : N) maxfun w fi fuel s :
  n < 1 \/ m < 0 \/ nle rhoend (nZ 0) = true \/ nlt rhobeg rhoend = true ->
  exists st, cobyla_optimize n m maximize fn cn x scl rhobeg rhoend maxfun w fi fuel s = Ret (st, None) s /\
    (st = CB_BAD_NVARS <-> n < 1) /\ (st = CB_BAD_NCONS <-> 1 <= n /\ m < 0) /\ (st = CB_BAD_RHO_RANGE <-> 1 <= n /\ 0 <= m).
Proof.
  intros H. unfold cobyla_optimize. cbv zeta.
  destruct (Z.ltb_spec n 1); [exists CB_BAD_NVARS; split; [reflexivity|]; repeat split; intros; try discriminate; lia|].
  destruct (Z.ltb_spec m 0); [exists CB_BAD_NCONS; split; [reflexivity|]; repeat split; intros; try discriminate; lia|].
  change (zero (N := N)) with (nZ 0 : N). destruct H as [H|[H|H]]; [lia|lia|].
  assert ((nle rhoend (nZ 0) || nlt rhobeg rhoend)%bool = true) as -> by (destruct H as [-> | ->]; [reflexivity|apply orb_true_r]).
  exists CB_BAD_RHO_RANGE. split; [reflexivity|]. repeat split; intros; try discriminate; lia.
Qed.
Print Assumptions C61_refused.

(** Reverse communication: the context and the workspace that the client may have after any calls of the functions, with any
    values given for f and the constraints and any changes of the memory between the calls. *)
Theorem C61_iterate_safe (N : Num) (q : ccontext (N := N)) f x c fi fuel s :
  CbLaws N -> creach q s -> cgiven q x c s ->
  exists s', final (cobyla_iterate q f (Some x) c fi fuel s) = Some s' /\
    (forall a, ~ coutputs (q_n q) (q_m q) x (q_w q) a -> mm s' a = mm s a) /\ evs s' = evs s.
Proof.
  intros HN HR Hx. destruct (creach_valid HN q s HR) as [HV HC].
  assert (S := qiterate_safe HN q x c s f fi fuel HV Hx HC).
  assert (K : forall s', frame (qW q x) s s' ->
    (forall a, ~ coutputs (q_n q) (q_m q) x (q_w q) a -> mm s' a = mm s a) /\ evs s' = evs s).
  { intros s' [F1 F2]. split; [|exact F2]. intros a Na. apply F1. exact Na. }
  destruct (cobyla_iterate q f (Some x) c fi fuel s) as [c' s'|s'|s'|s']; cbn [final].
  - destruct S as (_ & _ & F). exists s'. split; [reflexivity|apply K, F].
  - contradiction.
  - exists s'. split; [reflexivity|apply K, S].
  - exists s'. split; [reflexivity|apply K, S].
Qed.
Print Assumptions C61_iterate_safe.

(** cobyla_create only writes in the workspace, the size of which is the documented one: it is filled with zeros. *)
Theorem C61_create (N : Num) n m (rhobeg rhoend : N) maxfun a s :
  cells s a (cdoc_size n m) ->
  exists r s', cobyla_create n m rhobeg rhoend maxfun (Some a) s = Ret r s' /\ evs s' = evs s /\
    (forall b, ~ (a <= b < a + cdoc_size n m) -> mm s' b = mm s b) /\
    (r = None <-> n < 1 \/ m < 0 \/ nlt rhobeg rhoend = true \/ nle rhoend (nZ 0) = true \/ maxfun < 1) /\
    (r = None -> s' = s) /\
    forall q, r = Some q -> cobyla_get_status r = CB_ITERATE /\ cobyla_get_nevals r = 0 /\ q_w q = a /\
      forall b, a <= b < a + cdoc_size n m -> mm s' b = Some (nZ 0).
Proof.
  intros Hc. unfold cobyla_create. change (zero (N := N)) with (nZ 0 : N). rewrite <- cdoc_cb.
  destruct ((n <? 1) || (m <? 0) || nlt rhobeg rhoend || nle rhoend (nZ 0) || (maxfun <? 1))%bool eqn:E.
  - exists None, s. do 3 (split; [auto|]). rewrite !orb_true_iff, !Z.ltb_lt in E. split; [tauto|]. split; [auto|discriminate].
  - rewrite !orb_false_iff, !Z.ltb_ge in E. destruct E as ((((E1 & E2) & E3) & E4) & E5).
    destruct (zero_loop a (cdoc_size n m) s Hc) as (s' & Es & Ev & Em).
    unfold bind. rewrite Es. eexists. exists s'. split; [reflexivity|]. split; [exact Ev|].
    split; [intros b Hb; rewrite Em; destruct (Z.leb_spec a b), (Z.ltb_spec b (a + cdoc_size n m)); auto; lia|].
    split; [split; [discriminate|]; intros H; exfalso; rewrite E3, E4 in H; intuition (discriminate || lia)|].
    split; [discriminate|]. intros q [= <-]. do 3 (split; [reflexivity|]).
    intros b Hb. rewrite Em. destruct (Z.leb_spec a b), (Z.ltb_spec b (a + cdoc_size n m)); auto; lia.
Qed.
Print Assumptions C61_create.

(** cobyla_iterate does nothing but report the misuse when an address is NULL or when no value was requested. *)
Theorem C61_misuse (N : Num) (q : ccontext (N := N)) f x c fi fuel s :
  let null := x = None \/ c = None /\ 0 < q_m q in
  null \/ cobyla_get_status (Some q) <> CB_ITERATE ->
  exists q', cobyla_iterate q f x c fi fuel s = Ret q' s /\
    (null -> cobyla_get_status (Some q') = CB_BAD_ADDRESS) /\ (~ null -> cobyla_get_status (Some q') = CB_CORRUPTED) /\
    cobyla_get_nevals (Some q') = cobyla_get_nevals (Some q) /\ cobyla_get_rho (Some q') = cobyla_get_rho (Some q).
Proof.
  intros null H. unfold cobyla_iterate. destruct x as [x|].
  2:{ eexists. split; [reflexivity|]. split; [reflexivity|]. split; [unfold null; tauto|split; reflexivity]. }
  assert (K : c = None /\ 0 < q_m q \/ exists c', (match c with Some c => Some c | None => if 0 <? q_m q then None else Some 0 end) = Some c' /\ ~ null).
  { unfold null. destruct c as [c|]; [right; exists c; split; [reflexivity|intuition discriminate]|].
    destruct (Z.ltb_spec 0 (q_m q)); [auto|]. right. exists 0. split; [reflexivity|]. intros [K|[_ K]]; [discriminate|lia]. }
  destruct K as [[-> L]|(c' & -> & Nn)].
  - apply Z.ltb_lt in L. rewrite L. eexists. split; [reflexivity|]. split; [reflexivity|]. apply Z.ltb_lt in L.
    split; [unfold null; tauto|split; reflexivity].
  - destruct H as [H|H]; [contradiction|]. cbn [cobyla_get_status] in H.
    destruct (q_status q); try congruence; (cbn [orb]; eexists; split; [reflexivity|]; split; [tauto|]; repeat split).
Qed.
Print Assumptions C61_misuse.

(** ** C62: the number of evaluations *)

(** At any moment of an execution: at most maxfun evaluations (one if maxfun < 1); exactly that number when the status is
    "too many evaluations"; iact[0] is the number of evaluations. *)
Theorem C62_count (N : Num) n m maximize fn cn x scl (rhobeg rhoend : N) maxfun w fi fuel s :
  CbLaws N -> clayout n m x scl w s ->
  exists s' new, final (cobyla_optimize n m maximize fn cn x scl rhobeg rhoend maxfun w fi fuel s) = Some s' /\
    evs s' = new ++ evs s /\ Z.of_nat (length new) <= Z.max 1 maxfun /\
    forall st i, cobyla_optimize n m maximize fn cn x scl rhobeg rhoend maxfun w fi fuel s = Ret (st, i) s' ->
      (st = CB_TOO_MANY_EVALUATIONS -> Z.of_nat (length new) = Z.max 1 maxfun) /\
      (i = Some (Z.of_nat (length new)) \/ i = None /\ new = []).
Proof.
  intros HN HL. assert (H := cobyla_optimize_ok HN n m maximize fn cn x scl rhobeg rhoend maxfun w s HL fi fuel). unfold ok in H.
  rewrite (Z.max_comm 1).
  destruct (cobyla_optimize n m maximize fn cn x scl rhobeg rhoend maxfun w fi fuel s) as [[st i] s'|s'|s'|s'].
  - destruct H as ((_ & new & E1 & E2) & H). exists s', new. cbn [final]. do 3 (split; [auto|]). intros st' i' [= <- <-].
    cbn [fst snd] in H. unfold cfull, ccalls in H. rewrite E1, app_length in H. destruct H as [(_ & H1 & H2)|(H1 & H2 & H3)].
    + split; [intros ES; specialize (H1 ES); lia|]. left. rewrite H2. f_equal. lia.
    + split; [intros ES; rewrite ES in H1; destruct H1 as [H1|[H1|[H1|H1]]]; discriminate|]. right. split; [exact H2|].
      rewrite H3 in E1. apply (app_inv_tail (evs s)). rewrite <- E1. reflexivity.
  - contradiction.
  - destruct H as (_ & new & E1 & E2). exists s', new. cbn [final]. do 3 (split; [auto|]). discriminate.
  - destruct H as (_ & new & E1 & E2). exists s', new. cbn [final]. do 3 (split; [auto|]). discriminate.
Qed.
Print Assumptions C62_count.

(** Reverse communication: no more than maxfun values are requested since the creation or the last restart. *)
Theorem C62_requests (N : Num) (q : ccontext (N := N)) s :
  CbLaws N -> creach q s ->
  0 <= cobyla_get_nevals (Some q) <= q_maxfun q /\
  (cobyla_get_status (Some q) = CB_ITERATE -> cobyla_get_nevals (Some q) < q_maxfun q) /\
  (cobyla_get_status (Some q) = CB_TOO_MANY_EVALUATIONS -> cobyla_get_nevals (Some q) = q_maxfun q).
Proof.
  intros HN HR. destruct (creach_valid HN q s HR) as [(H1 & H2 & H3 & H4 & H5 & _ & H6 & H7) _]. cbn [cobyla_get_nevals cobyla_get_status].
  split; [exact H4|]. split; [|exact H5]. intros E. destruct (H6 E) as [E0|H]; [lia|].
  destruct H as (L & K & _). unfold clab, ccnt, limit in *. cbn [fst snd] in *. unfold q_nevals in *. lia.
Qed.
Print Assumptions C62_requests.

(** The status of success means that RHO is not more than rhoend: in particular, the other reasons for the end are not reported
    as a success. *)
Theorem C62_success (N : Num) (q : ccontext (N := N)) s :
  CbLaws N -> creach q s -> cobyla_get_status (Some q) = CB_SUCCESS -> nlt (q_rhoend q) (cobyla_get_rho (Some q)) = false.
Proof. intros HN HR. destruct (creach_valid HN q s HR) as [(_ & _ & _ & _ & _ & H & _) _]. exact H. Qed.
Print Assumptions C62_success.

(** Each accepted call of cobyla_iterate counts one evaluation, and ends with a request or with a final status. *)
Theorem C62_iterate_count (N : Num) (q q' : ccontext (N := N)) f x c fi fuel s s' :
  CbLaws N -> creach q s -> cgiven q x c s -> (c = None -> q_m q = 0) -> cobyla_get_status (Some q) = CB_ITERATE ->
  cobyla_iterate q f (Some x) c fi fuel s = Ret q' s' ->
  cobyla_get_nevals (Some q') = cobyla_get_nevals (Some q) + 1 /\
  (cobyla_get_status (Some q') = CB_ITERATE \/ cobyla_get_status (Some q') = CB_SUCCESS \/
   cobyla_get_status (Some q') = CB_ROUNDING_ERRORS \/ cobyla_get_status (Some q') = CB_TOO_MANY_EVALUATIONS).
Proof.
  intros HN HR Hx Hc HS E. destruct (creach_valid HN q s HR) as [HV HC]. cbn [cobyla_get_nevals cobyla_get_status] in *.
  assert (K := citerate_count HN (qW q x) (qR q x c) (fun _ => None) (fun b Hb => or_introl Hb) ltac:(discriminate) q x c
      (fun b Hb => or_introl Hb) (fun b Hb => or_intror Hb)).
  assert (K1 : match c with None => True | Some c0 => forall k, 0 <= k < q_m q -> qR q x c (c0 + k) end).
  { destruct c as [c0|]; [|exact Logic.I]. intros k Hk. right. exists c0. split; [reflexivity|lia]. }
  specialize (K K1 HV Hc HS f fi fuel s (qgood q x c s Hx HC)). rewrite E in K. destruct K as ((K2 & K3) & _).
  split; [exact K2|]. unfold cstop in K3. tauto.
Qed.
Print Assumptions C62_iterate_count.

(** ** Examples of executions in double precision *)

(** The product of two variables in the unit disk (1 - x0^2 - x1^2 >= 0) *)
Definition cex_fn {N : Num} (_ : list (list N * N)) (p : list N) : N :=
  match p with [a; b] => nmul a b | _ => nZ 0 end.
Definition cex_cn {N : Num} (_ : list (list N * N)) (p : list N) (_ : Z) : N :=
  match p with [a; b] => nsub (nsub (nZ 1) (nmul a a)) (nmul b b) | _ => nZ 0 end.
(** x at the address 0, scl at 10, the workspace at 100 *)
Definition cex_mem {N : Num} (x0 x1 c0 c1 : N) : mst N :=
  mkmst (fun a => if (a <? 0) || (300 <=? a) then None else
    Some (if a =? 0 then x0 else if a =? 1 then x1 else if a =? 10 then c0 else if a =? 11 then c1 else nZ 7)) [].
Lemma cex_cells {N : Num} (x0 x1 c0 c1 : N) a k : 0 <= a -> a + k <= 300 -> cells (cex_mem x0 x1 c0 c1) a k.
Proof.
  intros H1 H2 i Hi. cbn [mm cex_mem]. destruct (Z.ltb_spec (a + i) 0); [lia|]. destruct (Z.leb_spec 300 (a + i)); [lia|].
  cbn [orb]. eauto.
Qed.
Lemma cex_layout {N : Num} (x0 x1 c0 c1 : N) scl :
  scl = None \/ scl = Some 10 -> clayout 2 1 0 scl 100 (cex_mem x0 x1 c0 c1).
Proof.
  intros [->| ->]; constructor; try (apply cex_cells; cbn; lia); unfold apart; cbn; auto; lia.
Qed.

(** Ends by lack of evaluations, with scaling *)
Example C61_run :
  match cobyla_optimize 2 1 false cex_fn cex_cn 0 (Some 10) (nQ 1 2) (nQ 1 4 : NumD) 6 100 50 200
          (cex_mem (nZ 1) (nZ 1) (nZ 2) (nZ 1)) with
  | Ret (r, i) s => (length (evs s), i, match r with CB_TOO_MANY_EVALUATIONS => true | _ => false end) = (6%nat, Some 6, true)
  | _ => False
  end.
Proof. vm_compute. reflexivity. Qed.
(** Normal end *)
Example C61_run2 :
  match cobyla_optimize 2 1 true cex_fn cex_cn 0 None (nQ 1 2) (nQ 1 2 : NumD) 100 100 50 200
          (cex_mem (nZ 1) (nZ 1) (nZ 2) (nZ 1)) with
  | Ret (r, i) s => (Z.of_nat (length (evs s)), match r with CB_SUCCESS => true | _ => false end) = (match i with Some i => i | None => 0 end, true)
  | _ => False
  end.
Proof. vm_compute. reflexivity. Qed.

(** A client of the reverse communication version, at the third request *)
Definition cclient3 {N : Num} (rhobeg rhoend f1 f2 : N) : prog N (option (ccontext (N := N))) := (
  let* r := cobyla_create 2 1 rhobeg rhoend 9 (Some 100) in
  match r with
  | None => ret None
  | Some q =>
      let* q1 := cobyla_iterate q f1 (Some 0) (Some 20) 50 200 in
      let* q2 := cobyla_iterate q1 f2 (Some 0) (Some 20) 50 200 in
      ret (Some q2)
  end)%bq.
Lemma cclient3_reach {N : Num} (rhobeg rhoend f1 f2 : N) s q s' :
  CbLaws N -> cells s 0 2 -> cells s 20 1 -> cells s 100 48 ->
  cclient3 rhobeg rhoend f1 f2 s = Ret (Some q) s' -> creach q s'.
Proof.
  intros HN C0 C2 C1 E. unfold cclient3, bind in E.
  destruct (cobyla_create 2 1 rhobeg rhoend 9 (Some 100) s) as [[q0|] s1|s1|s1|s1] eqn:E1; try discriminate E.
  assert (R1 : creach q0 s1) by (eapply creach_create; [|exact E1]; exact C1).
  assert (I1 : cells s1 0 2 /\ cells s1 20 1).
  { destruct (C61_create N 2 1 rhobeg rhoend 9 100 s C1) as (r & t & F1 & _ & F2 & _). rewrite E1 in F1. injection F1 as <- <-.
    split; intros i Hi; rewrite F2; [apply C0, Hi|lia|apply C2, Hi|lia]. }
  destruct (ccreate_args _ _ _ _ _ _ _ _ _ E1) as (N1 & P1 & W1).
  destruct (cobyla_iterate q0 f1 (Some 0) (Some 20) 50 200 s1) as [q1 s2|s2|s2|s2] eqn:E2; try discriminate E.
  assert (G1 : cgiven q0 0 (Some 20) s1).
  { unfold cgiven. rewrite N1, P1, W1. split; [apply I1|]. split; [unfold apart; cbn; lia|apply I1]. }
  assert (R2 : creach q1 s2) by (eapply creach_iterate; [exact R1|exact G1|exact E2]).
  destruct (citerate_args _ _ _ _ _ _ _ _ _ E2) as (N2 & P2 & W2). rewrite N1 in N2. rewrite P1 in P2. rewrite W1 in W2.
  assert (G2 : cgiven q1 0 (Some 20) s2).
  { destruct (creach_valid HN q0 s1 R1) as [HV HC]. assert (S := qiterate_safe HN q0 0 (Some 20) s1 f1 50 200 HV G1 HC).
    rewrite E2 in S. destruct S as (_ & G & _). unfold cgiven. rewrite N2, P2, W2. split; [|split; [unfold apart; cbn; lia|]].
    - intros i Hi. apply G. left. left. lia.
    - intros i Hi. apply G. right. exists 20. split; [reflexivity|lia]. }
  destruct (cobyla_iterate q1 f2 (Some 0) (Some 20) 50 200 s2) as [q2 s3|s3|s3|s3] eqn:E3; try discriminate E.
  injection E as -> ->. eapply creach_iterate; [exact R2|exact G2|exact E3].
Qed.
Definition cex_client : out NumD (option (ccontext (N := NumD))) :=
  cclient3 (nQ 1 2) (nQ 1 4) (nZ 3) (nZ 4) (cex_mem (nZ 0) (nZ 0) (nZ 2) (nZ 1)).
Example C62_client_ex : exists q s, cex_client = Ret (Some q) s /\ creach q s /\
  cobyla_get_status (Some q) = CB_ITERATE /\ cobyla_get_nevals (Some q) = 2.
Proof.
  assert (V : match cex_client with
    | Ret (Some q) _ => match cobyla_get_status (Some q) with CB_ITERATE => cobyla_get_nevals (Some q) =? 2 | _ => false end
    | _ => false end = true) by (vm_cast_no_check (eq_refl true)).
  assert (R : forall q s, cex_client = Ret (Some q) s -> creach q s).
  { unfold cex_client. intros q s. apply cclient3_reach; [exact CbLawsD|apply cex_cells; lia|apply cex_cells; lia|apply cex_cells; lia]. }
  destruct cex_client as [[q|] s|s|s|s]; try discriminate V. exists q, s. split; [reflexivity|]. split; [apply R; reflexivity|].
  destruct (cobyla_get_status (Some q)); try discriminate V. split; [reflexivity|]. apply Z.eqb_eq, V.
Qed.
