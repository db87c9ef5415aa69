(** * Properties of NEWUOA (newuoa.c)

    The theorems are about [newuoa_optimize], [newuoa_create] and [newuoa_iterate] (NwModel.v); the specification is in
    NwSpec.v: [nlayout] describes the arrays of the caller, [noutputs] the cells of x and of the workspace, [reach] the contexts
    that the client of the reverse communication version can have; [final] (BqSpec.v) is the state at the end of an execution.
    The numbers of steps [fi] (inner loops) and [fuel] are arbitrary, so that the theorems hold at any moment of an execution
    that does not end. *)
From Coq Require Import ZArith Reals List Bool Lia Lra.
From Flocq Require Import Core BinarySingleNaN.
From Verif Require Import Num NumFacts BqLang BqModel BqWp BqSpec BqProps NwModel NwMain NwSpec NwTop NwEnd.
Import ListNotations.
Local Open Scope Z_scope.

(** ** C57: the workspace *)

(** The arrays of newuoa.c 944-963 in the workspace at the address w: offset and number of elements (xbase, xopt, xnew, xpt, fval,
    gq, hq, pq, bmat, zmat, d, vlag, w).  The comments of newuoa.c say that the last one has at least 10*(npt + n) elements;
    bigden is given 5*(npt + n) elements for wvec and for prod, after npt + n elements. *)
Definition narrays (n npt : Z) : list (Z * Z) :=
  [(0, n); (o_xopt n npt 0, n); (o_xnew n npt 0, n); (o_xpt n npt 0, npt * n); (o_fval n npt 0, npt); (o_gq n npt 0, n);
   (o_hq n npt 0, n * (n + 1) / 2); (o_pq n npt 0, npt); (o_bmat n npt 0, (npt + n) * n); (o_zmat n npt 0, npt * (npt - n - 1));
   (o_d n npt 0, n); (o_vlag n npt 0, npt + n); (o_w n npt 0, 11 * (npt + n))].

Theorem C57_partition n npt :
  1 <= n -> n + 2 <= npt ->
  let size := (npt + 13) * (npt + n) + 3 * n * (n + 3) / 2 in
  Forall (fun a => 0 <= fst a /\ 0 <= snd a /\ fst a + snd a <= size) (narrays n npt) /\
  ForallOrdPairs (fun a b => fst a + snd a <= fst b) (narrays n npt) /\
  fst (last (narrays n npt) (0, 0)) + snd (last (narrays n npt) (0, 0)) = size.
Proof.
  intros Hn Hnpt size. pose proof (npartition_end n npt 0 Hn Hnpt) as Pe. unfold nw_size in Pe. fold size in Pe.
  destruct (chain_ok (narrays n npt) 0 size) as [A B].
  - lia.
  - unfold narrays. cbn [chain].
    assert (Q1 : 0 <= npt * n) by (apply Z.mul_nonneg_nonneg; lia).
    assert (Q2 : 0 <= (npt + n) * n) by (apply Z.mul_nonneg_nonneg; lia).
    assert (Q3 : 0 <= npt * (npt - n - 1)) by (apply Z.mul_nonneg_nonneg; lia).
    assert (Q4 : 0 <= n * (n + 1) / 2) by (apply Z.div_pos; [apply Z.mul_nonneg_nonneg; lia|lia]).
    do 3 (split; [reflexivity|]; split; [lia|]).
    split; [reflexivity|]. split; [exact Q1|]. split; [unfold o_fval; ring|]. split; [lia|]. split; [reflexivity|]. split; [lia|].
    split; [reflexivity|]. split; [exact Q4|]. split; [reflexivity|]. split; [lia|]. split; [reflexivity|]. split; [exact Q2|].
    split; [reflexivity|]. split; [exact Q3|]. split; [unfold o_d; ring|]. split; [lia|]. split; [reflexivity|]. split; [lia|].
    split; [reflexivity|]. split; [lia|]. lia.
  - split; [eapply Forall_impl; [|exact A]; cbn; tauto|]. split; [exact B|]. cbn [narrays last fst snd]. lia.
Qed.
Example C57_partition_ex : narrays 2 5 =
  [(0, 2); (2, 2); (4, 2); (6, 10); (16, 5); (21, 2); (23, 3); (26, 5); (31, 14); (45, 10); (55, 2); (57, 7); (64, 77)] /\
  (5 + 13) * (5 + 2) + 3 * 2 * (2 + 3) / 2 = 141.
Proof. split; reflexivity. Qed.
Print Assumptions C57_partition.

(** Whatever the arithmetic (any rounding, overflows, NaN, any functions cos and sin), newuoa_optimize makes no access out of
    the arrays of the caller and modifies nothing else than x and the workspace. *)
Theorem C57_memory_safe (N : Num) ncos nsin n npt maximize fn x scl (rhobeg rhoend : N) maxfun w fi fuel s :
  nlayout n npt x scl w s ->
  exists s', final (newuoa_optimize ncos nsin n npt maximize fn x scl rhobeg rhoend maxfun w fi fuel s) = Some s' /\
    forall a, ~ noutputs n npt x scl w a -> mm s' a = mm s a.
Proof.
  intros HL. eapply ok_final; [apply (newuoa_optimize_ok ncos nsin n npt maximize fn x scl rhobeg rhoend maxfun w s HL)| |].
  - intros st s' [[K _] _]. exact K.
  - intros s' [K _]. exact K.
Qed.
Print Assumptions C57_memory_safe.

(** The status returned, and nothing is modified if the arguments are refused. *)
Theorem C57_status (N : Num) ncos nsin n npt maximize fn x scl (rhobeg rhoend : N) maxfun w fi fuel s st s' :
  nlayout n npt x scl w s ->
  newuoa_optimize ncos nsin n npt maximize fn x scl rhobeg rhoend maxfun w fi fuel s = Ret st s' ->
  (st = NW_SUCCESS \/ st = NW_TOO_MANY_EVALUATIONS \/ st = NW_STEP_FAILED) \/
  ((st = NW_BAD_NVARS \/ st = NW_BAD_NPT \/ st = NW_BAD_RHO_RANGE \/ st = NW_BAD_SCALING) /\ s' = s).
Proof.
  intros HL E. assert (H := newuoa_optimize_ok ncos nsin n npt maximize fn x scl rhobeg rhoend maxfun w s HL fi fuel).
  unfold ok in H. rewrite E in H. destruct H as (_ & [[H _]|H]); auto.
Qed.
Print Assumptions C57_status.

(** Reverse communication: the context and the workspace that the client may have after any calls of the functions, with any
    values given for f and any changes of the memory between the calls. *)
Theorem C57_iterate_safe (N : Num) ncos nsin (c : ncontext (N := N)) f x fi fuel s :
  reach ncos nsin c s ->
  cells s x (k_n c) -> apart x (k_n c) (k_w c) (ndoc_size (k_n c) (k_npt c) None) ->
  exists s', final (newuoa_iterate ncos nsin c f (Some x) fi fuel s) = Some s' /\
    (forall a, ~ noutputs (k_n c) (k_npt c) x None (k_w c) a -> mm s' a = mm s a) /\ evs s' = evs s.
Proof.
  intros HR Hx Ha. destruct (reach_valid ncos nsin c s HR) as [HV HC]. rewrite ndoc_nw in *.
  set (W := fun b => x <= b < x + k_n c \/ k_w c <= b < k_w c + nw_size (k_n c) (k_npt c)).
  assert (S := iterate_safe ncos nsin W W (fun _ => None) (fun b Hb => Hb) ltac:(discriminate) c x (fun b Hb => or_introl Hb)
      (fun b Hb => or_intror Hb) HV f fi fuel s).
  assert (G : good W (fun _ => None) s).
  { apply good_cells. intros b [Hb|Hb]; [apply (cells_in s x (k_n c)); auto|eapply cells_in; eauto]. }
  specialize (S G). assert (K : forall s', frame W s s' ->
    (forall a, ~ noutputs (k_n c) (k_npt c) x None (k_w c) a -> mm s' a = mm s a) /\ evs s' = evs s).
  { intros s' [F1 F2]. split; [|exact F2]. intros a Na. apply F1. unfold noutputs in Na. rewrite ndoc_nw in Na. exact Na. }
  destruct (newuoa_iterate ncos nsin c f (Some x) fi fuel s) as [c' s'|s'|s'|s']; cbn [final].
  - destruct S as (_ & _ & F). exists s'. split; [reflexivity|apply K, F].
  - contradiction.
  - exists s'. split; [reflexivity|apply K, S].
  - exists s'. split; [reflexivity|apply K, S].
Qed.
Print Assumptions C57_iterate_safe.

(** newuoa_create only writes in the workspace, the size of which is the documented one: it is filled with zeros.  One variable is
    accepted, contrary to newuoa_optimize. *)
Theorem C57_create (N : Num) n npt (rhobeg rhoend : N) maxfun a s :
  cells s a (ndoc_size n npt None) ->
  exists r s', newuoa_create n npt rhobeg rhoend maxfun (Some a) s = Ret r s' /\ evs s' = evs s /\
    (forall b, ~ (a <= b < a + ndoc_size n npt None) -> mm s' b = mm s b) /\
    (r = None <-> ~ (n + 2 <= npt <= (n + 1) * (n + 2) / 2) \/ (nle rhoend (nZ 0) || nlt rhobeg rhoend)%bool = true \/
                  n < 0 \/ maxfun < 1) /\
    (r = None -> s' = s) /\
    forall c, r = Some c -> newuoa_get_status r = NW_ITERATE /\ newuoa_get_nevals r = 0 /\ k_w c = a /\
      forall b, a <= b < a + ndoc_size n npt None -> mm s' b = Some (nZ 0).
Proof.
  intros Hc. rewrite ndoc_nw in *. unfold newuoa_create. change (zero (N := N)) with (nZ 0 : N).
  assert (NO : forall P : Prop, P -> exists r s', @ret N _ (@None (ncontext (N := N))) s = Ret r s' /\ evs s' = evs s /\
    (forall b, ~ (a <= b < a + nw_size n npt) -> mm s' b = mm s b) /\ (r = None <-> P) /\ (r = None -> s' = s) /\
    forall c, r = Some c -> newuoa_get_status r = NW_ITERATE /\ newuoa_get_nevals r = 0 /\ k_w c = a /\
      forall b, a <= b < a + nw_size n npt -> mm s' b = Some (nZ 0)).
  { intros P HP. exists None, s. do 3 (split; [auto|]). split; [tauto|]. split; [auto|]. discriminate. }
  destruct (Z.ltb_spec n 0) as [L|L]; [apply NO; tauto|].
  destruct ((npt <? n + 2) || ((n + 2) * (n + 1) / 2 <? npt))%bool eqn:E1.
  { apply NO. left. apply orb_true_iff in E1. rewrite (Z.mul_comm (n + 1)). destruct E1 as [E1|E1]; apply Z.ltb_lt in E1; lia. }
  destruct (nle rhoend (nZ 0) || nlt rhobeg rhoend)%bool eqn:E2; [apply NO; tauto|].
  destruct (Z.ltb_spec maxfun 1) as [L1|L1]; [apply NO; tauto|]. clear NO.
  apply orb_false_iff in E1. destruct E1 as [E1 E3]. apply Z.ltb_ge in E1, E3. rewrite Z.mul_comm in E3.
  destruct (zero_loop a (nw_size n npt) s Hc) as (s' & Es & Ev & Em).
  unfold bind. rewrite Es. eexists. exists s'. split; [reflexivity|]. split; [exact Ev|].
  split; [intros b Hb; rewrite Em; destruct (Z.leb_spec a b), (Z.ltb_spec b (a + nw_size n npt)); auto; lia|].
  split; [split; [discriminate|intros [H|[H|[H|H]]]; [lia|discriminate|lia|lia]]|].
  split; [discriminate|]. intros c [= <-]. do 3 (split; [reflexivity|]).
  intros b Hb. rewrite Em. destruct (Z.leb_spec a b), (Z.ltb_spec b (a + nw_size n npt)); auto; lia.
Qed.
Print Assumptions C57_create.

(** newuoa_iterate does nothing but report the misuse when the address of the variables is NULL or when no value was requested. *)
Theorem C57_misuse (N : Num) ncos nsin (c : ncontext (N := N)) f x fi fuel s :
  x = None \/ newuoa_get_status (Some c) <> NW_ITERATE ->
  exists c', newuoa_iterate ncos nsin c f x fi fuel s = Ret c' s /\
    newuoa_get_status (Some c') = match x with None => NW_BAD_ADDRESS | Some _ => NW_CORRUPTED end /\
    newuoa_get_nevals (Some c') = newuoa_get_nevals (Some c).
Proof.
  intros H. unfold newuoa_iterate. destruct x as [x|].
  - destruct H as [H|H]; [discriminate|]. cbn [newuoa_get_status] in H.
    destruct (k_status c); try congruence; (eexists; split; [reflexivity|]; split; reflexivity).
  - eexists. split; [reflexivity|]. split; reflexivity.
Qed.
Print Assumptions C57_misuse.

(** ** C58: the number of evaluations *)

(** At any moment of an execution: at most maxfun evaluations (one if maxfun < 1), and exactly that number when the status is
    "too many evaluations". *)
Theorem C58_count (N : Num) ncos nsin n npt maximize fn x scl (rhobeg rhoend : N) maxfun w fi fuel s :
  nlayout n npt x scl w s ->
  exists s' new, final (newuoa_optimize ncos nsin n npt maximize fn x scl rhobeg rhoend maxfun w fi fuel s) = Some s' /\
    evs s' = new ++ evs s /\ Z.of_nat (length new) <= Z.max 1 maxfun /\
    forall st, newuoa_optimize ncos nsin n npt maximize fn x scl rhobeg rhoend maxfun w fi fuel s = Ret st s' ->
      st = NW_TOO_MANY_EVALUATIONS -> Z.of_nat (length new) = Z.max 1 maxfun.
Proof.
  intros HL. assert (H := newuoa_optimize_ok ncos nsin n npt maximize fn x scl rhobeg rhoend maxfun w s HL fi fuel). unfold ok in H.
  destruct (newuoa_optimize ncos nsin n npt maximize fn x scl rhobeg rhoend maxfun w fi fuel s) as [st s'|s'|s'|s'].
  - destruct H as ((_ & new & E1 & E2) & H). exists s', new. cbn [final]. do 3 (split; [auto|]). intros st' [= <-] ->.
    destruct H as [[_ H]|[[H|[H|[H|H]]] _]]; try discriminate H.
    specialize (H eq_refl). unfold ncalls in H. rewrite E1, app_length in H. lia.
  - contradiction.
  - destruct H as (_ & new & E1 & E2). exists s', new. cbn [final]. do 3 (split; [auto|]). discriminate.
  - destruct H as (_ & new & E1 & E2). exists s', new. cbn [final]. do 3 (split; [auto|]). discriminate.
Qed.
Print Assumptions C58_count.

(** Reverse communication: no more than maxfun values are requested since the creation or the last restart. *)
Theorem C58_requests (N : Num) ncos nsin (c : ncontext (N := N)) s :
  reach ncos nsin c s ->
  0 <= newuoa_get_nevals (Some c) <= k_maxfun c /\
  (newuoa_get_status (Some c) = NW_ITERATE -> newuoa_get_nevals (Some c) < k_maxfun c) /\
  (newuoa_get_status (Some c) = NW_TOO_MANY_EVALUATIONS -> newuoa_get_nevals (Some c) = k_maxfun c).
Proof.
  intros HR. destruct (reach_valid ncos nsin c s HR) as [(H1 & H2 & H3 & H4 & H5 & H6 & H7 & H8) _]. cbn [newuoa_get_nevals newuoa_get_status].
  split; [exact H5|]. split; [|exact H6]. intros E. destruct (H7 E) as [E0|(_ & H)]; [lia|].
  destruct H as (L & K & _). unfold nlab, ncnt in *. cbn [fst snd] in *. lia.
Qed.
Print Assumptions C58_requests.

(** Each accepted call of newuoa_iterate counts one evaluation. *)
Theorem C58_iterate_count (N : Num) ncos nsin (c c' : ncontext (N := N)) f x fi fuel s s' :
  reach ncos nsin c s -> newuoa_get_status (Some c) = NW_ITERATE ->
  newuoa_iterate ncos nsin c f (Some x) fi fuel s = Ret c' s' ->
  newuoa_get_nevals (Some c') = newuoa_get_nevals (Some c) + 1.
Proof.
  intros HR HS E. destruct (reach_valid ncos nsin c s HR) as [(_ & _ & _ & _ & H5 & _) _]. cbn [newuoa_get_status newuoa_get_nevals] in *.
  unfold newuoa_iterate in E. rewrite HS in E. cbv zeta in E.
  destruct (Z.ltb_spec 1 (k_nevals c + 1)) as [L|L].
  - unfold bind in E. destruct (nw_run _ _ _ _ _ _ _ _ _ _ _ _ _ _ s) as [v s1|s1|s1|s1]; try discriminate E.
    injection E as <- <-. reflexivity.
  - destruct (negb _).
    + injection E as <- <-. reflexivity.
    + unfold bind in E. destruct (nw_begin _ _ _ _ _ _ s) as [v s1|s1|s1|s1]; try discriminate E.
      destruct (nw_run _ _ _ _ _ _ _ _ _ _ _ _ _ _ s1) as [v2 s2|s2|s2|s2]; try discriminate E.
      injection E as <- <-. reflexivity.
Qed.
Print Assumptions C58_iterate_count.

(** The status of success means that RHO is not more than rhoend: the other reasons for the end are not reported as a success. *)
Theorem C58_success (N : Num) ncos nsin (c : ncontext (N := N)) s :
  reach ncos nsin c s -> newuoa_get_status (Some c) = NW_SUCCESS -> nlt (k_rhoend c) (newuoa_get_rho (Some c)) = false.
Proof. intros HR HS. destruct (reach_succ ncos nsin c s HR) as (_ & H & _). exact (H HS). Qed.
Print Assumptions C58_success.

(** ** Examples of executions in double precision *)

(** The sums of the first terms of the series of cos and sin *)
Definition series (x : NumD) (k0 : Z) (t0 : NumD) : NumD :=
  (fix go (k : nat) (i : Z) (t s : NumD) : NumD := match k with O => s | S k =>
    let t' := nopp (ndiv (nmul t (nmul x x)) (nmul (nZ (i + 1)) (nZ (i + 2)))) in go k (i + 2) t' (nadd s t') end) 18%nat k0 t0 t0.
Definition ex_cos (x : NumD) : NumD := series x 0 (nZ 1).
Definition ex_sin (x : NumD) : NumD := series x 1 x.
(** u^2 + u*v + v^2 with u = x0 - 1 and v = x1 - 2 *)
Definition nex_fn {N : Num} (_ : list (list N * N)) (p : list N) : N :=
  match p with [a; b] => let u := nsub a (nZ 1) in let v := nsub b (nZ 2) in nadd (nmul u u) (nadd (nmul v v) (nmul u v)) | _ => nZ 0 end.
(** x at the address 0, scl at 10, the workspace at 100 *)
Definition nex_mem {N : Num} (x0 x1 c0 c1 : N) : mst N :=
  mkmst (fun a => if (a <? 0) || (300 <=? a) then None else
    Some (if a =? 0 then x0 else if a =? 1 then x1 else if a =? 10 then c0 else if a =? 11 then c1 else nZ 7)) [].
Lemma nex_cells {N : Num} (x0 x1 c0 c1 : N) a k : 0 <= a -> a + k <= 300 -> cells (nex_mem x0 x1 c0 c1) a k.
Proof.
  intros H1 H2 i Hi. cbn [mm nex_mem]. destruct (Z.ltb_spec (a + i) 0); [lia|]. destruct (Z.leb_spec 300 (a + i)); [lia|].
  cbn [orb]. eauto.
Qed.
Lemma nex_layout {N : Num} (x0 x1 c0 c1 : N) scl :
  scl = None \/ scl = Some 10 -> nlayout 2 5 0 scl 100 (nex_mem x0 x1 c0 c1).
Proof.
  intros [->| ->]; constructor; try (apply nex_cells; cbn; lia); unfold apart; cbn; auto; lia.
Qed.

(** Ends by lack of evaluations, with scaling *)
Example C57_run :
  match newuoa_optimize ex_cos ex_sin 2 5 false nex_fn 0 (Some 10) (nQ 1 2) (nQ 1 4 : NumD) 9 100 50 200
          (nex_mem (nZ 0) (nZ 0) (nZ 2) (nZ 1)) with
  | Ret r s => (length (evs s), match r with NW_TOO_MANY_EVALUATIONS => true | _ => false end) = (9%nat, true)
  | _ => False
  end.
Proof. vm_compute. reflexivity. Qed.

(** A client of the reverse communication version, at the third request *)
Definition client3 {N : Num} (ncos nsin : N -> N) (rhobeg rhoend f1 f2 : N) : prog N (option (ncontext (N := N))) := (
  let* r := newuoa_create 2 5 rhobeg rhoend 9 (Some 100) in
  match r with
  | None => ret None
  | Some c =>
      let* c1 := newuoa_iterate ncos nsin c f1 (Some 0) 50 200 in
      let* c2 := newuoa_iterate ncos nsin c1 f2 (Some 0) 50 200 in
      ret (Some c2)
  end)%bq.
Lemma client3_reach {N : Num} ncos nsin (rhobeg rhoend f1 f2 : N) s c s' :
  cells s 0 2 -> cells s 100 141 ->
  client3 ncos nsin rhobeg rhoend f1 f2 s = Ret (Some c) s' -> reach ncos nsin c s'.
Proof.
  intros C0 C1 E. unfold client3, bind in E.
  destruct (newuoa_create 2 5 rhobeg rhoend 9 (Some 100) s) as [[c0|] s1|s1|s1|s1] eqn:E1; try discriminate E.
  assert (R1 : reach ncos nsin c0 s1) by (eapply reach_create; [|exact E1]; exact C1).
  assert (I1 : k_n c0 = 2 /\ k_npt c0 = 5 /\ k_w c0 = 100 /\ cells s1 0 2).
  { destruct (C57_create N 2 5 rhobeg rhoend 9 100 s C1) as (r & t & F1 & _ & F2 & _). rewrite E1 in F1. injection F1 as <- <-.
    destruct (create_args _ _ _ _ _ _ _ _ _ E1) as (-> & -> & ->). do 3 (split; [reflexivity|]).
    intros i Hi. rewrite F2; [apply C0, Hi|]. cbn; lia. }
  destruct I1 as (N1 & P1 & W1 & X1).
  destruct (newuoa_iterate ncos nsin c0 f1 (Some 0) 50 200 s1) as [c1 s2|s2|s2|s2] eqn:E2; try discriminate E.
  assert (A1 : apart 0 (k_n c0) (k_w c0) (ndoc_size (k_n c0) (k_npt c0) None)) by (rewrite N1, P1, W1; unfold apart; cbn; lia).
  assert (R2 : reach ncos nsin c1 s2) by (eapply reach_iterate; [exact R1| |exact A1|exact E2]; rewrite N1; exact X1).
  assert (I2 : k_n c1 = 2 /\ k_npt c1 = 5 /\ k_w c1 = 100).
  { destruct (iterate_args ncos nsin _ _ _ _ _ _ _ _ E2) as (-> & -> & ->). auto. }
  destruct I2 as (N2 & P2 & W2).
  destruct (newuoa_iterate ncos nsin c1 f2 (Some 0) 50 200 s2) as [c2 s3|s3|s3|s3] eqn:E3; try discriminate E.
  injection E as -> ->. eapply reach_iterate; [exact R2| | |exact E3].
  - rewrite N2. assert (K := iterate_cells ncos nsin c0 c1 f1 0 50 200 s1 s2 R1). rewrite N1 in K, A1. apply K; auto.
  - rewrite N2, P2, W2. unfold apart. cbn. lia.
Qed.
Definition nex_client : out NumD (option (ncontext (N := NumD))) :=
  client3 ex_cos ex_sin (nQ 1 2) (nQ 1 4) (nZ 3) (nZ 4) (nex_mem (nZ 0) (nZ 0) (nZ 2) (nZ 1)).
Example C58_client_ex : exists c s, nex_client = Ret (Some c) s /\ reach ex_cos ex_sin c s /\
  newuoa_get_status (Some c) = NW_ITERATE /\ newuoa_get_nevals (Some c) = 2.
Proof.
  assert (V : match nex_client with
    | Ret (Some c) _ => match newuoa_get_status (Some c) with NW_ITERATE => newuoa_get_nevals (Some c) =? 2 | _ => false end
    | _ => false end = true) by (vm_cast_no_check (eq_refl true)).
  assert (R : forall c s, nex_client = Ret (Some c) s -> reach ex_cos ex_sin c s).
  { unfold nex_client. intros c s. apply client3_reach; apply nex_cells; lia. }
  destruct nex_client as [[c|] s|s|s|s]; try discriminate V. exists c, s. split; [reflexivity|]. split; [apply R; reflexivity|].
  destruct (newuoa_get_status (Some c)); try discriminate V. split; [reflexivity|]. apply Z.eqb_eq, V.
Qed.

(** A client that gives the value zero until the end *)
Fixpoint nzeros {N : Num} (ncos nsin : N -> N) (k : nat) (c : ncontext (N := N)) : prog N (ncontext (N := N)) :=
  match k with
  | O => ret c
  | S k => bind (newuoa_iterate ncos nsin c (nZ 0) (Some 0) 50 200) (nzeros ncos nsin k)
  end.
Lemma nzeros_reach {N : Num} (ncos nsin : N -> N) k c s c' s' :
  reach ncos nsin c s -> cells s 0 (k_n c) -> apart 0 (k_n c) (k_w c) (ndoc_size (k_n c) (k_npt c) None) ->
  nzeros ncos nsin k c s = Ret c' s' -> reach ncos nsin c' s'.
Proof.
  revert c s. induction k as [|k IH]; intros c s HR HC HA E; cbn [nzeros] in E; [injection E as <- <-; exact HR|].
  unfold bind in E. destruct (newuoa_iterate ncos nsin c (nZ 0) (Some 0) 50 200 s) as [c1 s1|s1|s1|s1] eqn:E1; try discriminate E.
  destruct (iterate_args ncos nsin _ _ _ _ _ _ _ _ E1) as (N1 & P1 & W1).
  apply (IH c1 s1); [eapply reach_iterate; eassumption| |rewrite N1, P1, W1; exact HA|exact E].
  rewrite N1. eapply iterate_cells; eassumption.
Qed.
Definition nzclient {N : Num} (ncos nsin : N -> N) (rhobeg rhoend : N) k : prog N (option (ncontext (N := N))) :=
  bind (newuoa_create 2 5 rhobeg rhoend 9 (Some 100))
    (fun r => match r with None => ret None | Some c => bind (nzeros ncos nsin k c) (fun c => ret (Some c)) end).
Lemma nzclient_reach {N : Num} (ncos nsin : N -> N) (rhobeg rhoend : N) k m c s :
  cells m 0 2 -> cells m 100 (ndoc_size 2 5 None) -> nzclient ncos nsin rhobeg rhoend k m = Ret (Some c) s -> reach ncos nsin c s.
Proof.
  intros C0 C1 E. unfold nzclient, bind in E.
  destruct (newuoa_create 2 5 rhobeg rhoend 9 (Some 100) m) as [[c0|] s1|s1|s1|s1] eqn:E1; try discriminate E.
  destruct (C57_create N 2 5 rhobeg rhoend 9 100 m C1) as (r & t & F1 & _ & F2 & _). rewrite E1 in F1. injection F1 as <- <-.
  destruct (create_args _ _ _ _ _ _ _ _ _ E1) as (N1 & P1 & W1).
  destruct (nzeros ncos nsin k c0 s1) as [c1 s2|s2|s2|s2] eqn:E2; try discriminate E. injection E as -> ->.
  eapply nzeros_reach; [eapply reach_create; [exact C1|exact E1]| | |exact E2].
  - rewrite N1. intros i Hi. rewrite F2; [apply C0, Hi|cbn; lia].
  - rewrite N1, P1, W1. unfold apart. cbn. lia.
Qed.
Definition nex_success : out NumD (option (ncontext (N := NumD))) :=
  nzclient ex_cos ex_sin (nQ 1 2) (nQ 1 2) 6 (nex_mem (nZ 0) (nZ 0) (nZ 2) (nZ 1)).
Example C58_success_ex : exists c s, nex_success = Ret (Some c) s /\ reach ex_cos ex_sin c s /\
  newuoa_get_status (Some c) = NW_SUCCESS /\ newuoa_get_nevals (Some c) = 6.
Proof.
  assert (V : match nex_success with
    | Ret (Some c) _ => match newuoa_get_status (Some c) with NW_SUCCESS => newuoa_get_nevals (Some c) =? 6 | _ => false end
    | _ => false end = true) by (vm_cast_no_check (eq_refl true)).
  assert (R : forall c s, nex_success = Ret (Some c) s -> reach ex_cos ex_sin c s).
  { unfold nex_success. intros c s. apply nzclient_reach; apply nex_cells; cbn; lia. }
  destruct nex_success as [[c|] s|s|s|s]; try discriminate V. exists c, s. split; [reflexivity|]. split; [apply R; reflexivity|].
  destruct (newuoa_get_status (Some c)); try discriminate V. split; [reflexivity|]. apply Z.eqb_eq, V.
Qed.
