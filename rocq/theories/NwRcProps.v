(** * C60: newuoa_optimize and the reverse communication version do the same

    newuoa.c is compiled twice: newuoa_optimize calls the objective function itself, newuoa_iterate returns to its caller each time a
    value is needed and saves the local variables in the context.  [client] (NwRcSpec.v) is the use of the reverse communication
    version as documented.  The theorems compare the two from the memory [s] left by newuoa_create, with the workspace of the context, for any
    arithmetic, any functions instead of cos and sin, and any objective function, the value of which may depend on the previous
    calls. *)
From Coq Require Import ZArith Reals List Bool Lia Lra.
From Flocq Require Import Core.
From Verif Require Import Num NumFacts BqLang BqModel BqWp BqSpec BqStart BqPc NwModel NwSpec NwTop NwProps NwRcSpec NwRc NwRcTop.
Import ListNotations.
Local Open Scope Z_scope.

Section Ends.
Context {N : Num}.
Lemma end_eq n maximize x w (v : nvars (N := N)) s st s' : nw_end n maximize x w None v s = Ret st s' ->
  v_status v = st /\ evs s = evs s' /\ forall a, a <> w -> mm s a = mm s' a.
Proof.
  unfold nw_end, bind, assign, ret, sto, bind. destruct (mm s w); [|discriminate]. intros [= <- <-]. split; [reflexivity|]. split; [reflexivity|].
  intros a Ha. cbn. destruct (Z.eqb_spec a w); [contradiction|reflexivity].
Qed.
Lemma create_eq n npt (rhobeg rhoend : N) maxfun w s0 c s : newuoa_create n npt rhobeg rhoend maxfun (Some w) s0 = Ret (Some c) s ->
  c = mkc n npt rhobeg rhoend maxfun w nv0 0 /\ n + 2 <= npt <= (n + 1) * (n + 2) / 2 /\
  (nle rhoend zero || nlt rhobeg rhoend)%bool = false.
Proof.
  unfold newuoa_create. destruct (n <? 0); [discriminate|].
  destruct ((npt <? n + 2) || ((n + 2) * (n + 1) / 2 <? npt))%bool eqn:E1; [discriminate|].
  destruct (nle rhoend zero || nlt rhobeg rhoend)%bool; [discriminate|]. destruct (maxfun <? 1); [discriminate|].
  unfold bind. destruct (loop _ _ _ _ s0) as [u t|t|t|t]; try discriminate. intros [= <- <-]. split; [reflexivity|].
  apply orb_false_iff in E1. destruct E1 as [E1 E2]. apply Z.ltb_ge in E1, E2. rewrite (Z.mul_comm (n + 2)) in E2. auto.
Qed.
Lemma optimize_eq ncos nsin n npt maximize fn x (rhobeg rhoend : N) maxfun w fi fuel s : 2 <= n -> n + 2 <= npt <= (n + 1) * (n + 2) / 2 ->
  (nle rhoend zero || nlt rhobeg rhoend)%bool = false ->
  newuoa_optimize ncos nsin n npt maximize fn x None rhobeg rhoend maxfun w fi fuel s =
  nw_optimize ncos nsin n npt maximize fn x rhobeg rhoend maxfun w None fi fuel s.
Proof.
  intros H1 H2 H3. unfold newuoa_optimize. rewrite H3. destruct (Z.ltb_spec n 2); [lia|].
  destruct (Z.ltb_spec npt (n + 2)); [lia|]. rewrite (Z.mul_comm (n + 2)). destruct (Z.ltb_spec ((n + 1) * (n + 2) / 2) npt); [lia|]. reflexivity.
Qed.
(** The memory after newuoa_create: only the workspace is modified *)
Lemma create_mem n npt (rhobeg rhoend : N) maxfun x w s0 c s : newuoa_create n npt rhobeg rhoend maxfun (Some w) s0 = Ret (Some c) s ->
  nlayout n npt x None w s0 -> nlayout n npt x None w s /\ evs s = evs s0 /\ forall i, 0 <= i < n -> mm s (x + i) = mm s0 (x + i).
Proof.
  intros E HL. destruct (create_eq _ _ _ _ _ _ _ _ _ E) as (_ & Hnpt & _). unfold newuoa_create in E. destruct (Z.ltb_spec n 0) as [|Hn]; [discriminate|].
  destruct ((npt <? n + 2) || ((n + 2) * (n + 1) / 2 <? npt))%bool; [discriminate|].
  destruct (nle rhoend zero || nlt rhobeg rhoend)%bool; [discriminate|]. destruct (maxfun <? 1); [discriminate|].
  assert (Hs : 0 <= nw_size n npt).
  { unfold nw_size. assert (0 <= (npt + 13) * (npt + n)) by nia. assert (0 <= 3 * n * (n + 3) / 2) by (apply Z.div_pos; nia). lia. }
  assert (K : wp (loop 0 (nw_size n npt - 1) (fun i _ => assign (w + i) (ret zero)) tt) s0 (fun _ t => evs t = evs s0 /\
    (forall a, (exists v, mm s0 a = Some v) -> exists v, mm t a = Some v) /\ forall a, ~ (w <= a < w + nw_size n npt) -> mm t a = mm s0 a)).
  { apply (wp_loopJ (fun _ (_ : unit) t => evs t = evs s0 /\ (forall a, (exists v, mm s0 a = Some v) -> exists v, mm t a = Some v) /\
      forall a, ~ (w <= a < w + nw_size n npt) -> mm t a = mm s0 a)); [lia|auto| |auto].
    intros i _ t Hi (J1 & J2 & J3). apply wp_assign, wp_ret. split; [exact J1|]. split.
    - intros a Ha. cbn. destruct (Z.eqb_spec a (w + i)); [eauto|apply J2, Ha].
    - intros a Ha. cbn. destruct (Z.eqb_spec a (w + i)); [lia|apply J3, Ha]. }
  unfold bind in E. destruct (loop _ _ _ _ s0) as [u t|t|t|t] eqn:El in E; try discriminate E. injection E as <- <-.
  destruct (K u t El) as (K1 & K2 & K3). clear K. destruct HL as [H1 H2 H3 H4 H5]. split; [|split].
  - constructor; auto; intros i Hi; apply K2; [apply H1, Hi|apply H3, Hi].
  - exact K1.
  - intros i Hi. apply K3. unfold apart, ndoc_size, nw_size in *. lia.
Qed.
End Ends.

(** If newuoa_optimize ends with the status [st] in the memory [s2] then the client ends; its context has the same status; it has
    called the objective function with the same variables in the same order; newuoa_get_nevals is the number of these calls; and
    the memory is the same, in particular the variables in x, but work[0] where newuoa_optimize stores the value of the objective
    function.  The variables must not change when zero is added to them (in IEEE arithmetic all the numbers but -0). *)
Theorem C60_client (N : Num) ncos nsin n npt maximize fn x (rhobeg rhoend : N) maxfun w s0 c s fi fuel st s2 F k :
  2 <= n -> newuoa_create n npt rhobeg rhoend maxfun (Some w) s0 = Ret (Some c) s ->
  nlayout n npt x None w s0 -> evs s0 = [] -> (forall i v, 0 <= i < n -> mm s0 (x + i) = Some v -> nadd zero v = v) ->
  newuoa_optimize ncos nsin n npt maximize fn x None rhobeg rhoend maxfun w fi fuel s = Ret st s2 ->
  (fuel < F)%nat -> (fuel < k)%nat ->
  exists c' s3, client ncos nsin n maximize fn x fi F k c s = Ret c' s3 /\
    newuoa_get_status (Some c') = st /\ newuoa_get_nevals (Some c') = Z.of_nat (length (evs s2)) /\
    evs s3 = evs s2 /\ forall a, a <> w -> mm s3 a = mm s2 a.
Proof.
  intros Hn Hc HL0 He0 Hx0 E HF Hk. destruct (create_eq _ _ _ _ _ _ _ _ _ Hc) as (-> & Hnpt & Hr).
  destruct (create_mem _ _ _ _ _ _ _ _ _ _ Hc HL0) as (HL & He & Hx'). rewrite He0 in He.
  assert (Hx : forall i v, 0 <= i < n -> mm s (x + i) = Some v -> nadd zero v = v) by (intros i v Hi; rewrite Hx' by exact Hi; apply Hx0, Hi).
  rewrite optimize_eq in E by auto.
  destruct (fwd_top ncos nsin n npt maximize fn x rhobeg rhoend maxfun w fi s HL Hn Hnpt Hx fuel st s2 F k E HF Hk) as (v' & ne' & s3 & A1 & A2 & A3).
  destruct (end_eq _ _ _ _ _ _ _ _ A2) as (B1 & B2 & B3). exists (mkc n npt rhobeg rhoend maxfun w v' ne'), s3.
  split; [exact A1|]. split; [exact B1|]. split; [|split; [exact B2|exact B3]]. cbn. rewrite B2, He in A3. cbn [length] in A3. lia.
Qed.
Print Assumptions C60_client.

(** Conversely, if the client ends then so does newuoa_optimize, with the same status, the same calls of the objective function
    and the same memory but work[0]. *)
Theorem C60_optimize (N : Num) ncos nsin n npt maximize fn x (rhobeg rhoend : N) maxfun w s0 c s fi F k c' s3 :
  2 <= n -> newuoa_create n npt rhobeg rhoend maxfun (Some w) s0 = Ret (Some c) s ->
  nlayout n npt x None w s0 -> evs s0 = [] -> (forall i v, 0 <= i < n -> mm s0 (x + i) = Some v -> nadd zero v = v) ->
  client ncos nsin n maximize fn x fi F k c s = Ret c' s3 ->
  exists fuel st s2, newuoa_optimize ncos nsin n npt maximize fn x None rhobeg rhoend maxfun w fi fuel s = Ret st s2 /\
    newuoa_get_status (Some c') = st /\ evs s3 = evs s2 /\ forall a, a <> w -> mm s3 a = mm s2 a.
Proof.
  intros Hn Hc HL0 He0 Hx0 E. destruct (create_eq _ _ _ _ _ _ _ _ _ Hc) as (-> & Hnpt & Hr).
  destruct (create_mem _ _ _ _ _ _ _ _ _ _ Hc HL0) as (HL & He & Hx'). rewrite He0 in He.
  assert (Hx : forall i v, 0 <= i < n -> mm s (x + i) = Some v -> nadd zero v = v) by (intros i v Hi; rewrite Hx' by exact Hi; apply Hx0, Hi).
 
  destruct (bwd_top ncos nsin n npt maximize fn x rhobeg rhoend maxfun w fi s HL Hn Hnpt Hx F k c' s3 E) as (fuel & Ef).
  destruct (nw_end n maximize x w None (k_v c') s3) as [st s2|t|t|t] eqn:E2.
  - exists fuel, st, s2. rewrite optimize_eq by auto. split; [exact Ef|]. apply (end_eq _ _ _ _ _ _ _ _ E2).
  - exfalso. destruct (C57_memory_safe N ncos nsin n npt maximize fn x None rhobeg rhoend maxfun w fi fuel s HL) as (s' & A & _).
    rewrite optimize_eq, Ef in A by auto. discriminate A.
  - exfalso. revert E2. unfold nw_end, bind, assign, ret, sto, bind. destruct (mm s3 w); discriminate.
  - exfalso. revert E2. unfold nw_end, bind, assign, ret, sto, bind. destruct (mm s3 w); discriminate.
Qed.
Print Assumptions C60_optimize.

(** ** Examples

    The hypotheses are met by [nex_mem], and both ways end with NEWUOA_SUCCESS for the function of NwProps.v, with the same variables
    and the same calls (double precision, computed). *)
Definition nex_create {N : Num} (maxfun : Z) (x0 x1 : N) : out N (option (ncontext (N := N))) :=
  newuoa_create 2 5 (nQ 1 2) (nQ 1 4) maxfun (Some 100) (nex_mem x0 x1 (nZ 2) (nZ 3)).
Definition same_evs (l l' : list (list NumD * NumD)) : bool :=
  (Nat.eqb (length l) (length l') &&
   forallb (fun ee => match fst (fst ee), fst (snd ee) with [a; b], [c; d] => neq a c && neq b d && neq (snd (fst ee)) (snd (snd ee)) | _, _ => false end)
     (combine l l'))%bool.
Definition nex_both : bool :=
  match nex_create 30 (nZ 0 : NumD) (nZ 0) with
  | Ret (Some c) s =>
      match newuoa_optimize ex_cos ex_sin 2 5 false nex_fn 0 None (nQ 1 2) (nQ 1 4) 30 100 50 200 s, client ex_cos ex_sin 2 false nex_fn 0 50 201 201 c s with
      | Ret NW_SUCCESS s2, Ret c' s3 =>
          (same_evs (evs s2) (evs s3) && Z.eqb (k_nevals c') (Z.of_nat (length (evs s2))) &&
           match newuoa_get_status (Some c') with NW_SUCCESS => true | _ => false end &&
           match mm s2 0, mm s3 0, mm s2 1, mm s3 1 with Some a, Some b, Some c, Some d => neq a b && neq c d | _, _, _, _ => false end)%bool
      | _, _ => false
      end
  | _ => false
  end.
Example C60_ex : nlayout 2 5 0 None 100 (nex_mem (nZ 0 : NumD) (nZ 0) (nZ 2) (nZ 3)) /\ nadd zero (nZ 0 : NumD) = nZ 0 /\ nex_both = true.
Proof. split; [apply nex_layout; auto|]. split; vm_compute; reflexivity. Qed.
Example C60_ex_exact H I : forall v : NumR H I, nadd zero v = v.
Proof. intros v. apply Rplus_0_l. Qed.

(** If the first variable is -0 then the first variables given to the objective function are not the same: newuoa_optimize gives
    0 + -0 which is +0, the client gives the variables of the caller. *)
Definition nex_first (o : list (list NumD * NumD)) : option (list NumD) := match rev o with e :: _ => Some (fst e) | [] => None end.
Definition nex_zero (cr : out NumD (option (ncontext (N := NumD)))) (opt : mst NumD -> out NumD nstatus) (cl : ncontext -> mst NumD -> out NumD (ncontext (N := NumD))) : bool :=
  match cr with
  | Ret (Some c) s =>
      match opt s, cl c s with
      | Ret _ s2, Ret _ s3 =>
          match nex_first (evs s2), nex_first (evs s3) with
          | Some (a :: _), Some (b :: _) => (nlt zero (ndiv one a) && nlt (ndiv one b) zero)%bool
          | _, _ => false
          end
      | _, _ => false
      end
  | _ => false
  end.
Lemma nex_zero_spec cr opt cl : nex_zero cr opt cl = true -> exists c s st s2 c' s3,
  cr = Ret (Some c) s /\ opt s = Ret st s2 /\ cl c s = Ret c' s3 /\ evs s2 <> evs s3.
Proof.
  unfold nex_zero. destruct cr as [[c|] s|s|s|s]; try discriminate. destruct (opt s) as [st s2|s2|s2|s2] eqn:Eo; try discriminate.
  destruct (cl c s) as [c' s3|s3|s3|s3] eqn:Ec; try discriminate. intros K. exists c, s, st, s2, c', s3.
  split; [reflexivity|]. split; [exact Eo|]. split; [exact Ec|]. intros E. rewrite E in K.
  destruct (nex_first (evs s3)) as [[|a l]|]; try discriminate K. revert K. generalize (ndiv one a). intros b.
  rewrite !(key_lt _ OrdD). destruct (key OrdD b) as [r|]; [|destruct (key OrdD zero); discriminate]. destruct (key OrdD zero) as [z|]; [|discriminate].
  destruct (Rlt_bool_spec z r); [|discriminate]. destruct (Rlt_bool_spec r z); [lra|discriminate].
Qed.
Theorem C60_minus_zero_refuted : exists s0 c s fuel F k st s2 c' s3,
  newuoa_create 2 5 (nQ 1 2) (nQ 1 4 : NumD) 1 (Some 100) s0 = Ret (Some c) s /\ nlayout 2 5 0 None 100 s0 /\
  newuoa_optimize ex_cos ex_sin 2 5 false nex_fn 0 None (nQ 1 2) (nQ 1 4) 1 100 50 fuel s = Ret st s2 /\
  client ex_cos ex_sin 2 false nex_fn 0 50 F k c s = Ret c' s3 /\ evs s2 <> evs s3.
Proof.
  exists (nex_mem (nopp (nZ 0)) (nZ 0) (nZ 2) (nZ 3)).
  destruct (nex_zero_spec (newuoa_create 2 5 (nQ 1 2) (nQ 1 4 : NumD) 1 (Some 100) (nex_mem (nopp (nZ 0)) (nZ 0) (nZ 2) (nZ 3)))
    (fun s => newuoa_optimize ex_cos ex_sin 2 5 false nex_fn 0 None (nQ 1 2) (nQ 1 4) 1 100 50 200 s)
    (fun c s => client ex_cos ex_sin 2 false nex_fn 0 50 201 201 c s)) as (c & s & st & s2 & c' & s3 & K1 & K2 & K3 & K4).
  { vm_cast_no_check (eq_refl true). }
  exists c, s, 200%nat, 201%nat, 201%nat, st, s2, c', s3.
  split; [exact K1|]. split; [apply nex_layout; auto|]. split; [exact K2|]. split; [exact K3|exact K4].
Qed.
Print Assumptions C60_minus_zero_refuted.
