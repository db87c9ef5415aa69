(** * C73: where NEWUOA asks for a value of the objective function

    After the NPT initial points, each call of newuoa_iterate (newuoa.c 736-1724) that asks for a value leaves in [x] a point at a
    distance at most DELTA of the best point so far, XBASE + XOPT.  The arithmetic is that of the real numbers with an undefined
    element ([NumE]), as in C71. *)
From Coq Require Import ZArith List Reals Bool Lia Lra.
Import ListNotations.
From Verif Require Import Num BqLang BqModel BqSpec NwModel NwSpec NwTop NumE NwVec NwTrustProps NwNear.
Local Open Scope Z_scope.

(** The client [c] of the reverse communication version is any one ([reach]): any objective function, any number of calls and of
    restarts, any change of the memory between the calls.  XBASE is at the start of the workspace and XOPT follows it. *)
Theorem C73_near (H J : R) (c c' : ncontext (N := NumE H J)) f x fi fuel (s s' : mst (NumE H J)) (rhobeg rhoend : R) :
  reach cosE sinE c s -> cells s x (k_n c) -> BqSpec.apart x (k_n c) (k_w c) (ndoc_size (k_n c) (k_npt c) None) ->
  k_rhobeg c = Some rhobeg -> k_rhoend c = Some rhoend ->
  newuoa_iterate cosE sinE c f (Some x) fi fuel s = Ret c' s' ->
  newuoa_get_status (Some c') = NW_ITERATE -> k_npt c <= newuoa_get_nevals (Some c') ->
  exists delta rho : R, v_delta (k_v c') = Some delta /\ newuoa_get_rho (Some c') = Some rho /\ (0 < rho <= delta)%R /\
    forall u xbase xopt : Z -> R,
      holds s' x (k_n c) u -> holds s' (k_w c) (k_n c) xbase -> holds s' (k_w c + k_n c) (k_n c) xopt ->
      (norm2 (k_n c) (fun i => u i - (xbase i + xopt i)) <= delta * delta)%R.
Proof.
  intros HR Hx Ha Eb Ee E ES EN. cbn [newuoa_get_status newuoa_get_nevals newuoa_get_rho] in *.
  pose proof (reach_kv H J cosE sinE circleE c s HR) as HK.
  destruct (iterate_near H J cosE sinE circleE c c' f x fi fuel s s' HR HK Hx Ha E) as (I1 & I2 & I3).
  pose proof (reach_iterate _ _ c f x fi fuel s c' s' HR Hx Ha E) as HR'.
  destruct (reach_valid cosE sinE c s HR) as [(Hn & Hp & _) _].
  pose proof (nevals_nf H J cosE sinE c' s' HR' ES ltac:(lia)) as EF.
  destruct (I3 rhobeg rhoend Eb Ee ES) as [K|[((e & r & V1 & V2 & V3) & _) K]]; [lia|].
  exists e, r. split; [exact V1|]. split; [exact V2|]. split; [exact V3|]. intros u xb xo Hu Hb Ho.
  specialize (K e u xb xo V1 (holds_vec _ _ _ _ Hu) (holds_vec _ _ _ _ Hb) (holds_vec _ _ _ _ Ho)).
  replace (norm2 (k_n c) (fun i => u i - (xb i + xo i))%R) with (vdot (k_n c) (fun i => u i - xb i - xo i)%R (fun i => u i - xb i - xo i)%R); [exact K|].
  apply rsum_ext. intros i Hi. ring.
Qed.
Print Assumptions C73_near.

(** ** A case, in double precision *)
(** The minimization of (x - 10)^2 from 0, with three interpolation points and the radius 1 at the start.  x is at the address 0
    and the workspace at the address 1. *)
Definition zeroD (k : Z) : mst NumD := mkmst (N := NumD) (fun a => if (0 <=? a) && (a <? k) then Some (nZ 0) else None) [].
Definition cellD (s : mst NumD) (a : Z) : NumD := match mm s a with Some v => v | None => nZ 0 end.
Definition sqD (a : NumD) : NumD := nmul a a.
Fixpoint callsD (k : nat) (c : ncontext (N := NumD)) (s : mst NumD) : option (ncontext (N := NumD) * mst NumD) :=
  match k with
  | O => Some (c, s)
  | S k =>
      match newuoa_iterate (fun x => x) (fun x => x) c (sqD (nsub (cellD s 0) (nZ 10))) (Some 0) 100 1000 s with
      | Ret c' s' => callsD k c' s'
      | _ => None
      end
  end.
Definition runD (k : nat) : option (ncontext (N := NumD) * mst NumD) :=
  match newuoa_create 1 3 (nZ 1) (nQ 1 1000) 1000 (Some 1) (zeroD 71) with Ret (Some c) s => callsD k c s | _ => None end.
(** After [k] calls a value is asked for: the square of the distance of the point to the best one, of DELTA and of RHO *)
Definition distD (k : nat) : option (NumD * NumD * NumD) :=
  match runD k with
  | Some (c, s) =>
      if (match k_status c with NW_ITERATE => true | _ => false end) && (3 <=? k_nevals c) then
        Some (sqD (nsub (cellD s 0) (nadd (cellD s 1) (cellD s 2))), sqD (v_delta (k_v c)), sqD (v_rho (k_v c)))
      else None
  | None => None
  end.
Definition farther (k : nat) : bool := match distD k with Some (q, d, r) => nle q d && nlt r q | None => false end.
(** The fourth and the fifth calls ask for a value at a distance at most DELTA, but more than RHO *)
Example C73_near_ex : farther 4 && farther 5 = true.
Proof. vm_cast_no_check (eq_refl true). Qed.

(** DELTA cannot be replaced by RHO in [C73_near] *)
Theorem C73_rho_refuted : exists k c s, runD k = Some (c, s) /\ k_status c = NW_ITERATE /\ k_npt c <= k_nevals c /\
  nlt (sqD (v_rho (k_v c))) (sqD (nsub (cellD s 0) (nadd (cellD s 1) (cellD s 2)))) = true.
Proof.
  assert (F : farther 4 = true) by vm_cast_no_check (eq_refl true).
  unfold farther, distD in F. destruct (runD 4) as [[c s]|] eqn:E; [|discriminate F].
  assert (P : k_npt c = 3).
  { assert (K : match runD 4 with Some (c, _) => k_npt c =? 3 | None => false end = true) by vm_cast_no_check (eq_refl true).
    rewrite E in K. apply Z.eqb_eq, K. }
  exists 4%nat, c, s. destruct (k_status c) eqn:ES; try discriminate F. cbn [andb] in F.
  destruct (Z.leb_spec 3 (k_nevals c)) as [L|L]; [|discriminate F]. apply andb_true_iff in F. destruct F as [_ F].
  split; [exact E|]. split; [reflexivity|]. split; [lia|exact F].
Qed.
Print Assumptions C73_rho_refuted.
