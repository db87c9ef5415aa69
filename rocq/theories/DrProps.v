(** * Properties of the simple driver: C32 *)
From Coq Require Import List ZArith Bool Lia PrimFloat.
From Verif Require Import Num VecModel Base LsModel LsSpec OptSpace VmModel VmSpec CgModel CgSpec CgProps StrModel StrProofs StrProps DrModel.
Import ListNotations.

Section Spec.
Context {N : Num} {S : Space N}.

(** ** The wrapped optimizer on values *)

(** One call of opk_start_nlcg, opk_iterate_nlcg, opk_start_vmlmb or opk_iterate_vmlmb ([CgSpec], [VmSpec]). *)
Definition wdo (w : wrapped S) (c : vcall S) : option (wrapped S * vreply S) :=
  match w with
  | WNlcg o => do (o', r) <- cdo o c; Some (WNlcg o', r)
  | WVmlmb o => do (o', r) <- vdo o c; Some (WVmlmb o', r)
  end.

(** ** A client of the driver *)

(** The client calls the driver with addresses which may change, and does what it wants with its memory between calls. *)
Inductive daction :=
| DStart (x : nat)                     (** opk_start(opt, x) *)
| DIterate (x : nat) (f : N) (g : nat) (** opk_iterate(opt, x, f, g) *)
| DClient (m : mem S).                 (** the memory becomes [m] *)

(** The tasks returned by the driver, with the contents of the memory at the end of each call. *)
Fixpoint drun (d : option (driver S)) (m : mem S) (l : list daction) : option (option (driver S) * list (task * mem S)) :=
  match l with
  | [] => Some (d, [])
  | DStart x :: l => do (d, t, m) <- opk_start d (Some x) m; do (d, rs) <- drun d m l; Some (d, (t, m) :: rs)
  | DIterate x f g :: l => do (d, t, m) <- opk_iterate d (Some x) f (Some g) m; do (d, rs) <- drun d m l; Some (d, (t, m) :: rs)
  | DClient m :: l => drun d m l
  end.

(** The same calls made directly on the wrapped optimizer, with the contents of the arrays; in the memory, the array of the
    variables receives the new variables and nothing else changes.  [None] if an array is missing. *)
Fixpoint expected (w : wrapped S) (m : mem S) (l : list daction) : option (wrapped S * list (task * mem S)) :=
  match l with
  | [] => Some (w, [])
  | DStart x :: l =>
    do vx <- m x;
    do (w, r) <- wdo w (VStart vx);
    let m' := fun a => if Nat.eqb x a then Some (snd r) else m a in
    do (w, rs) <- expected w m' l; Some (w, (fst r, m') :: rs)
  | DIterate x f g :: l =>
    do vx <- m x; do vg <- m g;
    do (w, r) <- wdo w (VIterate vx f vg);
    let m' := fun a => if Nat.eqb x a then Some (snd r) else m a in
    do (w, rs) <- expected w m' l; Some (w, (fst r, m') :: rs)
  | DClient m :: l => expected w m l
  end.

(** ** C32 *)

Local Ltac finish IH l :=
  match goal with |- context [drun ?a ?b l] => destruct (drun a b l) as [[[?d'|] ?rs]|] end; try contradiction;
  match goal with |- context [expected ?a ?b l] => destruct (expected a b l) as [[?w ?rs']|] end;
  try contradiction; try exact Logic.I; destruct IH as [-> ->]; auto.

(** Whatever the client does, the driver gives what the wrapped optimizer gives on the same data. *)
Theorem C32_driver : forall (d : driver S) (m : mem S) (l : list daction),
  match drun (Some d) m l, expected (d_opt d) m l with
  | Some (Some d', rs), Some (w, rs') => d_opt d' = w /\ rs = rs'
  | None, None => True
  | _, _ => False
  end.
Proof.
  intros d m l. revert d m. induction l as [|c l IH]; intros d m; [cbn; auto|].
  destruct c as [x|x f g|m']; cbn [drun expected]; [| |apply IH].
  - unfold opk_start, ops_start, rewrap_x. cbn [d_x d_opt d_g]. destruct (m x) as [vx|]; [|exact Logic.I].
    destruct (d_opt d) as [o|o]; cbn [wdo].
    + cbn [cdo]. destruct (cg_start o vx) as [o' x']. cbn [fst snd].
      specialize (IH (mkDriver (WNlcg o') x (d_g d)) (store m x x')). cbn [d_opt] in IH. unfold store in *.
      finish IH l.
    + cbn [vdo]. destruct (vm_start o vx) as [o' x']. cbn [fst snd].
      specialize (IH (mkDriver (WVmlmb o') x (d_g d)) (store m x x')). cbn [d_opt] in IH. unfold store in *.
      finish IH l.
  - unfold opk_iterate, ops_iterate, rewrap_x, rewrap_g. cbn [d_x d_opt d_g].
    destruct (m x) as [vx|]; [|exact Logic.I]. destruct (m g) as [vg|]; [|exact Logic.I].
    destruct (d_opt d) as [o|o]; cbn [wdo].
    + cbn [cdo]. destruct (cg_iterate o vx f vg) as [[o' x']|]; [|exact Logic.I]. cbn [fst snd].
      specialize (IH (mkDriver (WNlcg o') x g) (store m x x')). cbn [d_opt] in IH. unfold store in *.
      finish IH l.
    + cbn [vdo]. destruct (vm_iterate o vx f vg) as [[o' x']|]; [|exact Logic.I]. cbn [fst snd].
      specialize (IH (mkDriver (WVmlmb o') x g) (store m x x')). cbn [d_opt] in IH. unfold store in *.
      finish IH l.
Qed.

(** The result of a call does not depend on the addresses given in the previous calls. *)
Theorem C32_stateless : forall (d d' : driver S) (m : mem S) (x g : nat) (f : N) r,
  d_opt d = d_opt d' ->
  (opk_iterate (Some d) (Some x) f (Some g) m = r <-> opk_iterate (Some d') (Some x) f (Some g) m = r) /\
  (forall dd t m', opk_start (Some d) (Some x) m = Some (Some dd, t, m') ->
     exists dd', opk_start (Some d') (Some x) m = Some (Some dd', t, m') /\ d_opt dd' = d_opt dd).
Proof.
  intros [o x1 g1] [o' x2 g2] m x g f r E. cbn [d_opt] in E. subst o'. split; [reflexivity|].
  intros dd t m'. unfold opk_start, ops_start, rewrap_x. cbn [d_x d_opt d_g]. destruct (m x) as [vx|]; [|discriminate].
  destruct o as [o|o].
  - destruct (cg_start o vx) as [o' x']. intros H. injection H as <- <- <-. eauto.
  - destruct (vm_start o vx) as [o' x']. intros H. injection H as <- <- <-. eauto.
Qed.

(** The queries give what the same queries of the wrapped optimizer give. *)
Theorem C32_queries : forall (d : driver S) (buf : option array) (size : nat),
  match d_opt d with
  | WNlcg o =>
    opk_get_task (Some d) = n_task o /\ opk_get_status (Some d) = n_status o /\
    opk_get_evaluations (Some d) = n_evals o /\ opk_get_iterations (Some d) = n_iters o /\ opk_get_restarts (Some d) = n_restarts o /\
    opk_get_step (Some d) = n_alpha o /\ opk_get_gnorm (Some d) = n_gnorm o /\
    opk_get_name buf size (Some d) = nlcg_name buf size /\
    opk_get_description buf size (Some d) = nlcg_description buf size (Some (k_flags (n_cfg o)))
  | WVmlmb o =>
    opk_get_task (Some d) = v_task o /\ opk_get_status (Some d) = v_status o /\
    opk_get_evaluations (Some d) = v_evals o /\ opk_get_iterations (Some d) = v_iters o /\ opk_get_restarts (Some d) = v_restarts o /\
    opk_get_step (Some d) = v_stp o /\ opk_get_gnorm (Some d) = v_gnorm o /\
    opk_get_name buf size (Some d) = copy_string buf size (Some (vmlmb_method_name (c_method (v_cfg o)))) /\
    opk_get_description buf size (Some d) = vmlmb_description buf size (c_method (v_cfg o)) (c_m (v_cfg o))
  end.
Proof. intros [[o|o] x g] buf size; cbn [d_opt]; repeat split. Qed.

(** What is left of an optimizer if its task and status are ignored. *)
Definition inner (w : wrapped S) : wrapped S :=
  match w with
  | WNlcg o => WNlcg (nset_task o SUCCESS START)
  | WVmlmb o => WVmlmb (set_vtask o SUCCESS START)
  end.

(** NULL arguments: the task is ERROR, the arrays of the client are not modified and, in the driver, only the task and the
    status of the wrapped optimizer change. *)
Theorem C32_null : forall (d : option (driver S)) (x : option nat) (f : N) (g : option nat) (m : mem S),
  d = None \/ x = None ->
  exists d', opk_start d x m = Some (d', ERROR, m) /\
    (g = None \/ d = None \/ x = None -> opk_iterate d x f g m = Some (d', ERROR, m)) /\
    opk_get_task d' = ERROR /\ opk_get_status d' = ILLEGAL_ADDRESS /\
    match d, d' with
    | None, None => True
    | Some d, Some d' => inner (d_opt d') = inner (d_opt d) /\ d_x d' = d_x d /\ d_g d' = d_g d
    | _, _ => False
    end.
Proof.
  intros [d|] x f g m H.
  - destruct H as [H| ->]; [discriminate|]. eexists. split; [reflexivity|]. split; [intros _; reflexivity|].
    destruct d as [[o|o] dx dg]; repeat split.
  - exists None. repeat split.
Qed.
Theorem C32_null_gradient : forall (d : driver S) (x : option nat) (f : N) (m : mem S),
  exists d', opk_iterate (Some d) x f None m = Some (Some d', ERROR, m) /\
    opk_get_task (Some d') = ERROR /\ opk_get_status (Some d') = ILLEGAL_ADDRESS /\
    inner (d_opt d') = inner (d_opt d) /\ d_x d' = d_x d /\ d_g d' = d_g d.
Proof.
  intros [[o|o] dx dg] [x|] f m; (eexists; split; [reflexivity|]; repeat split).
Qed.

(** After such an error, nothing happens until the next start. *)
Theorem C32_until_start : forall (d : driver S) (x : nat) (f : N) (g : nat) (m : mem S) (vx vg : S),
  opk_get_task (Some d) = ERROR -> m x = Some vx -> m g = Some vg ->
  exists d' m', opk_iterate (Some d) (Some x) f (Some g) m = Some (Some d', ERROR, m') /\ d_opt d' = d_opt d /\ forall a, m' a = m a.
Proof.
  intros [[o|o] dx dg] x f g m vx vg H Hx Hg; unfold opk_iterate, ops_iterate, rewrap_x, rewrap_g; cbn [d_x d_g d_opt];
    rewrite Hx, Hg; cbn [opk_get_task d_opt] in H.
  - unfold cg_iterate. unfold cg_get_task in *. rewrite H. eexists; eexists; split; [rewrite H; reflexivity|].
    split; [reflexivity|]. intros a. unfold store. destruct (Nat.eqb_spec x a); [subst; now rewrite Hx | reflexivity].
  - unfold vm_iterate. unfold vm_get_task in *. rewrite H. eexists; eexists; split; [rewrite H; reflexivity|].
    split; [reflexivity|]. intros a. unfold store. destruct (Nat.eqb_spec x a); [subst; now rewrite Hx | reflexivity].
Qed.

(** The query functions accept a NULL driver, except [opk_get_description]: reading the description of a NULL driver is a
    use of the NULL pointer. *)
Theorem C32_null_queries : forall (buf : array) (size : nat), size <= List.length buf ->
  opk_get_task (S := S) None = ERROR /\ opk_get_status (S := S) None = ILLEGAL_ADDRESS /\
  opk_get_evaluations (S := S) None = 0%Z /\ opk_get_iterations (S := S) None = 0%Z /\ opk_get_restarts (S := S) None = 0%Z /\
  exists buf', opk_get_name (S := S) (Some buf) size None = Some (Some buf', 1) /\ received buf buf' size [].
Proof.
  intros buf size H. repeat split. apply (C08_copy buf size (Some (cstring [])) []); [|exact H]. split; [tauto|]. now exists [].
Qed.
Theorem C32_description_refuted : exists d : option (driver S), forall buf size, opk_get_description buf size d = None.
Proof. exists None. reflexivity. Qed.
End Spec.
Print Assumptions C32_driver.
Print Assumptions C32_stateless.
Print Assumptions C32_queries.
Print Assumptions C32_null.
Print Assumptions C32_null_gradient.
Print Assumptions C32_until_start.
Print Assumptions C32_null_queries.
Print Assumptions C32_description_refuted.

(** A run in doubles: the variables are moved from one address to another between two calls; the function is
    (x_0 - 3)^2 + 4 (x_1 - 1)^2. *)
Example C32_example :
  let d := match new_nlcg (S := CD) (Some (cg_ex 2)) None with Some o => Some (mkDriver (WNlcg o) 7 8) | None => None end in
  let x0 : CD := cpt (nZ 3) (nZ 5) in
  let at2 (a : nat) (v : CD) (b : nat) (w : CD) : mem CD := fun i => if Nat.eqb i a then Some v else if Nat.eqb i b then Some w else None in
  match d with
  | Some d =>
    match drun (Some d) (at2 0 x0 1 (quad_g x0)) [DStart 0; DIterate 0 (quad_f x0) 1; DIterate 0 (quad_f x0) 1] with
    | Some (d', rs) =>
      match map (fun r => fst r) rs, nth_error rs 2 with
      | [COMPUTE_FG; NEW_X; COMPUTE_FG], Some (_, m) =>
        match m 0 with
        | Some x1 => match drun d' m [DClient (at2 5 x1 6 (quad_g x1)); DIterate 5 (quad_f x1) 6; DIterate 5 (quad_f x1) 9] with
                     | None => match drun d' m [DClient (at2 5 x1 6 (quad_g x1)); DIterate 5 (quad_f x1) 6] with
                               | Some (d'', [(t, _)]) => (opk_get_evaluations d'' =? 2)%Z
                               | _ => false
                               end
                     | Some _ => false
                     end
        | None => false
        end
      | _, _ => false
      end
    | None => false
    end
  | None => false
  end = true.
Proof. vm_compute. reflexivity. Qed.
