(** * The simple driver: src/driver.c

    The arrays of the client are [mem : nat -> option S]: what is at an address, [None] if there is no array of the right
    type and size there.  A NULL pointer is [None].  The members opt->x and opt->g of the driver are vectors which wrap the
    address given last; the wrapped optimizer reads and writes the arrays through them.  The arrays of the variables and of
    the gradient are different (as for the optimizers themselves).  The creation and the destruction of the driver, and the
    references to its members, are in [ObjModel] (new_optimizer, driver_rewrap): rewrapping a vector created by
    [opk_new_optimizer] with a non-NULL address always succeeds.  [None] is undefined behaviour. *)
From Coq Require Import List ZArith Bool.
From Verif Require Import Num VecModel Base LsModel OptSpace VmModel CgModel StrModel.
Import ListNotations.

(** vmlmb.c 800-807 [opk__set_vmlmb_status] *)
Definition vm_set_status {N : Num} {S : Space N} (o : vm S) (st : status) : vm S :=
  set_vtask o st (if ok st then v_task o else ERROR).

Section Driver.
Context {N : Num} {S : Space N}.

(** driver.c 297-304: opt->optimizer and opt->ops *)
Inductive wrapped := WNlcg (o : cg S) | WVmlmb (o : vm S).
Record driver := mkDriver { d_opt : wrapped; d_x : nat; d_g : nat }.
Definition mem := nat -> option S.
Definition store (m : mem) (a : nat) (v : S) : mem := fun b => if Nat.eqb a b then Some v else m b.

(** ** The operations, driver.c 75-254 *)

(** 80-84 and 175-179: opt->ops->start *)
Definition ops_start (d : driver) (m : mem) : option (driver * task * mem) :=
  do x <- m (d_x d);
  match d_opt d with
  | WNlcg o => let '(o, x) := cg_start o x in
    Some (mkDriver (WNlcg o) (d_x d) (d_g d), cg_get_task o, store m (d_x d) x)
  | WVmlmb o => let '(o, x) := vm_start o x in
    Some (mkDriver (WVmlmb o) (d_x d) (d_g d), vm_get_task o, store m (d_x d) x)
  end.
(** 86-90 and 181-185: opt->ops->iterate *)
Definition ops_iterate (d : driver) (f : N) (m : mem) : option (driver * task * mem) :=
  do x <- m (d_x d); do g <- m (d_g d);
  match d_opt d with
  | WNlcg o => do (o, x) <- cg_iterate o x f g;
    Some (mkDriver (WNlcg o) (d_x d) (d_g d), cg_get_task o, store m (d_x d) x)
  | WVmlmb o => do (o, x) <- vm_iterate o x f g;
    Some (mkDriver (WVmlmb o) (d_x d) (d_g d), vm_get_task o, store m (d_x d) x)
  end.
(** 104-108 and 199-203: opt->ops->set_status *)
Definition ops_set_status (d : driver) (st : status) : driver :=
  mkDriver (match d_opt d with WNlcg o => WNlcg (cg_set_status o st) | WVmlmb o => WVmlmb (vm_set_status o st) end) (d_x d) (d_g d).

(** REWRAP_DOUBLE(opt->x, x), REWRAP_FLOAT(opt->x, x) *)
Definition rewrap_x (d : driver) (x : nat) : driver := mkDriver (d_opt d) x (d_g d).
Definition rewrap_g (d : driver) (g : nat) : driver := mkDriver (d_opt d) (d_x d) g.

(** ** The public functions *)

(** driver.c 431-453 [opk_start] *)
Definition opk_start (d : option driver) (x : option nat) (m : mem) : option (option driver * task * mem) :=
  match d with
  | None => Some (None, ERROR, m)
  | Some d =>
    match x with
    | None => Some (Some (ops_set_status d ILLEGAL_ADDRESS), ERROR, m)
    | Some x => do (d, t, m) <- ops_start (rewrap_x d x) m; Some (Some d, t, m)
    end
  end.
(** driver.c 455-483 [opk_iterate] *)
Definition opk_iterate (d : option driver) (x : option nat) (f : N) (g : option nat) (m : mem) : option (option driver * task * mem) :=
  match d with
  | None => Some (None, ERROR, m)
  | Some d =>
    match x, g with
    | Some x, Some g => do (d, t, m) <- ops_iterate (rewrap_g (rewrap_x d x) g) f m; Some (Some d, t, m)
    | _, _ => Some (Some (ops_set_status d ILLEGAL_ADDRESS), ERROR, m)
    end
  end.
(** driver.c 485-512, 530-540: the queries *)
Definition opk_get_task (d : option driver) : task :=
  match d with None => ERROR | Some d => match d_opt d with WNlcg o => cg_get_task o | WVmlmb o => vm_get_task o end end.
Definition opk_get_status (d : option driver) : status :=
  match d with None => ILLEGAL_ADDRESS | Some d => match d_opt d with WNlcg o => cg_get_status o | WVmlmb o => vm_get_status o end end.
Definition opk_get_evaluations (d : option driver) : Z :=
  match d with None => 0 | Some d => match d_opt d with WNlcg o => cg_get_evaluations o | WVmlmb o => vm_get_evaluations o end end.
Definition opk_get_iterations (d : option driver) : Z :=
  match d with None => 0 | Some d => match d_opt d with WNlcg o => cg_get_iterations o | WVmlmb o => vm_get_iterations o end end.
Definition opk_get_restarts (d : option driver) : Z :=
  match d with None => 0 | Some d => match d_opt d with WNlcg o => cg_get_restarts o | WVmlmb o => vm_get_restarts o end end.
Definition opk_get_step (d : option driver) : N :=
  match d with None => nZ (-1) | Some d => match d_opt d with WNlcg o => cg_get_step (Some o) | WVmlmb o => vm_get_step (Some o) end end.
Definition opk_get_gnorm (d : option driver) : N :=
  match d with None => nZ 0 | Some d => match d_opt d with WNlcg o => cg_get_gnorm (Some o) | WVmlmb o => vm_get_gnorm (Some o) end end.
(** driver.c 514-522 [opk_get_name] *)
Definition opk_get_name (buf : option array) (size : nat) (d : option driver) : option (option array * nat) :=
  match d with
  | None => copy_string buf size (Some (cstring []))
  | Some d => match d_opt d with
              | WNlcg o => nlcg_name buf size
              | WVmlmb o => copy_string buf size (Some (vmlmb_method_name (c_method (v_cfg o))))
              end
  end.
(** driver.c 524-528 [opk_get_description]: no test of a NULL driver *)
Definition opk_get_description (buf : option array) (size : nat) (d : option driver) : option (option array * nat) :=
  do d <- d;
  match d_opt d with
  | WNlcg o => nlcg_description buf size (Some (k_flags (n_cfg o)))
  | WVmlmb o => vmlmb_description buf size (c_method (v_cfg o)) (c_m (v_cfg o))
  end.
End Driver.
Arguments wrapped {_} _.
Arguments driver {_} _.
Arguments mem {_} _.
