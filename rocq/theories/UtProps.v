(** * C72: messages, constants and the error handler of utils.c *)
From Coq Require Import ZArith String List Bool Lia.
Import ListNotations.
From Verif Require Import UtModel.
Local Open Scope string_scope.
Local Open Scope list_scope.
Local Open Scope Z_scope.

(** ** The constants of optimpack.h *)
Definition documented : list (string * Z) :=
  [(* optimpack.h 286-324 *)
   ("OPK_SUCCESS", 0); ("OPK_INVALID_ARGUMENT", 1); ("OPK_INSUFFICIENT_MEMORY", 2); ("OPK_ILLEGAL_ADDRESS", 3); ("OPK_NOT_IMPLEMENTED", 4); ("OPK_CORRUPTED_WORKSPACE", 5); ("OPK_BAD_SPACE", 6); ("OPK_OUT_OF_BOUNDS_INDEX", 7); ("OPK_NOT_STARTED", 8); ("OPK_NOT_A_DESCENT", 9); ("OPK_STEP_CHANGED", 10); ("OPK_STEP_OUTSIDE_BRACKET", 11); ("OPK_STPMIN_GT_STPMAX", 12); ("OPK_STPMIN_LT_ZERO", 13); ("OPK_STEP_LT_STPMIN", 14); ("OPK_STEP_GT_STPMAX", 15); ("OPK_FTOL_TEST_SATISFIED", 16); ("OPK_GTOL_TEST_SATISFIED", 17); ("OPK_XTOL_TEST_SATISFIED", 18); ("OPK_STEP_EQ_STPMAX", 19); ("OPK_STEP_EQ_STPMIN", 20); ("OPK_ROUNDING_ERRORS_PREVENT_PROGRESS", 21); ("OPK_NOT_POSITIVE_DEFINITE", 22); ("OPK_BAD_PRECONDITIONER", 23); ("OPK_INFEASIBLE_BOUNDS", 24); ("OPK_WOULD_BLOCK", 25); ("OPK_UNDEFINED_VALUE", 26); ("OPK_TOO_MANY_EVALUATIONS", 27); ("OPK_TOO_MANY_ITERATIONS", 28);
   (* optimpack.h 403-412 *)
   ("OPK_FALSE", 0); ("OPK_TRUE", 1); ("OPK_FLOAT", 0); ("OPK_DOUBLE", 1);
   (* optimpack.h 1038-1046 *)
   ("OPK_TASK_ERROR", -1); ("OPK_TASK_START", 0); ("OPK_TASK_COMPUTE_FG", 1); ("OPK_TASK_NEW_X", 2); ("OPK_TASK_FINAL_X", 3); ("OPK_TASK_WARNING", 4);
   (* optimpack.h 1165-1170 *)
   ("OPK_LNSRCH_ERROR", -1); ("OPK_LNSRCH_SEARCH", 0); ("OPK_LNSRCH_CONVERGENCE", 1); ("OPK_LNSRCH_WARNING", 2);
   (* optimpack.h 1374-1389 *)
   ("OPK_NLCG_FLETCHER_REEVES", 1); ("OPK_NLCG_HESTENES_STIEFEL", 2); ("OPK_NLCG_POLAK_RIBIERE_POLYAK", 3); ("OPK_NLCG_FLETCHER", 4); ("OPK_NLCG_LIU_STOREY", 5); ("OPK_NLCG_DAI_YUAN", 6); ("OPK_NLCG_PERRY_SHANNO", 7); ("OPK_NLCG_HAGER_ZHANG", 8); ("OPK_NLCG_POWELL", 256); ("OPK_NLCG_SHANNO_PHUA", 512);
   (* optimpack.h 1533-1554 *)
   ("OPK_BOUND_NONE", 0); ("OPK_BOUND_SCALAR_FLOAT", 1); ("OPK_BOUND_SCALAR_DOUBLE", 2); ("OPK_BOUND_STATIC_FLOAT", 3); ("OPK_BOUND_STATIC_DOUBLE", 4); ("OPK_BOUND_VOLATILE_FLOAT", 5); ("OPK_BOUND_VOLATILE_DOUBLE", 6); ("OPK_BOUND_VECTOR", 7);
   (* optimpack.h 1605-1608 *)
   ("OPK_ASCENT", -1); ("OPK_DESCENT", 1);
   (* optimpack.h 1788-1794 *)
   ("OPK_SCALING_NONE", 0); ("OPK_SCALING_OREN_SPEDICATO", 1); ("OPK_SCALING_BARZILAI_BORWEIN", 2);
   (* optimpack.h 1857 *)
   ("OPK_LBFGS", 0); ("OPK_VMLMB", 1); ("OPK_BLMVM", 2);
   (* optimpack.h 1978-1982 *)
   ("OPK_ALGORITHM_NLCG", 0); ("OPK_ALGORITHM_VMLMB", 1);
   (* optimpack.h 2177-2187 *)
   ("OPK_FMIN_BOUNDED_BY_A", 1); ("OPK_FMIN_BOUNDED_BY_B", 2); ("OPK_FMIN_SMOOTH", 4); ("OPK_FMIN_ERROR", -1); ("OPK_FMIN_START", 0); ("OPK_FMIN_FX", 1); ("OPK_FMIN_NEWX", 2); ("OPK_FMIN_CONVERGENCE", 3)].

Lemma run_tests_in l name v : run_tests l name = Some v -> In (name, v) l.
Proof.
  induction l as [|[s w] l IH]; cbn; [discriminate|]. destruct (String.eqb_spec name s) as [->|].
  - intros [= ->]. left. reflexivity.
  - intro E. right. apply IH, E.
Qed.
Lemma run_tests_none l name : run_tests l name = None -> forall v, ~ In (name, v) l.
Proof.
  induction l as [|[s w] l IH]; cbn; [tauto|]. destruct (String.eqb_spec name s) as [->|D]; [discriminate|].
  intros E v [[= <- <-]|I]; [exact (D eq_refl)|exact (IH E v I)].
Qed.
Definition pair_eqb (p q : string * Z) : bool := String.eqb (fst p) (fst q) && (snd p =? snd q).
Lemma pair_eqb_in p l : existsb (pair_eqb p) l = true -> In p l.
Proof.
  intro E. apply existsb_exists in E. destruct E as [[s v] [I E]]. destruct p as [s' v']. unfold pair_eqb in E. cbn in E.
  apply andb_true_iff in E. destruct E as [A B]. apply String.eqb_eq in A. apply Z.eqb_eq in B. subst. exact I.
Qed.
Lemma same_constants s v : In (s, v) tests <-> In (s, v) documented.
Proof.
  assert (A : forallb (fun p => existsb (pair_eqb p) documented) tests = true) by (vm_compute; reflexivity).
  assert (B : forallb (fun p => existsb (pair_eqb p) tests) documented = true) by (vm_compute; reflexivity).
  rewrite forallb_forall in A, B. split; intro I; apply pair_eqb_in; [apply A|apply B]; exact I.
Qed.
Lemma documented_fun s v w : In (s, v) documented -> In (s, w) documented -> v = w.
Proof.
  assert (A : forallb (fun p => forallb (fun q => implb (String.eqb (fst p) (fst q)) (snd p =? snd q)) documented) documented = true)
    by (vm_compute; reflexivity).
  intros I J. rewrite forallb_forall in A. specialize (A _ I). rewrite forallb_forall in A. specialize (A _ J). cbn in A.
  rewrite String.eqb_refl in A. cbn in A. apply Z.eqb_eq, A.
Qed.

(** A name of a documented constant gives its value; any other name (NULL and the empty string included) is refused and the
    memory of the caller is unchanged.  A NULL pointer changes nothing to the status. *)
Theorem C72_constants (name : option string) (cell : option Z) :
  match opk_get_integer_constant name cell with
  | (0, cell') => exists s v, name = Some s /\ In (s, v) documented /\ cell' = match cell with Some _ => Some v | None => None end
  | (st, cell') => st = 1 /\ cell' = cell /\ forall s v, name = Some s -> ~ In (s, v) documented
  end.
Proof.
  unfold opk_get_integer_constant. destruct name as [s|]; [|repeat split; discriminate].
  destruct (String.eqb_spec s "") as [->|D].
  { repeat split. intros s v [= <-] I. apply same_constants in I. revert I.
    assert (A : forallb (fun p => negb (String.eqb "" (fst p))) tests = true) by (vm_compute; reflexivity).
    rewrite forallb_forall in A. intro I. specialize (A _ I). discriminate A. }
  destruct (run_tests tests s) as [v|] eqn:E.
  - exists s, v. split; [reflexivity|]. split; [|reflexivity]. apply same_constants, run_tests_in, E.
  - repeat split. intros s' v [= <-] I. apply same_constants in I. exact (run_tests_none _ _ E v I).
Qed.
Print Assumptions C72_constants.
(** The status and the stored value are determined by the documentation *)
Theorem C72_constants_value (s : string) (v old : Z) :
  In (s, v) documented -> opk_get_integer_constant (Some s) (Some old) = (0, Some v) /\ opk_get_integer_constant (Some s) None = (0, None).
Proof.
  intro I. pose proof (C72_constants (Some s) (Some old)) as A. pose proof (C72_constants (Some s) None) as B.
  destruct (opk_get_integer_constant (Some s) (Some old)) as [a c], (opk_get_integer_constant (Some s) None) as [b d].
  destruct a; try (exfalso; destruct A as [_ [_ A]]; exact (A s v eq_refl I)).
  destruct b; try (exfalso; destruct B as [_ [_ B]]; exact (B s v eq_refl I)).
  destruct A as (s1 & w & [= <-] & J & ->). destruct B as (s2 & w2 & [= <-] & J2 & ->).
  rewrite (documented_fun _ _ _ J I). split; reflexivity.
Qed.
Print Assumptions C72_constants_value.
Example C72_constants_ex : opk_get_integer_constant (Some "OPK_NLCG_POWELL") (Some 7) = (0, Some 256) /\
  opk_get_integer_constant (Some "OPK_NLCG_POWEL") (Some 7) = (1, Some 7).
Proof. split; reflexivity. Qed.
(** Some public constants are not known: OPK_NLCG_DEFAULT (optimpack.h 1398-1399) and OPK_MAX_STATUS (optimpack.h 337) *)
Theorem C72_all_constants_refuted : forall name, In name ["OPK_NLCG_DEFAULT"; "OPK_MAX_STATUS"] ->
  fst (opk_get_integer_constant (Some name) (Some 0)) = 1.
Proof. intros name [<-|[<-|[]]]; reflexivity. Qed.
Print Assumptions C72_all_constants_refuted.

(** ** Messages *)
(** The message is empty exactly for the values which are no status, and two statuses have different messages *)
Theorem C72_reason (s : Z) : opk_get_reason s = "" <-> ~ (0 <= s <= 28).
Proof.
  split.
  - intros E H. assert (A : forallb (fun k => negb (String.eqb (opk_get_reason (Z.of_nat k)) "")) (seq 0 29) = true) by (vm_compute; reflexivity).
    rewrite forallb_forall in A. specialize (A (Z.to_nat s)). rewrite Z2Nat.id in A by lia. rewrite E in A.
    assert (In (Z.to_nat s) (seq 0 29)) as I by (apply in_seq; lia). specialize (A I). discriminate A.
  - intro H. unfold opk_get_reason, status_list, reason_switch.
    repeat match goal with |- context [s =? ?k] => destruct (Z.eqb_spec s k); [lia|] end. reflexivity.
Qed.
Print Assumptions C72_reason.
Theorem C72_reason_distinct (s t : Z) : 0 <= s <= 28 -> 0 <= t <= 28 -> opk_get_reason s = opk_get_reason t -> s = t.
Proof.
  intros Hs Ht E.
  assert (A : forallb (fun k => forallb (fun l => implb (String.eqb (opk_get_reason (Z.of_nat k)) (opk_get_reason (Z.of_nat l))) (Nat.eqb k l)) (seq 0 29)) (seq 0 29) = true)
    by (vm_compute; reflexivity).
  rewrite forallb_forall in A. specialize (A (Z.to_nat s) ltac:(apply in_seq; lia)). rewrite forallb_forall in A.
  specialize (A (Z.to_nat t) ltac:(apply in_seq; lia)). rewrite !Z2Nat.id in A by lia. rewrite E, String.eqb_refl in A. cbn in A.
  apply Nat.eqb_eq in A. lia.
Qed.
Print Assumptions C72_reason_distinct.
Example C72_reason_ex : opk_get_reason 9 = "Not a descent direction" /\ opk_get_reason 29 = "" /\ opk_get_reason (-1) = "".
Proof. repeat split. Qed.
(** The messages of the three tests of convergence are exchanged: that of the test on the function (OPK_FTOL_TEST_SATISFIED)
    speaks of the variables, that on the gradient of the function, and that on the variables of the gradient *)
Definition mentions (word s : string) : bool := existsb (fun i => String.eqb (substring i (String.length word) s) word) (seq 0 (String.length s)).
Theorem C72_tolerance_refuted : exists ftol gtol xtol,
  In ("OPK_FTOL_TEST_SATISFIED", ftol) documented /\ In ("OPK_GTOL_TEST_SATISFIED", gtol) documented /\ In ("OPK_XTOL_TEST_SATISFIED", xtol) documented /\
  mentions "function" (opk_get_reason ftol) = false /\ mentions "variable" (opk_get_reason ftol) = true /\
  mentions "gradient" (opk_get_reason gtol) = false /\ mentions "function" (opk_get_reason gtol) = true /\
  mentions "variable" (opk_get_reason xtol) = false /\ mentions "gradient" (opk_get_reason xtol) = true.
Proof. exists 16, 17, 18. repeat split; try (vm_compute; reflexivity); unfold documented; repeat (apply in_eq || apply in_cons). Qed.
Print Assumptions C72_tolerance_refuted.

(** ** Error codes of the system *)
Theorem C72_guess (ENOMEM EFAULT EINVAL code : Z) : ENOMEM <> EFAULT -> ENOMEM <> EINVAL -> EFAULT <> EINVAL ->
  let r := opk_guess_status ENOMEM EFAULT EINVAL code in
  (r = 2 <-> code = ENOMEM) /\ (r = 3 <-> code = EFAULT) /\ (r = 1 <-> code = EINVAL) /\ (r = -1 <-> ~ In code [ENOMEM; EFAULT; EINVAL]).
Proof.
  intros A B C. unfold opk_guess_status. cbn [In]. destruct (Z.eqb_spec code ENOMEM), (Z.eqb_spec code EFAULT), (Z.eqb_spec code EINVAL); subst; try congruence;
  repeat split; intros; try congruence; intuition congruence.
Qed.
Print Assumptions C72_guess.
(** Any other code, 0 included, gives a value that is no status and has no message (Linux: ENOMEM = 12, EFAULT = 14, EINVAL = 22) *)
Theorem C72_guess_status_refuted : let r := opk_guess_status 12 14 22 0 in ~ In r (map (fun '(v, _, _) => v) status_list) /\ opk_get_reason r = "".
Proof. split; [cbn; lia|reflexivity]. Qed.
Print Assumptions C72_guess_status_refuted.

(** ** The error handler *)
(** The values returned by a sequence of calls of opk_set_error_handler and the handler at the end *)
Fixpoint set_all (h : handler) (l : list (option handler)) : list handler * handler :=
  match l with
  | [] => ([], h)
  | a :: l => let '(old, h) := opk_set_error_handler h a in let '(r, h) := set_all h l in (old :: r, h)
  end.
(** From any handler: each call returns the handler that was set by the previous one, where NULL stands for the default handler *)
Theorem C72_handler (h : handler) (l : list (option handler)) :
  let '(r, last) := set_all h l in
  r ++ [last] = h :: map (fun a => match a with None => None | Some f => f end) l.
Proof.
  revert h. induction l as [|a l IH]; intro h; cbn; [reflexivity|].
  specialize (IH (match a with None => None | Some f => f end)). destruct (set_all _ l) as [r last]. cbn. rewrite IH. reflexivity.
Qed.
Print Assumptions C72_handler.
Example C72_handler_ex : set_all None [Some (Some 5); None; Some (Some 6)] = ([None; Some 5; None], Some 6).
Proof. reflexivity. Qed.
