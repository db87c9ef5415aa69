(** * C74: the messages of BOBYQA, NEWUOA and COBYLA

    [reach] (NwSpec.v) and [creach] (CbSpec.v) describe the contexts that the client of the reverse communication versions can have,
    [nlayout] and [clayout] the arrays of the caller of newuoa_optimize and cobyla_optimize. *)
From Coq Require Import ZArith String List Bool Lia.
Import ListNotations.
From Verif Require Import Num NumFacts BqLang BqModel BqWp BqSpec BqProps NwModel NwMain NwSpec NwTop NwProps CbModel CbSpec CbTop CbProps
  RsModel.
Local Open Scope string_scope.
Local Open Scope list_scope.
Local Open Scope Z_scope.

(** A chain of tests on integer constants is followed to its end. *)
Local Ltac chain := repeat match goal with |- context [?k =? ?c] => destruct (Z.eqb_spec k c); [subst|] end.

(** ** Which integers have a message of their own *)

(** For BOBYQA, all the values of the type *)
Theorem C74_bobyqa k :
  (bobyqa_reason k = "unknown BOBYQA status" <-> ~ (-8 <= k <= 0)) /\
  (forall k', -8 <= k <= 0 -> bobyqa_reason k' = bobyqa_reason k -> k' = k).
Proof.
  assert (A : bobyqa_reason k = "unknown BOBYQA status" <-> ~ (-8 <= k <= 0)).
  { unfold bobyqa_reason, bq_code. chain; (split; [intro H; (discriminate H || lia)|intro H; (reflexivity || lia)]). }
  split; [exact A|]. intros k' Hk. unfold bobyqa_reason, bq_code.
  assert (C : k = 0 \/ k = -1 \/ k = -2 \/ k = -3 \/ k = -4 \/ k = -5 \/ k = -6 \/ k = -7 \/ k = -8) by lia. clear A Hk.
  repeat (destruct C as [->|C]; [cbn; chain; intro E; (reflexivity || discriminate E)|]).
  subst k. cbn; chain; intro E; (reflexivity || discriminate E).
Qed.
Print Assumptions C74_bobyqa.
(** [bq_code] takes each value of the interval, and each once *)
Theorem C74_bobyqa_codes k : -8 <= k <= 0 <-> exists st, bq_code st = k /\ forall st', bq_code st' = k -> st' = st.
Proof.
  split.
  - intro Hk. assert (C : k = 0 \/ k = -1 \/ k = -2 \/ k = -3 \/ k = -4 \/ k = -5 \/ k = -6 \/ k = -7 \/ k = -8) by lia.
    repeat (destruct C as [C|C]; [subst k|]); [exists BQ_SUCCESS|exists BQ_BAD_NVARS|exists BQ_BAD_NPT|exists BQ_BAD_RHO_RANGE|
      exists BQ_BAD_SCALING|exists BQ_TOO_CLOSE|exists BQ_ROUNDING_ERRORS|exists BQ_TOO_MANY_EVALUATIONS|subst k; exists BQ_STEP_FAILED];
      (split; [reflexivity|intros [] E; (reflexivity || discriminate E)]).
  - intros (st & <- & _). destruct st; cbn; lia.
Qed.
Print Assumptions C74_bobyqa_codes.

(** For NEWUOA and COBYLA, all the values of the type but one *)
Theorem C74_newuoa k :
  (newuoa_reason k = "unknown NEWUOA status" <-> ~ (-9 <= k <= 1)) /\
  (forall k', -9 <= k <= 1 -> newuoa_reason k' = newuoa_reason k -> k' = k).
Proof.
  assert (A : newuoa_reason k = "unknown NEWUOA status" <-> ~ (-9 <= k <= 1)).
  { unfold newuoa_reason, nw_code. chain; (split; [intro H; (discriminate H || lia)|intro H; (reflexivity || lia)]). }
  split; [exact A|]. intros k' Hk. unfold newuoa_reason, nw_code.
  assert (C : k = 1 \/ k = 0 \/ k = -1 \/ k = -2 \/ k = -3 \/ k = -4 \/ k = -5 \/ k = -6 \/ k = -7 \/ k = -8 \/ k = -9) by lia. clear A Hk.
  repeat (destruct C as [->|C]; [cbn; chain; intro E; (reflexivity || discriminate E)|]).
  subst k. cbn; chain; intro E; (reflexivity || discriminate E).
Qed.
Print Assumptions C74_newuoa.
Theorem C74_cobyla k :
  (cobyla_reason k = "unknown status" <-> ~ (-8 <= k <= 1)) /\
  (forall k', -8 <= k <= 1 -> cobyla_reason k' = cobyla_reason k -> k' = k).
Proof.
  assert (A : cobyla_reason k = "unknown status" <-> ~ (-8 <= k <= 1)).
  { unfold cobyla_reason, cb_code. chain; (split; [intro H; (discriminate H || lia)|intro H; (reflexivity || lia)]). }
  split; [exact A|]. intros k' Hk. unfold cobyla_reason, cb_code.
  assert (C : k = 1 \/ k = 0 \/ k = -1 \/ k = -2 \/ k = -3 \/ k = -4 \/ k = -5 \/ k = -6 \/ k = -7 \/ k = -8) by lia. clear A Hk.
  repeat (destruct C as [->|C]; [cbn; chain; intro E; (reflexivity || discriminate E)|]).
  subst k. cbn; chain; intro E; (reflexivity || discriminate E).
Qed.
Print Assumptions C74_cobyla.

(** The values of bobyqa.h, newuoa.h and cobyla.h with the messages, in another order: a list of triples for the three functions *)
Definition documented_reasons : list (Z * string * (string * string)) :=
  [(1, "-", ("caller is requested to evaluate the objective function", "user requested to compute F(X) and C(X)"));
   (0, "algorithm converged", ("algorithm converged", "algorithm was successful"));
   (-1, "bad number of variables", ("bad number of variables", "bad number of variables"));
   (-2, "NPT is not in the required interval", ("NPT is not in the required interval", "bad number of constraints"));
   (-3, "bad trust region radius parameters", ("bad trust region radius parameters", "bad trust region radius parameters"));
   (-4, "bad scaling factor(s)", ("bad scaling factor(s)", "bad scaling factor(s)"));
   (-5, "insufficient space between the bounds",
     ("too much cancellation in a denominator", "rounding errors are becoming damaging"));
   (-6, "too much cancellation in a denominator",
     ("maximum number of function evaluations exceeded", "too many function evaluations"));
   (-7, "too many function evaluations",
     ("trust region step has failed to reduce quadratic approximation", "illegal NULL address"));
   (-8, "trust region step has failed to reduce quadratic approximation",
     ("illegal NULL address", "unexpected parameter or corrupted workspace"));
   (-9, "-", ("corrupted or misused workspace", "-"))].
(** The message of an integer is the one of the list, and the unknown one for what is not in the list (or is marked "-"). *)
Theorem C74_documented k :
  match find (fun t => fst (fst t) =? k) documented_reasons with
  | None => bobyqa_reason k = "unknown BOBYQA status" /\ newuoa_reason k = "unknown NEWUOA status" /\ cobyla_reason k = "unknown status"
  | Some (_, b, (u, c)) => bobyqa_reason k = (if String.eqb b "-" then "unknown BOBYQA status" else b) /\
      newuoa_reason k = u /\ cobyla_reason k = (if String.eqb c "-" then "unknown status" else c)
  end.
Proof.
  unfold documented_reasons. cbn [find fst].
  repeat match goal with |- context [?c =? k] => destruct (Z.eqb_spec c k); [subst k; repeat split; reflexivity|] end.
  unfold bobyqa_reason, newuoa_reason, cobyla_reason, bq_code, nw_code, cb_code.
  repeat match goal with |- context [k =? ?c] => destruct (Z.eqb_spec k c); [lia|] end. repeat split; reflexivity.
Qed.
Print Assumptions C74_documented.

(** The statement for all the values of the types is false: INITIAL_ITERATE has no message. *)
Theorem C74_initial_refuted : exists st st',
  newuoa_reason (nw_code st) = "unknown NEWUOA status" /\ cobyla_reason (cb_code st') = "unknown status".
Proof. exists NW_INITIAL_ITERATE, CB_INITIAL_ITERATE. split; reflexivity. Qed.
Print Assumptions C74_initial_refuted.

(** ** The statuses that the caller can get *)

(** Whatever is done with a context, its status has a message of its own, and so has the status given for NULL; whatever the
    arguments, so has the status returned by newuoa_optimize. *)
Theorem C74_newuoa_client (N : Num) ncos nsin (c : ncontext (N := N)) s :
  reach ncos nsin c s ->
  newuoa_reason (nw_code (newuoa_get_status (Some c))) <> "unknown NEWUOA status" /\
  newuoa_reason (nw_code (newuoa_get_status (N := N) None)) = "illegal NULL address".
Proof.
  intro HR. destruct (reach_valid ncos nsin c s HR) as [(_ & _ & _ & _ & _ & _ & _ & H) _]. split; [|reflexivity].
  cbn [newuoa_get_status]. destruct (k_status c); try discriminate. destruct (H eq_refl).
Qed.
Print Assumptions C74_newuoa_client.
Theorem C74_newuoa_optimize (N : Num) ncos nsin n npt maximize fn x scl (rhobeg rhoend : N) maxfun w fi fuel s st s' :
  nlayout n npt x scl w s ->
  newuoa_optimize ncos nsin n npt maximize fn x scl rhobeg rhoend maxfun w fi fuel s = Ret st s' ->
  newuoa_reason (nw_code st) <> "unknown NEWUOA status" /\
  newuoa_reason (nw_code st) <> "caller is requested to evaluate the objective function".
Proof.
  intros HL E. destruct (C57_status _ _ _ _ _ _ _ _ _ _ _ _ _ _ _ _ _ _ HL E) as [H|[H _]];
    repeat (destruct H as [->|H]; [split; discriminate|]); subst st; split; discriminate.
Qed.
Print Assumptions C74_newuoa_optimize.

(** The same for COBYLA *)
Theorem C74_cobyla_client (N : Num) (q : ccontext (N := N)) s :
  CbLaws N -> creach q s ->
  cobyla_reason (cb_code (cobyla_get_status (Some q))) <> "unknown status" /\
  cobyla_reason (cb_code (cobyla_get_status (N := N) None)) = "illegal NULL address".
Proof.
  intros HN HR. destruct (creach_valid HN q s HR) as [(_ & _ & _ & _ & _ & _ & _ & H) _]. split; [|reflexivity].
  cbn [cobyla_get_status]. destruct (q_status q); try discriminate. destruct (H eq_refl).
Qed.
Print Assumptions C74_cobyla_client.
Theorem C74_cobyla_optimize (N : Num) n m maximize fn cn x scl (rhobeg rhoend : N) maxfun w fi fuel s st i s' :
  CbLaws N -> clayout n m x scl w s ->
  cobyla_optimize n m maximize fn cn x scl rhobeg rhoend maxfun w fi fuel s = Ret (st, i) s' ->
  cobyla_reason (cb_code st) <> "unknown status" /\ cobyla_reason (cb_code st) <> "user requested to compute F(X) and C(X)".
Proof.
  intros HN HL E. destruct (C61_status _ _ _ _ _ _ _ _ _ _ _ _ _ _ _ _ _ _ HN HL E) as [H|[H _]];
    repeat (destruct H as [->|H]; [split; discriminate|]); subst st; split; discriminate.
Qed.
Print Assumptions C74_cobyla_optimize.

(** A client of NEWUOA that is asked for a value, and the same after the end *)
Example C74_client_ex : exists c s, reach ex_cos ex_sin c s /\
  newuoa_reason (nw_code (newuoa_get_status (Some c))) = "caller is requested to evaluate the objective function".
Proof. destruct C58_client_ex as (c & s & _ & HR & E & _). exists c, s. split; [exact HR|]. rewrite E. reflexivity. Qed.
Example C74_success_ex : exists c s, reach ex_cos ex_sin c s /\
  newuoa_reason (nw_code (newuoa_get_status (Some c))) = "algorithm converged".
Proof. destruct C58_success_ex as (c & s & _ & HR & E & _). exists c, s. split; [exact HR|]. rewrite E. reflexivity. Qed.
Example C74_ex : bobyqa_reason (-8) = "trust region step has failed to reduce quadratic approximation" /\
  bobyqa_reason 1 = "unknown BOBYQA status" /\ newuoa_reason (-9) = "corrupted or misused workspace" /\
  cobyla_reason (-9) = "unknown status".
Proof. repeat split. Qed.
