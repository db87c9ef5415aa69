(** * The radius of the trust region in COBYLA and NEWUOA

    cobyla.h 74-78 and newuoa.h 82-83 and 119: RHOBEG and RHOEND are the initial and the final values of the radius, which is only
    reduced.  [reduced e next k r r']: [k] reductions by [next] lead from the radius [r] to [r'], each one
    of a radius that is larger than [e]. *)
From Coq Require Import ZArith Bool.
From Verif Require Import Num.

Section Spec.
Context {N : Num}.
Inductive reduced (e : N) (next : N -> N) : nat -> N -> N -> Prop :=
| reduced_O r : reduced e next O r r
| reduced_S k r r' : reduced e next k r r' -> nlt e r' = true -> reduced e next (S k) r (next r').

(** cobyla.c 931-933: the radius is halved, the last one is [e] *)
Definition cb_next (e r : N) : N :=
  let h := nmul (nQ 1 2) r in if nle h (nmul (nQ 3 2) e) then e else h.
(** newuoa.c 1590-1599: the radius is divided by 10, the last two reductions are by similar factors, the last one is [e] *)
Definition nw_next (e r : N) : N :=
  let q := ndiv r e in
  if nle q (nZ 16) then e else if nle q (nZ 250) then nmul (nsqrt q) e else nmul (nQ 1 10) r.

(** What is needed of the arithmetic: some bounds of the new radius, for 0 < e < r *)
Record RhoLaws : Prop := {
  rl_zero : neq (nZ 0 : N) (nZ 0) = true;
  rl_half : forall r : N, nlt (nZ 0) r = true -> nle (nmul (nQ 1 2) r) r = true;
  rl_more : forall e : N, nlt (nZ 0) e = true -> nle e (nmul (nQ 3 2) e) = true /\ nle e (nmul e (nQ 3 2)) = true;
  rl_sqrt : forall e r : N, nlt (nZ 0) e = true -> nlt e r = true -> nle (ndiv r e) (nZ 16) = false -> nle (ndiv r e) (nZ 250) = true ->
    nle e (nmul (nsqrt (ndiv r e)) e) = true /\ nle (nmul (nsqrt (ndiv r e)) e) r = true;
  rl_tenth : forall e r : N, nlt (nZ 0) e = true -> nlt e r = true -> nle (ndiv r e) (nZ 250) = false ->
    nle e (nmul (nQ 1 10) r) = true /\ nle (nmul (nQ 1 10) r) r = true
}.
End Spec.
Arguments RhoLaws : clear implicits.
