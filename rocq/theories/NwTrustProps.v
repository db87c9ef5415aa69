(** * C71: the steps of NEWUOA and the trust region

    trsapp (newuoa.c 2444-2632) is to yield a step not longer than DELTA, biglag (newuoa.c 2175-2376) a step of length DELTA, and
    bigden (newuoa.c 1781-2138) another step of the same length.  The arithmetic is that of the real numbers with an undefined
    element [None] ([NumE]: the result of 0/0 or of the square root of a negative number is undefined, and so is all that is
    computed from it): rounding errors may give steps that are slightly longer. *)
From Coq Require Import ZArith List Reals Bool Lia Lra.
Import ListNotations.
From Flocq Require Import Core.
From Verif Require Import Num BqLang BqModel NwModel NumE MemE NwVec NwTrust NwLag NwDen.
Local Open Scope Z_scope.

(** The functions COS and SIN *)
Definition cosE {H J} (a : NumE H J) : NumE H J := o1 (fun a => Some (cos a)) a.
Definition sinE {H J} (a : NumE H J) : NumE H J := o1 (fun a => Some (sin a)) a.
Lemma circleE {H J} (t : NumE H J) (x y : R) : cosE t = Some x -> sinE t = Some y -> (x * x + y * y = 1)%R.
Proof. destruct t as [t|]; cbn; [|discriminate]. intros [= <-] [= <-]. pose proof (sin2_cos2 t) as K. unfold Rsqr in K. lra. Qed.

(** The array [p] of [n] elements holds the numbers [u 1], ..., [u n] *)
Definition holds {H J} (s : mst (NumE H J)) (p n : Z) (u : Z -> R) : Prop :=
  forall i, 1 <= i <= n -> mm s (p + (i - 1)) = Some (Some (u i)).
(** The square of its Euclidean norm *)
Definition norm2 (n : Z) (u : Z -> R) : R := rsum (fun i => u i * u i)%R (Z.to_nat n).
(** The arrays of [n] elements at the addresses of the list have no common element *)
Definition disjoint (n : Z) (l : list Z) : Prop := ForallOrdPairs (fun p q => p + n <= q \/ q + n <= p) l.

Lemma holds_vec {H J} (s : mst (NumE H J)) p n u : holds s p n u -> vec n s p u.
Proof. intros A i Hi. unfold val, at1. rewrite (A i Hi). reflexivity. Qed.

(** ** trsapp *)
Theorem C71_trsapp (H J : R) (n npt xopt xpt gq hq pq : Z) (delta : R) (step d g hd hs : Z) fuel (s s' : mst (NumE H J)) crvmin (u : Z -> R) :
  1 <= n -> delta <> 0%R -> disjoint n [step; d; g; hd; hs] ->
  trsapp cosE sinE n npt xopt xpt gq hq pq (Some delta : NumE H J) step d g hd hs fuel s = Ret crvmin s' ->
  holds s' step n u -> (norm2 n u <= delta * delta)%R.
Proof.
  intros Hn Hd D E Hu. unfold disjoint in D.
  repeat match goal with A : ForallOrdPairs _ (_ :: _) |- _ => inversion_clear A | A : Forall _ (_ :: _) |- _ => inversion_clear A end.
  refine (trsapp_ok H J cosE sinE circleE n npt xopt xpt gq hq pq delta step d g hd hs Hn Hd _ _ _ _ _ _ _ _ _ _ fuel s crvmin s' E u (holds_vec _ _ _ _ Hu)); assumption.
Qed.
Print Assumptions C71_trsapp.

(** ** biglag *)
Theorem C71_biglag (H J : R) (n npt xopt xpt bmat zmat idz ndim knew : Z) (delta : R) (d hcol gc gd sv w : Z) (s s' : mst (NumE H J)) alpha (u : Z -> R) :
  1 <= n -> disjoint n [d; gc; gd; sv; w] ->
  biglag cosE sinE n npt xopt xpt bmat zmat idz ndim knew (Some delta : NumE H J) d hcol gc gd sv w s = Ret alpha s' ->
  holds s' d n u -> (norm2 n u = delta * delta)%R.
Proof.
  intros Hn D E Hu. unfold disjoint in D.
  repeat match goal with A : ForallOrdPairs _ (_ :: _) |- _ => inversion_clear A | A : Forall _ (_ :: _) |- _ => inversion_clear A end.
  refine (biglag_ok H J cosE sinE circleE n npt xopt xpt bmat zmat idz ndim knew delta d hcol gc gd sv w Hn _ _ _ _ _ _ s alpha s' E u (holds_vec _ _ _ _ Hu)); try assumption.
  red. tauto.
Qed.
Print Assumptions C71_biglag.

(** ** bigden *)
Theorem C71_bigden (H J : R) (n npt xopt xpt bmat zmat idz kopt knew d w vlag sv wvec prod : Z) fuel (s s' : mst (NumE H J)) beta (u v : Z -> R) :
  1 <= n -> 1 <= kopt <= npt -> 1 <= knew <= npt ->
  disjoint n [d; sv] ->
  Forall (fun p => Forall (fun q => p + n <= fst q \/ fst q + snd q <= p) [(w, npt + n); (vlag, npt + n); (wvec, 5 * (npt + n)); (prod, 5 * (npt + n))]) [d; sv] ->
  Forall (fun q => sv + n <= fst q \/ fst q + snd q <= sv) [(xopt, n); (xpt, n * npt)] ->
  bigden cosE sinE n npt xopt xpt bmat zmat idz (npt + n) kopt knew d w vlag sv wvec prod fuel s = Ret beta s' ->
  holds s d n v -> holds s' d n u -> norm2 n u = norm2 n v.
Proof.
  intros Hn Hko Hk D1 D2 D3 E Hv Hu. unfold disjoint in D1.
  repeat match goal with A : ForallOrdPairs _ (_ :: _) |- _ => inversion_clear A | A : Forall _ (_ :: _) |- _ => inversion_clear A end.
  cbn [fst snd] in *.
  refine (bigden_ok H J cosE sinE circleE n npt xopt xpt bmat zmat idz (npt + n) kopt knew d w vlag sv wvec prod Hn eq_refl Hk Hko _ _ _ _ _ _ _ _ _ _ _ (norm2 n v) fuel s beta s' _ E u (holds_vec _ _ _ _ Hu)); try assumption.
  intros u' Hu'. unfold vdot, norm2. apply rsum_ext. intros i Hi. assert (Hi' : 1 <= i <= n) by lia.
  apply holds_vec in Hv. specialize (Hv i Hi'). rewrite (Hu' i Hi') in Hv. injection Hv as ->. reflexivity.
Qed.
Print Assumptions C71_bigden.

(** ** Cases *)
(** A memory that holds the numbers of [l] from the address 0 on *)
Definition memE {H J} (l : list R) : mst (NumE H J) :=
  mkmst (N := NumE H J) (fun a => if a <? 0 then None else match nth_error l (Z.to_nat a) with Some x => Some (Some x : NumE H J) | None => None end) [].
Lemma sqrt4 : R_sqrt.sqrt 4 = 2%R.
Proof. replace 4%R with (2 * 2)%R by ring. apply sqrt_square. lra. Qed.
Ltac cE := cbv -[Rabs Rplus Rmult Rminus Ropp Rdiv Rinv IZR R_sqrt.sqrt Rlt_bool Rle_bool Req_bool cos sin].
(** One variable, the model 1 + x + x^2/2 and a radius 2: the step is -1, inside the trust region *)
Example C71_trsapp_ex : exists crvmin s' (u : Z -> R),
  trsapp cosE sinE 1 0 0 8 1 2 8 (Some 2%R : NumE 0 0) 3 4 5 6 7 1 (memE [0; 1; 1; 0; 0; 0; 0; 0]%R) = Ret crvmin s' /\
  holds s' 3 1 u /\ u 1 = (-1)%R.
Proof.
  eexists _, _, (fun _ => (-1)%R). split; [|split; [|reflexivity]].
  - cE. rewrite Req_bool_false by lra. cE. rewrite (Rlt_bool_false (_ * _ + _ * _)%R) by lra. cE.
    replace (_ * _ + _ * _)%R with 4%R by lra. rewrite sqrt4. rewrite Req_bool_false by lra. cE.
    rewrite Rlt_bool_true by lra. cE. repeat (rewrite Req_bool_false by lra; cE). repeat (rewrite Rle_bool_false by lra; cE).
    replace ((2 * 2 - 0) / (0 + 2))%R with 2%R by field.
    replace ((0 + - (1 + (0 + 1 * 0)) * - (1 + (0 + 1 * 0))) / (0 + - (1 + (0 + 1 * 0)) * (0 + 1 * - (1 + (0 + 1 * 0)))))%R with 1%R by field.
    rewrite Rle_bool_false by lra. cE. rewrite Rlt_bool_true by lra. cE. reflexivity.
  - intros i Hi. replace i with 1%Z by lia. cE. repeat f_equal. lra.
Qed.
Lemma sqrt9 : R_sqrt.sqrt 9 = 3%R.
Proof. replace 9%R with (3 * 3)%R by ring. apply sqrt_square. lra. Qed.
(** One variable and a radius 2: the step is 2 *)
Example C71_biglag_ex : exists alpha s' (u : Z -> R),
  biglag cosE sinE 1 1 0 1 2 4 1 2 1 (Some 2%R : NumE 0 0) 4 5 6 7 8 9 (memE [0; 3; 1; 0; 0; 0; 0; 0; 0; 0]%R) = Ret alpha s' /\
  holds s' 4 1 u /\ u 1 = 2%R.
Proof.
  eexists _, _, (fun _ => 2%R). split; [|split; [|reflexivity]].
  - cE. rewrite (Rlt_bool_false (_ + _ * _)%R) by lra. cE. replace (0 + (3 - 0) * (3 - 0))%R with 9%R by ring. rewrite sqrt9.
    rewrite Req_bool_false by lra. cE. repeat (rewrite Rlt_bool_false by lra; cE). rewrite (Rlt_bool_true (_ * _ * _)%R) by lra. cE.
    repeat (rewrite Rlt_bool_false by (unfold Rabs; repeat destruct Rcase_abs; lra); cE).
    rewrite Rle_bool_true by lra. cE. reflexivity.
  - intros i Hi. replace i with 1%Z by lia. cE. repeat f_equal. lra.
Qed.

(** In double precision *)
Definition memD (l : list Z) : mst NumD :=
  mkmst (N := NumD) (fun a => if a <? 0 then None else match nth_error l (Z.to_nat a) with Some x => Some (nZ x) | None => None end) [].
(** A step of bigden in two variables from the step (3,4): another one, with the same length up to rounding errors.
    XOPT = 0..1, XPT = 2..11, BMAT = 12..25, ZMAT = 26..35, D = 36..37, W = 38..44, VLAG = 45..51, S = 52..53, WVEC = 54..88,
    PROD = 89..123; all the angles have the cosine 3/5 and the sine 4/5. *)
Definition den_mem : list Z :=
  [0;0] ++ [0;1;0;-1;0] ++ [0;0;1;0;-1] ++ [1;2;3;1;2;1;1] ++ [2;1;1;3;1;2;1] ++ [1;2;1;1;1] ++ [1;1;2;1;3] ++ [3;4] ++ repeat 0 7
  ++ [1;2;3;4;5;6;7] ++ repeat 0 72.
Definition den_ok : bool :=
  match bigden (fun _ : NumD => ndiv (nZ 3) (nZ 5)) (fun _ => ndiv (nZ 4) (nZ 5)) 2 5 0 2 12 26 1 7 1 2 36 38 45 52 54 89 100 (memD den_mem) with
  | Ret _ s =>
      match mm s 36, mm s 37 with
      | Some x, Some y =>
          let q := nadd (nmul x x) (nmul y y) in
          negb (neq y (nZ 4)) && nlt (nQ 24999 1000) q && nlt q (nQ 25001 1000)
      | _, _ => false
      end
  | _ => false
  end.
Example C71_bigden_ex : den_ok = true.
Proof. vm_cast_no_check (eq_refl true). Qed.

(** The hypothesis DELTA <> 0 of [C71_trsapp] is needed: the first step to the boundary would be 0/0, the comparison of the
    step lengths is then false and the whole step of the conjugate gradient method is taken, here -1 instead of 0. *)
Definition zero_step (delta : NumD) : bool :=
  match trsapp (fun x : NumD => x) (fun x => x) 1 0 0 8 1 2 8 delta 3 4 5 6 7 5 (memD [0; 1; 1; 0; 0; 0; 0; 0]) with
  | Ret _ s => match mm s 3 with Some x => neq x (nZ (-1)) | None => false end
  | _ => false
  end.
Theorem C71_zero_radius_refuted : exists delta : NumD, neq delta (nZ 0) = true /\ zero_step delta = true.
Proof. exists (nZ 0). split; vm_cast_no_check (eq_refl true). Qed.
Print Assumptions C71_zero_radius_refuted.
