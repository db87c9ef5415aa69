(** * Specification of the limited memory BFGS approximation of the inverse Hessian *)
From Coq Require Import List Reals.
From Verif Require Import ListFacts VecModel VecProofs.
Import ListNotations.
Local Open Scope R_scope.

(** a*x + b*y *)
Definition lin (a : R) (x : list R) (b : R) (y : list R) : list R := map2 (fun u v => a * u + b * v) x y.
(** Euclidean inner product. *)
Definition ip (x y : list R) : R := rsum (map2 Rmult x y).

(** The BFGS update of an approximation [H] of the inverse of the Hessian by the pair (s, y), applied to [v]:
    (I - rho s y') H (I - rho y s') v + rho s s' v  with  rho = 1/<s,y>. *)
Definition bfgs_update (s y : list R) (H : list R -> list R) (v : list R) : list R :=
  let rho := 1 / ip s y in
  let u := lin 1 v (- (rho * ip s v)) y in                  (* (I - rho y s') v *)
  let w := H u in
  let z := lin 1 w (- (rho * ip y w)) s in                  (* (I - rho s y') w *)
  lin 1 z (rho * ip s v) s.

(** The pairs are given the most recent first; the initial approximation is [gamma] times the identity. *)
Fixpoint lbfgs_product (gamma : R) (prs : list (list R * list R)) (v : list R) : list R :=
  match prs with
  | [] => map (Rmult gamma) v
  | (s, y) :: older => bfgs_update s y (lbfgs_product gamma older) v
  end.

(** The pairs with a strictly positive curvature. *)
Definition curved (p : list R * list R) : bool := if Rlt_dec 0 (ip (fst p) (snd p)) then true else false.

(** The differences between consecutive points (variables and gradient), the most recent first. *)
Fixpoint differences (pts : list (list R * list R)) : list (list R * list R) :=
  match pts with
  | p :: ((q :: _) as older) => (lin 1 (fst p) (-1) (fst q), lin 1 (snd p) (-1) (snd q)) :: differences older
  | _ => []
  end.

(** The scale of the initial approximation is <s,y>/<y,y> for the most recent pair. *)
Definition initial_scale (prs : list (list R * list R)) : R :=
  match prs with (s, y) :: _ => ip s y / ip y y | [] => 1 end.

(** The quasi-Newton direction for the gradient [g] and the memorized pairs [prs]. *)
Definition lbfgs_direction (prs : list (list R * list R)) (g : list R) : list R :=
  let used := filter curved prs in lbfgs_product (initial_scale used) used g.

(** The components of the free variables: [w] is 1 for the free variables, 0 for the others. *)
Definition free_part (w v : list R) : list R := map2 Rmult w v.
Definition free_pair (w : list R) (p : list R * list R) : list R * list R := (free_part w (fst p), free_part w (snd p)).
