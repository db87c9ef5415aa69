(** * Model of gqtpar.c: the trust region step of Moré & Sorensen

    OPK_GQT and OPK_ESTSV, that is all of gqtpar.c.  The file is compiled for float and double: the numbers are those of an
    arbitrary record of operations [Num].  The arrays are addresses in the memory of LaModel.v and the BLAS-like routines are
    those of LaModel.v.  The indices start at 1 as in the macros of the C code.

    Simplifications: the elements of R are read once per row (they cannot be modified by OPK_ESTSV if R and z do not overlap);
    the codes returned by OPK_TRSV are ignored as in the C code; par_ptr, fx_ptr and iter_ptr are not in the memory: the initial
    value of [par] is an argument (0 for NULL) and the three final values are results. *)
From Coq Require Import ZArith List Bool.
From Verif Require Import Base Num LaModel.
Import ListNotations.
Local Open Scope Z_scope.

Section Gqt.
Context {N : Num}.
Notation mem := (Z -> option N).

(** linalg-common.h 46-47: MAX and SIGN *)
Definition vmax (x y : N) : N := if (y <=? x)%num then x else y.
Definition sign (x y : N) : N := if Bool.eqb (x <? ZERO)%num (y <? ZERO)%num then x else nopp x.

(** gqtpar.c 56: UPDATE_MAX, the new value of the variable *)
Definition update_max (v e : N) : N := if (v <? e)%num then e else v.

(** gqtpar.c 97-98 *)
Definition HALF : N := nQ 1 2.
Definition SMALL : N := nQ 1 1000.

(** ** gqtpar.c 361-458: OPK_ESTSV *)

(** gqtpar.c 375 *)
Definition SMALL2 : N := nQ 1 100.

Section Estsv.
Variables (n r ldr z : Z).
Let R (i j : Z) : Z := r + (i - 1 + ldr * (j - 1)).
Let Z_ (i : Z) : Z := z + (i - 1).

(** gqtpar.c 397-398, 437-438: the scaling factor *)
Definition est_factor (a b : N) : N :=
  let temp := nabs (a / b)%num in
  if (SMALL2 <? temp)%num then SMALL2 else temp.

(** gqtpar.c 392-430: the computation of y(i); the state is the memory and [e] *)
Definition est_forward (i : Z) (s : mem * N) : option (mem * N) :=
  let '(M, e) := s in
  do zi <- M (Z_ i);
  do rii <- M (R i i);
  let e := sign e (nopp zi) in
  do (M, e) <- (if (nabs rii <? nabs (e - zi))%num then
                  let temp := est_factor rii (e - zi)%num in
                  do M <- scal n temp z 1 M;
                  Some (M, (e * temp)%num)
                else Some (M, e));
  do zi <- M (Z_ i);
  let '(w, wm) := if (rii =? ZERO)%num then (ONE, ONE) else (((e - zi) / rii)%num, (nopp (e + zi) / rii)%num) in
  do sm <- for_up (i + 1) (n + 1) (fun j sm =>
             do zj <- M (Z_ j); do rij <- M (R i j); Some (sm + nabs (zj + wm * rij))%num) (nabs (e + zi)%num);
  do (M, s) <- (if i <? n then
                  do M <- axpy (n - i) w (R i (i + 1)) ldr (Z_ (i + 1)) 1 M;
                  do t <- asum (n - i) (Z_ (i + 1)) 1 M;
                  Some (M, (nabs (e - zi) + t)%num)
                else Some (M, nabs (e - zi)%num));
  do (M, w) <- (if (s <? sm)%num then
                  let temp := (wm - w)%num in
                  do M <- (if (i <? n) && negb (temp =? ZERO)%num then axpy (n - i) temp (R i (i + 1)) ldr (Z_ (i + 1)) 1 M
                           else Some M);
                  Some (M, wm)
                else Some (M, w));
  do M <- store M (Z_ i) w;
  Some (M, e).

(** gqtpar.c 434-448: the computation of z(j); the state is the memory and [ynorm] *)
Definition est_backward (j : Z) (s : mem * N) : option (mem * N) :=
  let '(M, ynorm) := s in
  do zj <- M (Z_ j);
  do rjj <- M (R j j);
  do (M, ynorm) <- (if (nabs rjj <? nabs zj)%num then
                      let temp := est_factor rjj zj in
                      do M <- scal n temp z 1 M;
                      Some (M, (ynorm * temp)%num)
                    else Some (M, ynorm));
  do zj <- M (Z_ j);
  do M <- store M (Z_ j) (if (rjj =? ZERO)%num then ONE else (zj / rjj)%num);
  do zj <- M (Z_ j);
  do M <- axpy (j - 1) (nopp zj) (R 1 j) 1 z 1 M;
  Some (M, ynorm).

(** gqtpar.c 363-453.  The result is the returned value and the memory *)
Definition estsv (M : mem) : option (N * mem) :=
  do M <- for_up 0 n (fun i => zero_cell (z + i)) M;
  do r11 <- M (R 1 1);
  let e := nabs r11 in
  if (e =? ZERO)%num then do M <- store M (Z_ 1) ONE; Some (ZERO, M)
  else
  do (M, _) <- for_up 1 (n + 1) est_forward (M, e);
  do ynorm <- nrm2 n z 1 M;
  do (M, ynorm) <- for_down n 1 est_backward (M, ynorm);
  do znorm <- nrm2 n z 1 M;
  let znorm := (ONE / znorm)%num in
  do M <- scal n znorm z 1 M;
  Some ((ynorm * znorm)%num, M).
End Estsv.

(** ** gqtpar.c 70-357: OPK_GQT *)

(** gqtpar.c 99-103: the variables that are used by the next iterations *)
Record gvars := mkgv {
  g_par : N; g_parf : N; g_parl : N; g_pars : N; g_paru : N;
  g_alpha : N; g_rxnorm : N; g_rznorm : N; g_xnorm : N; g_rednc : bool; g_iter : Z
}.

(** The results: the returned value, *par_ptr, *fx_ptr, *iter_ptr *)
Record gresult := mkgr { r_info : Z; r_par : N; r_f : N; r_iter : Z }.

Section Main.
Variables (n a lda b : Z) (delta rtol atol : N) (itmax : Z) (x z wa1 wa2 : Z).
Let A (i j : Z) : Z := a + (i - 1 + lda * (j - 1)).
Let W1 (j : Z) : Z := wa1 + (j - 1).
Let W2 (j : Z) : Z := wa2 + (j - 1).

(** gqtpar.c 113-116 *)
Definition gq_clear (M : mem) : option mem :=
  for_up 1 (n + 1) (fun j M => do M <- store M (x + (j - 1)) ZERO; store M (z + (j - 1)) ZERO) M.

(** gqtpar.c 118-122: the diagonal in wa1, the strict upper triangle in the lower one *)
Definition gq_save (M : mem) : option mem :=
  do M <- copy n a (lda + 1) wa1 1 M;
  for_up 1 n (fun j => copy (n - j) (A j (j + 1)) lda (A (j + 1) j) 1) M.

(** gqtpar.c 171-175, 329-332: the lower triangle in the upper one *)
Definition gq_restore (M : mem) : option mem :=
  for_up 1 n (fun j => copy (n - j) (A (j + 1) j) 1 (A j (j + 1)) lda) M.

(** gqtpar.c 124-158: the norms and the initial bounds of the multiplier *)
Definition gq_bounds (par : N) (M : mem) : option (gvars * mem) :=
  do (M, anorm) <- for_up 1 (n + 1) (fun j '(M, anorm) =>
      do temp <- asum n (A 1 j) 1 M;
      do d <- M (W1 j);
      do M <- store M (W2 j) (temp - nabs d)%num;
      Some (M, if (anorm <? temp)%num then temp else anorm)) (M, ZERO);
  do bnorm <- nrm2 n b 1 M;
  do (pars, parl, paru) <- for_up 1 (n + 1) (fun j '(pars, parl, paru) =>
      do d <- M (W1 j);
      do g <- M (W2 j);
      Some (update_max pars (nopp d), update_max parl (g + d)%num, update_max paru (g - d)%num))
    (nopp anorm, nopp anorm, nopp anorm);
  let temp := (bnorm / delta)%num in
  let parl := (temp - parl)%num in
  let parl := if (parl <? pars)%num then pars else parl in
  let parl := if (parl <? ZERO)%num then ZERO else parl in
  let paru := (temp + paru)%num in
  let paru := if (paru <? ZERO)%num then ZERO else paru in
  let par := if (par <? parl)%num then parl else par in
  let par := if (paru <? par)%num then paru else par in
  let paru := update_max paru ((ONE + rtol) * parl)%num in
  Some (mkgv par ZERO parl pars paru ZERO ZERO ZERO ZERO false 0, M).

(** gqtpar.c 186-261: A + par*I is positive definite; yields the new variables, the correction PARC and [info] *)
Definition gq_positive (v : gvars) (par : N) (M : mem) : option (gvars * N * Z * mem) :=
  do M <- copy n b 1 wa2 1 M;
  do (_, M) <- trsv UPPER TRANS NON_UNIT n a lda wa2 1 M;
  do rxnorm <- nrm2 n wa2 1 M;
  do (_, M) <- trsv UPPER NO_TRANS NON_UNIT n a lda wa2 1 M;
  do M <- copy n wa2 1 x 1 M;
  do M <- scal n (nopp ONE) x 1 M;
  do xnorm <- nrm2 n x 1 M;
  let info := if ((nabs (xnorm - delta) <=? rtol * delta)%num
                  || ((par =? ZERO)%num && (xnorm <=? (ONE + rtol) * delta)%num))%bool then 1 else 0 in
  do (rznorm, M) <- estsv n a lda z M;
  let pars := update_max (g_pars v) (par - rznorm * rznorm)%num in
  do (alpha, rznorm, rednc, info) <-
    (if (xnorm <? delta)%num then
       do zx <- dot n z 1 x 1 M;
       let prod := (zx / delta)%num in
       let temp := ((delta - xnorm) * ((delta + xnorm) / delta))%num in
       let alpha := (temp / (nabs prod + nsqrt (prod * prod + temp / delta)))%num in
       let alpha := sign alpha prod in
       let rznorm := (rznorm * nabs alpha)%num in
       let temp1 := (rznorm / delta)%num in
       let temp1 := (temp1 * temp1)%num in
       let temp2 := (xnorm / delta)%num in
       let rednc := (temp1 + par * temp2 * temp2 <=? par)%num in
       let temp2 := (rxnorm / delta)%num in
       let temp2 := (par + temp2 * temp2)%num in
       let info := if (HALF * temp1 <=? rtol * (ONE - HALF * rtol) * temp2)%num then 1
                   else if ((info =? 0)%Z && (HALF * temp2 <=? (atol / delta) / delta)%num)%bool then 2
                   else if (xnorm =? ZERO)%num then 1
                   else info in
       Some (alpha, rznorm, rednc, info)
     else Some (g_alpha v, rznorm, false, info));
  do (parc, M) <-
    (if (xnorm =? ZERO)%num then Some (nopp par, M)
     else
       do M <- copy n x 1 wa2 1 M;
       do M <- scal n (ONE / xnorm)%num wa2 1 M;
       do (_, M) <- trsv UPPER TRANS NON_UNIT n a lda wa2 1 M;
       do temp <- nrm2 n wa2 1 M;
       Some (((((xnorm - delta) / delta) / temp) / temp)%num, M));
  let parl := if ((delta <? xnorm)%num && (g_parl v <? par)%num)%bool then par else g_parl v in
  let paru := if ((xnorm <? delta)%num && (par <? g_paru v)%num)%bool then par else g_paru v in
  Some (mkgv par par parl pars paru alpha rxnorm rznorm xnorm rednc (g_iter v), parc, info, M).

(** gqtpar.c 263-295: A + par*I is not positive definite; yields the new variables and the correction PARC *)
Definition gq_indefinite (v : gvars) (par : N) (indef : Z) (M : mem) : option (gvars * N * mem) :=
  do M <- (if 1 <? indef then
             do M <- copy (indef - 1) (A indef 1) lda (A 1 indef) 1 M;
             do d <- M (W1 indef);
             do M <- store M (A indef indef) (d + par)%num;
             do M <- copy (indef - 1) (A 1 indef) 1 wa2 1 M;
             do (_, M) <- trsv UPPER TRANS NON_UNIT (indef - 1) a lda wa2 1 M;
             do temp <- nrm2 (indef - 1) wa2 1 M;
             do d <- M (A indef indef);
             do M <- store M (A indef indef) (d - temp * temp)%num;
             do (_, M) <- trsv UPPER NO_TRANS NON_UNIT (indef - 1) a lda wa2 1 M;
             Some M
           else Some M);
  do M <- store M (W2 indef) (nopp ONE);
  do temp <- nrm2 indef wa2 1 M;
  do d <- M (A indef indef);
  let parc := (nopp (d / temp) / temp)%num in
  let temp := if (ZERO <? parc)%num then (par + parc)%num else par in
  let pars := if (g_pars v <? temp)%num then temp else g_pars v in
  let temp := ((ONE + rtol) * pars)%num in
  let paru := if (g_paru v <? temp)%num then temp else g_paru v in
  Some (mkgv par (g_parf v) (g_parl v) pars paru (g_alpha v) (g_rxnorm v) (g_rznorm v) (g_xnorm v) (g_rednc v) (g_iter v), parc, M).

(** gqtpar.c 312-342: the results and the matrix A *)
Definition gq_exit (v : gvars) (info : Z) (M : mem) : option (gresult * mem) :=
  let par := g_parf v in
  do (fx, M) <-
    (if g_rednc v then
       do M <- axpy n (g_alpha v) z 1 x 1 M;
       Some ((nopp HALF * ((g_rxnorm v * g_rxnorm v + par * delta * delta) - g_rznorm v * g_rznorm v))%num, M)
     else Some ((nopp HALF * (g_rxnorm v * g_rxnorm v + par * g_xnorm v * g_xnorm v))%num, M));
  do M <- gq_restore M;
  do M <- copy n wa1 1 a (lda + 1) M;
  Some (mkgr info par fx (g_iter v), M).

(** gqtpar.c 163-347: an iteration; yields the results or the variables of the next one *)
Definition gq_iteration (v : gvars) (M : mem) : option ((gresult + gvars) * mem) :=
  let par := if ((g_par v <=? g_pars v)%num && (ZERO <? g_paru v)%num)%bool then
               (vmax (nsqrt (g_parl v / g_paru v)) SMALL * g_paru v)%num
             else g_par v in
  do M <- gq_restore M;
  do M <- for_up 1 (n + 1) (fun j M => do d <- M (W1 j); store M (A j j) (d + par)%num) M;
  do (indef, M) <- potf2 UPPER n a lda M;
  do (v, parc, info, M) <-
    (if indef =? 0 then gq_positive v par M
     else do (v, parc, M) <- gq_indefinite v par indef M; Some (v, parc, 0, M));
  let parl := if (g_parl v <? g_pars v)%num then g_pars v else g_parl v in
  let iter := g_iter v + 1 in
  let info := if info =? 0 then
                if (g_paru v =? ZERO)%num then 2
                else if (g_paru v <=? (ONE + HALF * rtol) * g_pars v)%num then 3
                else if itmax <=? iter then 4
                else 0
              else info in
  let v' (par : N) := mkgv par (g_parf v) parl (g_pars v) (g_paru v) (g_alpha v) (g_rxnorm v) (g_rznorm v) (g_xnorm v)
                        (g_rednc v) iter in
  if negb (info =? 0) then do (r, M) <- gq_exit (v' par) info M; Some (inl r, M)
  else
    let par := (par + parc)%num in
    let par := if (par <? parl)%num then parl else par in
    Some (inr (v' par), M).

(** gqtpar.c 160-347: the loop; [fuel] bounds the number of iterations: the variables are the result if it is not enough *)
Fixpoint gq_loop (fuel : nat) (v : gvars) (M : mem) : option ((gresult + gvars) * mem) :=
  match fuel with
  | O => Some (inr v, M)
  | S fuel =>
      do (r, M) <- gq_iteration v M;
      match r with inl r => Some (inl r, M) | inr v => gq_loop fuel v M end
  end.

(** gqtpar.c 70-357; [par] is *par_ptr, or 0 *)
Definition gqt (par : N) (fuel : nat) (M : mem) : option ((gresult + gvars) * mem) :=
  do M <- gq_clear M;
  do M <- gq_save M;
  do (v, M) <- gq_bounds par M;
  gq_loop fuel v M.
End Main.
End Gqt.
