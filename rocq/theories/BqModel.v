(** * Model of bobyqa.c: Powell's BOBYQA

    All of bobyqa.c but the printing (IPRINT = 0 is assumed), the test problem and the Fortran wrapper.  The indices of the
    arrays start at 1 as in the C code after the "parameter adjustments".  The integers do not overflow.  The variables set
    by bobyqa.c before use only "to avoid compiler warnings" are kept. *)
From Coq Require Import ZArith List Bool.
From Verif Require Import Num BqLang.
Import ListNotations.
Local Open Scope Z_scope.
Local Open Scope bq_scope.

(** bobyqa.h 44-60: bobyqa_status *)
Inductive bstatus := BQ_SUCCESS | BQ_BAD_NVARS | BQ_BAD_NPT | BQ_BAD_RHO_RANGE | BQ_BAD_SCALING | BQ_TOO_CLOSE
  | BQ_ROUNDING_ERRORS | BQ_TOO_MANY_EVALUATIONS | BQ_STEP_FAILED.

Section Bobyqa.
Context {N : Num}.
Notation prog := (prog N).

(** bobyqa.c 71-72: LOOP(var,num), with or without variables modified by the loop *)
Definition LOOP {A} (num : Z) (body : Z -> A -> prog A) (a : A) : prog A := loop 1 num body a.
Definition LOOP_ (num : Z) (body : Z -> prog unit) : prog unit := loop 1 num (fun i _ => body i) tt.

(** The constants of the code *)
Definition zero : N := nZ 0.
Definition one : N := nZ 1.
Definition two : N := nZ 2.
Definition ten : N := nZ 10.
Definition onemin : N := nZ (-1).
Definition half : N := nQ 1 2.
Definition tenth : N := nQ 1 10.
Definition msqrt2 : N := nQ 141421356237309504880 100000000000000000000.

(** bobyqa.c 187-203: clamp, min and max *)
Definition clamp (x lo hi : N) : N := if nle hi x then hi else if nle x lo then lo else x.
Definition bmin (a b : N) : N := if nle a b then a else b.
Definition bmax (a b : N) : N := if nle b a then a else b.
Definition eclamp (x lo hi : prog N) : prog N := let* x := x in let* lo := lo in let* hi := hi in $(clamp x lo hi).
Definition emin : prog N -> prog N -> prog N := lift2 bmin.
Definition emax : prog N -> prog N -> prog N := lift2 bmax.
Definition eabs : prog N -> prog N := lift1 nabs.
Definition esqrt : prog N -> prog N := lift1 nsqrt.

(** bobyqa.c 102-109: context.  The value of the objective function may depend on the previous calls.  The addresses are
    [None] for NULL. *)
Record context := mkctx {
  c_objfun : list (list N * N) -> list N -> N;
  c_scl : option Z;
  c_ws : Z;
  c_sgn : N;
  c_n : Z
}.

(** bobyqa.c 174-183: scale *)
Definition scale (dst n scl src : Z) : prog unit :=
  loop 0 (n - 1) (fun i _ => (dst + i)%Z <~ !(scl + i)%Z * !(src + i)%Z) tt.

(** The n numbers at address a *)
Fixpoint readn (k : nat) (a : Z) : prog (list N) :=
  match k with
  | O => $nil
  | S k => let* v := ld a in let* t := readn k (a + 1)%Z in $(v :: t)
  end.

(** A call of the objective function with the variables at address a *)
Definition objfun (ctx : context) (a : Z) : prog N :=
  let* p := readn (Z.to_nat (c_n ctx)) a in
  fun s => let f := c_objfun ctx (evs s) p in Ret f (mkmst (mm s) ((p, f) :: evs s)).

(** bobyqa.c 111-115: GET_VARIABLES and CALL_OBJFUN *)
Definition call_objfun (ctx : context) (x : Z) : prog N :=
  let* a := match c_scl ctx with
            | None => $x
            | Some scl => scale (c_ws ctx) (c_n ctx) scl x ;; $(c_ws ctx)
            end in
  let* f := objfun ctx a in
  $(nmul f (c_sgn ctx)).

(** bobyqa.c 117: WORK_SIZE *)
Definition work_size (n npt : Z) : Z := ((npt + 5) * (npt + n) + 3 * n * (n + 5) / 2)%Z.

(** ** bobyqa.c 2865-2952: update *)
Definition update (n npt bmat zmat ndim vlag : Z) (beta denom : N) (knew w : Z) : prog unit :=
  let BMAT := at2 bmat ndim in
  let ZMAT := at2 zmat npt in
  let nptm := (npt - n - 1)%Z in
  let* ztest := LOOP npt (fun k ztest =>
    LOOP nptm (fun j ztest => emax ($ztest) (eabs (!(ZMAT k j)))) ztest) zero in
  let ztest := nmul ztest (nQ 1 100000000000000000000) in
  (* Apply the rotations that put zeros in the KNEW-th row of ZMAT. *)
  loop 2 nptm (fun j _ =>
    (If eabs (!(ZMAT knew j)) >? $ztest Then
       let* tempa := !(ZMAT knew 1) in
       let* tempb := !(ZMAT knew j) in
       let* temp := esqrt ($tempa * $tempa + $tempb * $tempb) in
       let* tempa := $tempa / $temp in
       let* tempb := $tempb / $temp in
       LOOP_ npt (fun i =>
         let* temp := $tempa * !(ZMAT i 1) + $tempb * !(ZMAT i j) in
         ZMAT i j <~ $tempa * !(ZMAT i j) - $tempb * !(ZMAT i 1) ;;
         ZMAT i 1 <~ $temp)
     Else $tt) ;;
    ZMAT knew j <~ $zero) tt ;;
  (* Put the first NPT components of the KNEW-th column of HLAG into W, and calculate the parameters of the updating formula. *)
  LOOP_ npt (fun i => at1 w i <~ !(ZMAT knew 1) * !(ZMAT i 1)) ;;
  let* alpha := w#knew in
  let* tau := vlag#knew in
  at1 vlag knew -~ $one ;;
  (* Complete the updating of ZMAT. *)
  let* temp := esqrt ($denom) in
  let* tempb := !(ZMAT knew 1) / $temp in
  let* tempa := $tau / $temp in
  LOOP_ npt (fun i => ZMAT i 1 <~ $tempa * !(ZMAT i 1) - $tempb * vlag#i) ;;
  (* Finally, update the matrix BMAT. *)
  LOOP_ n (fun j =>
    let jp := (npt + j)%Z in
    at1 w jp <~ !(BMAT knew j) ;;
    let* tempa := ($alpha * vlag#jp - $tau * w#jp) / $denom in
    let* tempb := (- $beta * w#jp - $tau * vlag#jp) / $denom in
    LOOP_ jp (fun i =>
      BMAT i j <~ !(BMAT i j) + $tempa * vlag#i + $tempb * w#i ;;
      if (npt <? i)%Z then BMAT jp (i - npt)%Z <~ !(BMAT i j) else $tt)).

(** ** bobyqa.c 2441-2861: trsbox *)

(** The labels *)
Inductive tlabel := T20 | T30 | T50 | T90 | T100 | T120 | T150 | T190 | T210.

(** The local variables used across the labels; [t_crv] is *crvmin *)
Record tvars := mktv {
  t_angbd : N; t_beta : N; t_delsq : N; t_dredg : N; t_dredsq : N; t_ggsav : N; t_gredsq : N; t_qred : N;
  t_rdnext : N; t_sredg : N; t_stepsq : N; t_xsav : N; t_crv : N;
  t_iact : Z; t_itcsav : Z; t_iterc : Z; t_itermax : Z; t_nact : Z
}.

Section Trsbox.
Variables (n npt xpt xopt gopt hq pq sl su : Z) (delta : N) (xnew d gnew xbdi s hs hred : Z).
Let XPT := at2 xpt npt.

(** bobyqa.c 2478-2517 *)
Definition trs_init : prog tvars :=
  let* nact := LOOP n (fun i nact =>
    at1 xbdi i <~ $zero ;;
    (If xopt#i <=? sl#i Then
       (If gopt#i >=? $zero Then at1 xbdi i <~ $onemin Else $tt)
     Else If xopt#i >=? su#i Then
       (If gopt#i <=? $zero Then at1 xbdi i <~ $one Else $tt)
     Else $tt) ;;
    let* e := xbdi#i =? $zero in
    let nact := if e then nact else (nact + 1)%Z in
    at1 d i <~ $zero ;;
    at1 gnew i <~ gopt#i ;;
    $nact) 0%Z in
  $(mktv zero zero (nmul delta delta) zero zero zero zero zero zero zero zero zero onemin 0 0 0 0 nact).

(** bobyqa.c 2524-2548: labels L20 and L30 *)
Definition trs_20 (v : tvars) : prog (tlabel * tvars + tvars) :=
  let 'mktv angbd _ delsq dredg dredsq ggsav gredsq qred rdnext sredg stepsq xsav crv iact itcsav iterc itermax nact := v in
  $(inl (T30, mktv angbd zero delsq dredg dredsq ggsav gredsq qred rdnext sredg stepsq xsav crv iact itcsav iterc itermax nact)).

Definition trs_30 (v : tvars) : prog (tlabel * tvars + tvars) :=
  let 'mktv angbd beta delsq dredg dredsq ggsav gredsq qred rdnext sredg _ xsav crv iact itcsav iterc itermax nact := v in
  let* stepsq := LOOP n (fun i stepsq =>
    (If xbdi#i =? $zero Then
       (if neq beta zero then at1 s i <~ - gnew#i else at1 s i <~ $beta * s#i - gnew#i)
     Else at1 s i <~ $zero) ;;
    $stepsq + s#i * s#i) zero in
  if neq stepsq zero then
    $(inl (T190, mktv angbd beta delsq dredg dredsq ggsav gredsq qred rdnext sredg stepsq xsav crv iact itcsav iterc itermax nact))
  else
    let '(gredsq, itermax) := if neq beta zero then (stepsq, (iterc + n - nact)%Z) else (gredsq, itermax) in
    let v := mktv angbd beta delsq dredg dredsq ggsav gredsq qred rdnext sredg stepsq xsav crv iact itcsav iterc itermax nact in
    if nle (nmul gredsq delsq) (nmul (nmul qred (nQ 1 10000)) qred) then $(inl (T190, v)) else $(inl (T210, v)).

(** bobyqa.c 2550-2641: label L50 *)
Definition trs_50 (v : tvars) : prog (tlabel * tvars + tvars) :=
  let 'mktv angbd beta delsq dredg dredsq ggsav gredsq qred rdnext sredg stepsq xsav crv iact itcsav iterc itermax nact := v in
  let* (resid, ds, shs) := LOOP n (fun i '(resid, ds, shs) =>
    If xbdi#i =? $zero Then
      let* resid := $resid - d#i * d#i in
      let* ds := $ds + s#i * d#i in
      let* shs := $shs + s#i * hs#i in
      $(resid, ds, shs)
    Else $(resid, ds, shs)) (delsq, zero, zero) in
  if nle resid zero then $(inl (T90, v)) else
  let* temp := esqrt ($stepsq * $resid + $ds * $ds) in
  let* blen := if nlt ds zero then ($temp - $ds) / $stepsq else $resid / ($temp + $ds) in
  let* stplen := if nlt zero shs then (let* stplen := $gredsq / $shs in emin ($blen) ($stplen)) else $blen in
  (* Reduce STPLEN if necessary in order to preserve the simple bounds *)
  let* (stplen, iact) := LOOP n (fun i '(stplen, iact) =>
    If s#i =? $zero Then $(stplen, iact)
    Else
      let* xsum := xopt#i + d#i in
      let* temp := (If s#i >? $zero Then (su#i - $xsum) / s#i Else (sl#i - $xsum) / s#i) in
      if nlt temp stplen then $(temp, i) else $(stplen, iact)) (stplen, 0%Z) in
  (* Update CRVMIN, GNEW and D.  Set SDEC to the decrease that occurs in Q. *)
  let* (sdec, iterc, crv, ggsav, gredsq, qred) :=
    if nlt zero stplen then
      let iterc := (iterc + 1)%Z in
      let temp := ndiv shs stepsq in
      let crv := if ((iact =? 0)%Z && nlt zero temp)%bool then
                   (let crv := bmin crv temp in if neq crv onemin then temp else crv)
                 else crv in
      let ggsav := gredsq in
      let* gredsq := LOOP n (fun i gredsq =>
        at1 gnew i +~ $stplen * hs#i ;;
        let* gredsq := (If xbdi#i =? $zero Then $gredsq + gnew#i * gnew#i Else $gredsq) in
        at1 d i +~ $stplen * s#i ;;
        $gredsq) zero in
      let* sdec := emax ($stplen * ($ggsav - $half * $stplen * $shs)) ($zero) in
      $(sdec, iterc, crv, ggsav, gredsq, nadd qred sdec)
    else $(zero, iterc, crv, ggsav, gredsq, qred) in
  (* Restart the conjugate gradient method if it has hit a new bound. *)
  if (0 <? iact)%Z then
    let nact := (nact + 1)%Z in
    at1 xbdi iact <~ (If s#iact <? $zero Then $onemin Else $one) ;;
    let* delsq := $delsq - d#iact * d#iact in
    let v := mktv angbd beta delsq dredg dredsq ggsav gredsq qred rdnext sredg stepsq xsav crv iact itcsav iterc itermax nact in
    if nle delsq zero then $(inl (T90, v)) else $(inl (T20, v))
  else if nlt stplen blen then
    if ((iterc =? itermax)%Z || nle sdec (nmul qred (nQ 1 100)))%bool then
      $(inl (T190, mktv angbd beta delsq dredg dredsq ggsav gredsq qred rdnext sredg stepsq xsav crv iact itcsav iterc itermax nact))
    else
      $(inl (T30, mktv angbd (ndiv gredsq ggsav) delsq dredg dredsq ggsav gredsq qred rdnext sredg stepsq xsav crv iact itcsav iterc itermax nact))
  else
    $(inl (T90, mktv angbd beta delsq dredg dredsq ggsav gredsq qred rdnext sredg stepsq xsav crv iact itcsav iterc itermax nact)).

(** bobyqa.c 2643-2644: label L90 *)
Definition trs_90 (v : tvars) : prog (tlabel * tvars + tvars) :=
  let 'mktv angbd beta delsq dredg dredsq ggsav gredsq qred rdnext sredg stepsq xsav _ iact itcsav iterc itermax nact := v in
  $(inl (T100, mktv angbd beta delsq dredg dredsq ggsav gredsq qred rdnext sredg stepsq xsav zero iact itcsav iterc itermax nact)).

(** bobyqa.c 2648-2666: label L100 *)
Definition trs_100 (v : tvars) : prog (tlabel * tvars + tvars) :=
  let 'mktv angbd beta delsq dredg dredsq ggsav gredsq qred rdnext sredg stepsq xsav crv iact itcsav iterc itermax nact := v in
  if (n - 1 <=? nact)%Z then $(inl (T190, v)) else
  let* (dredsq, dredg, gredsq) := LOOP n (fun i '(dredsq, dredg, gredsq) =>
    If xbdi#i =? $zero Then
      let* dredsq := $dredsq + d#i * d#i in
      let* dredg := $dredg + d#i * gnew#i in
      let* gredsq := $gredsq + gnew#i * gnew#i in
      at1 s i <~ d#i ;;
      $(dredsq, dredg, gredsq)
    Else (at1 s i <~ $zero ;; $(dredsq, dredg, gredsq))) (zero, zero, zero) in
  $(inl (T210, mktv angbd beta delsq dredg dredsq ggsav gredsq qred rdnext sredg stepsq xsav crv iact iterc iterc itermax nact)).

(** bobyqa.c 2670-2728: label L120; the goto L100 in the loop is an exit with the new [nact] *)
Definition trs_120 (v : tvars) : prog (tlabel * tvars + tvars) :=
  let 'mktv angbd beta delsq dredg dredsq ggsav gredsq qred rdnext sredg stepsq xsav crv iact itcsav iterc itermax nact := v in
  let iterc := (iterc + 1)%Z in
  let* temp := $gredsq * $dredsq - $dredg * $dredg in
  if nle temp (nmul (nmul qred (nQ 1 10000)) qred) then
    $(inl (T190, mktv angbd beta delsq dredg dredsq ggsav gredsq qred rdnext sredg stepsq xsav crv iact itcsav iterc itermax nact))
  else
  let temp := nsqrt temp in
  LOOP_ n (fun i =>
    If xbdi#i =? $zero Then at1 s i <~ ($dredg * d#i - $dredsq * gnew#i) / $temp
    Else at1 s i <~ $zero) ;;
  let sredg := nopp temp in
  let* r := loopx 1 n (fun i '(angbd, iact, xsav) =>
    If xbdi#i =? $zero Then
      let* tempa := xopt#i + d#i - sl#i in
      let* tempb := su#i - xopt#i - d#i in
      if nle tempa zero then (at1 xbdi i <~ $onemin ;; $(inr (angbd, iact, xsav, (nact + 1)%Z)))
      else if nle tempb zero then (at1 xbdi i <~ $one ;; $(inr (angbd, iact, xsav, (nact + 1)%Z)))
      else
      let* ssq := d#i * d#i + s#i * s#i in
      let* temp := xopt#i - sl#i in
      let* temp := $ssq - $temp * $temp in
      let* (angbd, iact, xsav) :=
        if nlt zero temp then
          let* temp := esqrt ($temp) - s#i in
          if nlt tempa (nmul angbd temp) then $(ndiv tempa temp, i, onemin) else $(angbd, iact, xsav)
        else $(angbd, iact, xsav) in
      let* temp := su#i - xopt#i in
      let* temp := $ssq - $temp * $temp in
      let* (angbd, iact, xsav) :=
        if nlt zero temp then
          let* temp := esqrt ($temp) + s#i in
          if nlt tempb (nmul angbd temp) then $(ndiv tempb temp, i, one) else $(angbd, iact, xsav)
        else $(angbd, iact, xsav) in
      $(inl (angbd, iact, xsav))
    Else $(inl (angbd, iact, xsav))) (one, 0%Z, xsav) in
  match r with
  | inr (angbd, iact, xsav, nact) =>
      $(inl (T100, mktv angbd beta delsq dredg dredsq ggsav gredsq qred rdnext sredg stepsq xsav crv iact itcsav iterc itermax nact))
  | inl (angbd, iact, xsav) =>
      $(inl (T210, mktv angbd beta delsq dredg dredsq ggsav gredsq qred rdnext sredg stepsq xsav crv iact itcsav iterc itermax nact))
  end.

(** bobyqa.c 2731-2807: label L150.  [rdprev] and [angt] are set in the loop before they are used; angbd <= 1 so that iu <= 20 without
    rounding errors: the limit of the conversion is 100. *)
Definition trs_150 (v : tvars) : prog (tlabel * tvars + tvars) :=
  let 'mktv angbd beta delsq dredg dredsq ggsav gredsq qred rdnext sredg stepsq xsav crv iact itcsav iterc itermax nact := v in
  let* (shs, dhs, dhd) := LOOP n (fun i '(shs, dhs, dhd) =>
    If xbdi#i =? $zero Then
      let* shs := $shs + s#i * hs#i in
      let* dhs := $dhs + d#i * hs#i in
      let* dhd := $dhd + d#i * hred#i in
      $(shs, dhs, dhd)
    Else $(shs, dhs, dhd)) (zero, zero, zero) in
  let* iu := trunc 100 (nadd (nmul angbd (nZ 17)) (nQ 31 10)) in
  let* (redmax, isav, redsav, rdprev, rdnext, angt) := LOOP iu (fun i '(redmax, isav, redsav, rdprev, rdnext, angt) =>
    let* angt := $angbd * $(nZ i) / $(nZ iu) in
    let* sth := ($angt + $angt) / ($one + $angt * $angt) in
    let* temp := $shs + $angt * ($angt * $dhd - $dhs - $dhs) in
    let* rednew := $sth * ($angt * $dredg - $sredg - $half * $sth * $temp) in
    if nlt redmax rednew then $(rednew, i, rednew, redsav, rdnext, angt)
    else if (i =? isav + 1)%Z then $(redmax, isav, rednew, rdprev, rednew, angt)
    else $(redmax, isav, rednew, rdprev, rdnext, angt)) (zero, 0%Z, zero, zero, rdnext, zero) in
  if (isav =? 0)%Z then
    $(inl (T190, mktv angbd beta delsq dredg dredsq ggsav gredsq qred rdnext sredg stepsq xsav crv iact itcsav iterc itermax nact))
  else
  let* angt := if (isav <? iu)%Z then
                 let* temp := ($rdnext - $rdprev) / ($redmax + $redmax - $rdprev - $rdnext) in
                 $angbd * ($(nZ isav) + $half * $temp) / $(nZ iu)
               else $angt in
  let* cth := ($one - $angt * $angt) / ($one + $angt * $angt) in
  let* sth := ($angt + $angt) / ($one + $angt * $angt) in
  let* temp := $shs + $angt * ($angt * $dhd - $dhs - $dhs) in
  let* sdec := $sth * ($angt * $dredg - $sredg - $half * $sth * $temp) in
  if nle sdec zero then
    $(inl (T190, mktv angbd beta delsq dredg dredsq ggsav gredsq qred rdnext sredg stepsq xsav crv iact itcsav iterc itermax nact))
  else
  (* Update GNEW, D and HRED. *)
  let* (dredg, gredsq) := LOOP n (fun i '(dredg, gredsq) =>
    at1 gnew i <~ gnew#i + ($cth - $one) * hred#i + $sth * hs#i ;;
    let* (dredg, gredsq) :=
      (If xbdi#i =? $zero Then
         at1 d i <~ $cth * d#i + $sth * s#i ;;
         let* dredg := $dredg + d#i * gnew#i in
         let* gredsq := $gredsq + gnew#i * gnew#i in
         $(dredg, gredsq)
       Else $(dredg, gredsq)) in
    at1 hred i <~ $cth * hred#i + $sth * hs#i ;;
    $(dredg, gredsq)) (zero, zero) in
  let qred := nadd qred sdec in
  if ((0 <? iact)%Z && (isav =? iu)%Z)%bool then
    let nact := (nact + 1)%Z in
    at1 xbdi iact <~ $xsav ;;
    $(inl (T100, mktv angbd beta delsq dredg dredsq ggsav gredsq qred rdnext sredg stepsq xsav crv iact itcsav iterc itermax nact))
  else
    let v := mktv angbd beta delsq dredg dredsq ggsav gredsq qred rdnext sredg stepsq xsav crv iact itcsav iterc itermax nact in
    if nlt (nmul qred (nQ 1 100)) sdec then $(inl (T120, v)) else $(inl (T190, v)).

(** bobyqa.c 2808-2821: label L190; the value of *dsq; *crvmin is left in the variables *)
Definition trs_190 : prog N :=
  LOOP n (fun i dsq =>
    at1 xnew i <~ eclamp (xopt#i + d#i) (sl#i) (su#i) ;;
    (If xbdi#i =? $onemin Then at1 xnew i <~ sl#i Else $tt) ;;
    (If xbdi#i =? $one Then at1 xnew i <~ su#i Else $tt) ;;
    at1 d i <~ xnew#i - xopt#i ;;
    $dsq + d#i * d#i) zero.

(** bobyqa.c 2827-2860: label L210 *)
Definition trs_210 (v : tvars) : prog (tlabel * tvars + tvars) :=
  LOOP n (fun j ih =>
    at1 hs j <~ $zero ;;
    LOOP j (fun i ih =>
      let ih := (ih + 1)%Z in
      (if (i <? j)%Z then at1 hs j +~ hq#ih * s#i else $tt) ;;
      at1 hs i +~ hq#ih * s#j ;;
      $ih) ih) 0%Z ;;
  LOOP_ npt (fun k =>
    If pq#k =? $zero Then $tt
    Else
      let* temp := LOOP n (fun j temp => $temp + !(XPT k j) * s#j) zero in
      let* temp := $temp * pq#k in
      LOOP_ n (fun i => at1 hs i +~ $temp * !(XPT k i))) ;;
  if neq (t_crv v) zero then
    if (t_itcsav v <? t_iterc v)%Z then $(inl (T150, v))
    else LOOP_ n (fun i => at1 hred i <~ hs#i) ;; $(inl (T120, v))
  else $(inl (T50, v)).

Definition trs_step (l : tlabel * tvars) : prog (tlabel * tvars + tvars) :=
  let '(l, v) := l in
  match l with
  | T20 => trs_20 v | T30 => trs_30 v | T50 => trs_50 v | T90 => trs_90 v | T100 => trs_100 v
  | T120 => trs_120 v | T150 => trs_150 v | T210 => trs_210 v
  | T190 => $(inr v)
  end.

(** The values of *dsq and *crvmin *)
Definition trsbox (fuel : nat) : prog (N * N) :=
  let* v := trs_init in
  let* v := machine fuel trs_step (T20, v) in
  let* dsq := trs_190 in
  $(dsq, t_crv v).
End Trsbox.

(** ** bobyqa.c 1401-1696: altmov *)
Section Altmov.
Variables (n npt xpt xopt bmat zmat ndim sl su kopt knew : Z) (adelt : N) (xnew xalt glag hcol w : Z).
Let XPT := at2 xpt npt.
Let BMAT := at2 bmat ndim.
Let ZMAT := at2 zmat npt.

Definition one_plus_sqrt2 : N := nadd one msqrt2.

(** bobyqa.c 1445-1472: hcol and glag; the value of *alpha *)
Definition alt_lag : prog N :=
  LOOP_ npt (fun k => at1 hcol k <~ $zero) ;;
  LOOP_ (npt - n - 1)%Z (fun j =>
    let* temp := !(ZMAT knew j) in
    LOOP_ npt (fun k => at1 hcol k +~ $temp * !(ZMAT k j))) ;;
  let* alpha := hcol#knew in
  LOOP_ n (fun i => at1 glag i <~ !(BMAT knew i)) ;;
  LOOP_ npt (fun k =>
    let* temp := LOOP n (fun j temp => $temp + !(XPT k j) * xopt#j) zero in
    let* temp := $temp * hcol#k in
    LOOP_ n (fun i => at1 glag i +~ $temp * !(XPT k i))) ;;
  $alpha.

(** bobyqa.c 1497-1518: the bounds of the step along a line, and the indices of the variables that set these bounds *)
Definition alt_line (k : Z) (slbd subd sumin : N) : prog (N * N * Z * Z) :=
  LOOP n (fun i '(slbd, subd, ilbd, iubd) =>
    let* temp := !(XPT k i) - xopt#i in
    if nlt zero temp then
      let* (slbd, ilbd) :=
        (If $slbd * $temp <? sl#i - xopt#i Then let* v := (sl#i - xopt#i) / $temp in $(v, (- i)%Z) Else $(slbd, ilbd)) in
      let* (subd, iubd) :=
        (If $subd * $temp >? su#i - xopt#i Then let* v := emax ((su#i - xopt#i) / $temp) ($sumin) in $(v, i)
         Else $(subd, iubd)) in
      $(slbd, subd, ilbd, iubd)
    else if nlt temp zero then
      let* (slbd, ilbd) :=
        (If $slbd * $temp >? su#i - xopt#i Then let* v := (su#i - xopt#i) / $temp in $(v, i) Else $(slbd, ilbd)) in
      let* (subd, iubd) :=
        (If $subd * $temp <? sl#i - xopt#i Then let* v := emax ((sl#i - xopt#i) / $temp) ($sumin) in $(v, (- i)%Z)
         Else $(subd, iubd)) in
      $(slbd, subd, ilbd, iubd)
    else $(slbd, subd, ilbd, iubd)) (slbd, subd, 0%Z, 0%Z).

(** bobyqa.c 1478-1576: the search along the lines; yields ksav, stpsav, ibdsav and the last step *)
Definition alt_lines (ha : N) : prog (Z * N * Z * N) :=
  let* (_, ksav, stpsav, ibdsav, step) := LOOP npt (fun k '(presav, ksav, stpsav, ibdsav, step) =>
    if (k =? kopt)%Z then $(presav, ksav, stpsav, ibdsav, step) else
    let* (dderiv, distsq) := LOOP n (fun i '(dderiv, distsq) =>
      let* temp := !(XPT k i) - xopt#i in
      let* dderiv := $dderiv + glag#i * $temp in
      let* distsq := $distsq + $temp * $temp in
      $(dderiv, distsq)) (zero, zero) in
    let* subd := $adelt / esqrt ($distsq) in
    let* slbd := - $subd in
    let* sumin := emin ($one) ($subd) in
    let* (slbd, subd, ilbd, iubd) := alt_line k slbd subd sumin in
    let* (step, vlag, isbd) :=
      if (k =? knew)%Z then
        let* diff := $dderiv - $one in
        let* vlag := $slbd * ($dderiv - $slbd * $diff) in
        let* temp := $subd * ($dderiv - $subd * $diff) in
        let '(step, vlag, isbd) := if nlt (nabs vlag) (nabs temp) then (subd, temp, iubd) else (slbd, vlag, ilbd) in
        let* tempd := $half * $dderiv in
        let* tempa := $tempd - $diff * $slbd in
        let* tempb := $tempd - $diff * $subd in
        if nlt (nmul tempa tempb) zero then
          let* temp := $tempd * $tempd / $diff in
          if nlt (nabs vlag) (nabs temp) then $(ndiv tempd diff, temp, 0%Z) else $(step, vlag, isbd)
        else $(step, vlag, isbd)
      else
        let* vlag := $slbd * ($one - $slbd) in
        let* temp := $subd * ($one - $subd) in
        let '(step, vlag, isbd) := if nlt (nabs vlag) (nabs temp) then (subd, temp, iubd) else (slbd, vlag, ilbd) in
        let '(step, vlag, isbd) :=
          if nlt half subd then if nlt (nabs vlag) (nQ 1 4) then (half, nQ 1 4, 0%Z) else (step, vlag, isbd)
          else (step, vlag, isbd) in
        $(step, nmul vlag dderiv, isbd) in
    let* temp := $step * ($one - $step) * $distsq in
    let* predsq := $vlag * $vlag * ($vlag * $vlag + $ha * $temp * $temp) in
    if nlt presav predsq then $(predsq, k, step, isbd, step)
    else $(presav, ksav, stpsav, ibdsav, step)) (zero, 0%Z, zero, 0%Z, zero) in
  $(ksav, stpsav, ibdsav, step).

(** bobyqa.c 1578-1586 *)
Definition alt_xnew (ksav : Z) (stpsav : N) (ibdsav : Z) : prog unit :=
  LOOP_ n (fun i => at1 xnew i <~ eclamp (xopt#i + $stpsav * (!(XPT ksav i) - xopt#i)) (sl#i) (su#i)) ;;
  (if (ibdsav <? 0)%Z then at1 xnew (- ibdsav)%Z <~ sl#(- ibdsav)%Z else $tt) ;;
  (if (0 <? ibdsav)%Z then at1 xnew ibdsav <~ su#ibdsav else $tt).

(** bobyqa.c 1594-1604: yields ggfree *)
Definition alt_free (bigstp : N) : prog N :=
  LOOP n (fun i ggfree =>
    at1 w i <~ $zero ;;
    let* tempa := emin (xopt#i - sl#i) (glag#i) in
    let* tempb := emax (xopt#i - su#i) (glag#i) in
    if (nlt zero tempa || nlt tempb zero)%bool then
      at1 w i <~ $bigstp ;;
      $ggfree + glag#i * glag#i
    else $ggfree) zero.

(** bobyqa.c 1611-1631: the inner loop; the variables are wfixsq, ggfree and step, the value is step *)
Definition alt_fix (bigstp : N) (v : N * N * N) : prog (N * N * N + N) :=
  let '(wfixsq, ggfree, step) := v in
  let* temp := $adelt * $adelt - $wfixsq in
  if nle temp zero then $(inr step) else
  let wsqsav := wfixsq in
  let* step := esqrt ($temp / $ggfree) in
  let* (wfixsq, ggfree) := LOOP n (fun i '(wfixsq, ggfree) =>
    If w#i =? $bigstp Then
      let* temp := xopt#i - $step * glag#i in
      If $temp <=? sl#i Then
        at1 w i <~ sl#i - xopt#i ;;
        let* wfixsq := $wfixsq + w#i * w#i in $(wfixsq, ggfree)
      Else If $temp >=? su#i Then
        at1 w i <~ su#i - xopt#i ;;
        let* wfixsq := $wfixsq + w#i * w#i in $(wfixsq, ggfree)
      Else let* ggfree := $ggfree + glag#i * glag#i in $(wfixsq, ggfree)
    Else $(wfixsq, ggfree)) (wfixsq, zero) in
  if (nlt wsqsav wfixsq && nlt zero ggfree)%bool then $(inl (wfixsq, ggfree, step)) else $(inr step).

(** bobyqa.c 1635-1648: yields gw *)
Definition alt_xalt (bigstp step : N) : prog N :=
  LOOP n (fun i gw =>
    (If w#i =? $bigstp Then
       at1 w i <~ - $step * glag#i ;;
       at1 xalt i <~ eclamp (xopt#i + w#i) (sl#i) (su#i)
     Else If w#i =? $zero Then at1 xalt i <~ xopt#i
     Else If glag#i >? $zero Then at1 xalt i <~ sl#i
     Else at1 xalt i <~ su#i) ;;
    $gw + glag#i * w#i) zero.

(** bobyqa.c 1654-1675: yields *cauchy *)
Definition alt_cauchy (second : bool) (gw : N) : prog N :=
  let* curv := LOOP npt (fun k curv =>
    let* temp := LOOP n (fun j temp => $temp + !(XPT k j) * w#j) zero in
    $curv + hcol#k * $temp * $temp) zero in
  let curv := if second then nopp curv else curv in
  if (nlt (nopp gw) curv && nlt curv (nmul (nopp one_plus_sqrt2) gw))%bool then
    let* scale := - $gw / $curv in
    LOOP_ n (fun i => at1 xalt i <~ eclamp (xopt#i + $scale * w#i) (sl#i) (su#i)) ;;
    let* temp := $half * $gw * $scale in
    $temp * $temp
  else
    let* temp := $gw + $half * $curv in
    $temp * $temp.

(** bobyqa.c 1593-1689: one pass of the outer loop; [None] for the return at line 1607.  The second component is [step],
    kept from one pass to the next. *)
Definition alt_pass (fuel : nat) (second : bool) (step : N) : prog (option N * N) :=
  let bigstp := nadd adelt adelt in
  let* ggfree := alt_free bigstp in
  if neq ggfree zero then $(None, step) else
  let* step := machine fuel (alt_fix bigstp) (zero, ggfree, step) in
  let* gw := alt_xalt bigstp step in
  let* cauchy := alt_cauchy second gw in
  $(Some cauchy, step).

(** The values of *alpha and *cauchy *)
Definition altmov (fuel : nat) : prog (N * N) :=
  let* alpha := alt_lag in
  let* (ksav, stpsav, ibdsav, step) := alt_lines (nmul half alpha) in
  alt_xnew ksav stpsav ibdsav ;;
  let* (c, step) := alt_pass fuel false step in
  match c with
  | None => $(alpha, zero)
  | Some csave =>
      LOOP_ n (fun i => at1 glag i <~ - glag#i ;; at1 w (n + i)%Z <~ xalt#i) ;;
      let* (c, _) := alt_pass fuel true step in
      match c with
      | None => $(alpha, zero)
      | Some cauchy =>
          if nlt cauchy csave then LOOP_ n (fun i => at1 xalt i <~ w#(n + i)%Z) ;; $(alpha, csave)
          else $(alpha, cauchy)
      end
  end.
End Altmov.

(** ** bobyqa.c 1702-1910: prelim *)

(** The local variables kept from one iteration to the next; [p_nf] and [p_kopt] are *nf and *kopt *)
Record pvars := mkpv { p_nf : Z; p_kopt : Z; p_stepa : N; p_stepb : N; p_fbeg : N; p_ipt : Z; p_jpt : Z }.

Section Prelim.
Variables (n npt : Z) (ctx : context) (x xl xu : Z) (rhobeg : N) (maxfun xbase xpt fval gopt hq pq bmat zmat ndim sl su : Z).
Let XPT := at2 xpt npt.
Let BMAT := at2 bmat ndim.
Let ZMAT := at2 zmat npt.
Let np := (n + 1)%Z.
Let rhosq : N := nmul rhobeg rhobeg.
Let recip : N := ndiv one rhosq.

(** bobyqa.c 1773-1792 *)
Definition pre_init : prog unit :=
  LOOP_ n (fun j =>
    at1 xbase j <~ x#j ;;
    LOOP_ npt (fun k => XPT k j <~ $zero) ;;
    LOOP_ ndim (fun i => BMAT i j <~ $zero)) ;;
  LOOP_ (n * np / 2)%Z (fun ih => at1 hq ih <~ $zero) ;;
  LOOP_ npt (fun k =>
    at1 pq k <~ $zero ;;
    LOOP_ (npt - np)%Z (fun j => ZMAT k j <~ $zero)).

(** bobyqa.c 1799-1831: the next interpolation point; [nf] is the new *nf *)
Definition pre_point (nf : Z) (v : pvars) : prog pvars :=
  let nfm := (nf - 1)%Z in
  let nfx := (nf - 1 - n)%Z in
  let 'mkpv _ kopt stepa stepb fbeg ipt jpt := v in
  if (nfm <=? 2 * n)%Z then
    if ((1 <=? nfm) && (nfm <=? n))%Z%bool then
      let* stepa := (If su#nfm =? $zero Then $(nopp rhobeg) Else $rhobeg) in
      XPT nf nfm <~ $stepa ;;
      $(mkpv nf kopt stepa stepb fbeg ipt jpt)
    else if (n <? nfm)%Z then
      let* stepa := !(XPT (nf - n)%Z nfx) in
      let* stepb := - $rhobeg in
      let* stepb := (If sl#nfx =? $zero Then emin ($two * $rhobeg) (su#nfx) Else $stepb) in
      let* stepb := (If su#nfx =? $zero Then emax (- $two * $rhobeg) (sl#nfx) Else $stepb) in
      XPT nf nfx <~ $stepb ;;
      $(mkpv nf kopt stepa stepb fbeg ipt jpt)
    else $(mkpv nf kopt stepa stepb fbeg ipt jpt)
  else
    let itemp := Z.quot (nfm - np) n in
    let jpt := (nfm - itemp * n - n)%Z in
    let ipt := (jpt + itemp)%Z in
    let '(ipt, jpt) := if (n <? ipt)%Z then (jpt, (ipt - n)%Z) else (ipt, jpt) in
    XPT nf ipt <~ !(XPT (ipt + 1)%Z ipt) ;;
    XPT nf jpt <~ !(XPT (jpt + 1)%Z jpt) ;;
    $(mkpv nf kopt stepa stepb fbeg ipt jpt).

(** bobyqa.c 1835-1843: the variables *)
Definition pre_x (nf : Z) : prog unit :=
  LOOP_ n (fun j =>
    at1 x j <~ eclamp (xbase#j + !(XPT nf j)) (xl#j) (xu#j) ;;
    (If !(XPT nf j) =? sl#j Then at1 x j <~ xl#j Else $tt) ;;
    (If !(XPT nf j) =? su#j Then at1 x j <~ xu#j Else $tt)).

(** bobyqa.c 1853-1908: the model *)
Definition pre_model (f : N) (v : pvars) : prog pvars :=
  let 'mkpv nf kopt stepa stepb fbeg ipt jpt := v in
  let nfm := (nf - 1)%Z in
  let nfx := (nf - 1 - n)%Z in
  at1 fval nf <~ $f ;;
  let* (fbeg, kopt) :=
    if (nf =? 1)%Z then $(f, 1%Z)
    else If $f <? fval#kopt Then $(fbeg, nf) Else $(fbeg, kopt) in
  if (nf <=? 2 * n + 1)%Z then
    if ((2 <=? nf) && (nf <=? n + 1))%Z%bool then
      at1 gopt nfm <~ ($f - $fbeg) / $stepa ;;
      (if (npt <? nf + n)%Z then
         BMAT 1%Z nfm <~ - $one / $stepa ;;
         BMAT nf nfm <~ $one / $stepa ;;
         BMAT (npt + nfm)%Z nfm <~ - $half * $rhosq
       else $tt) ;;
      $(mkpv nf kopt stepa stepb fbeg ipt jpt)
    else if (n + 2 <=? nf)%Z then
      let ih := Z.quot (nfx * (nfx + 1)) 2 in
      let* temp := ($f - $fbeg) / $stepb in
      let* diff := $stepb - $stepa in
      at1 hq ih <~ $two * ($temp - gopt#nfx) / $diff ;;
      at1 gopt nfx <~ (gopt#nfx * $stepb - $temp * $stepa) / $diff ;;
      let* kopt :=
        (If $stepa * $stepb <? $zero Then
           If $f <? fval#(nf - n)%Z Then
             at1 fval nf <~ fval#(nf - n)%Z ;;
             at1 fval (nf - n)%Z <~ $f ;;
             XPT (nf - n)%Z nfx <~ $stepb ;;
             XPT nf nfx <~ $stepa ;;
             $(if (kopt =? nf)%Z then (nf - n)%Z else kopt)
           Else $kopt
         Else $kopt) in
      BMAT 1%Z nfx <~ - ($stepa + $stepb) / ($stepa * $stepb) ;;
      BMAT nf nfx <~ - $half / !(XPT (nf - n)%Z nfx) ;;
      BMAT (nf - n)%Z nfx <~ - !(BMAT 1%Z nfx) - !(BMAT nf nfx) ;;
      ZMAT 1%Z nfx <~ esqrt ($two) / ($stepa * $stepb) ;;
      ZMAT nf nfx <~ esqrt ($half) / $rhosq ;;
      ZMAT (nf - n)%Z nfx <~ - !(ZMAT 1%Z nfx) - !(ZMAT nf nfx) ;;
      $(mkpv nf kopt stepa stepb fbeg ipt jpt)
    else $(mkpv nf kopt stepa stepb fbeg ipt jpt)
  else
    let ih := (Z.quot (ipt * (ipt - 1)) 2 + jpt)%Z in
    ZMAT 1%Z nfx <~ $recip ;;
    ZMAT nf nfx <~ $recip ;;
    ZMAT (ipt + 1)%Z nfx <~ - $recip ;;
    ZMAT (jpt + 1)%Z nfx <~ - $recip ;;
    let* temp := !(XPT nf ipt) * !(XPT nf jpt) in
    at1 hq ih <~ ($fbeg - fval#(ipt + 1)%Z - fval#(jpt + 1)%Z + $f) / $temp ;;
    $(mkpv nf kopt stepa stepb fbeg ipt jpt).

(** bobyqa.c 1798-1909: one iteration of the loop *)
Definition pre_iter (v : pvars) : prog (pvars + Z * Z) :=
  let nf := (p_nf v + 1)%Z in
  let* v := pre_point nf v in
  pre_x nf ;;
  let* f := call_objfun ctx x in
  let* v := pre_model f v in
  if ((p_nf v <? npt) && (p_nf v <? maxfun))%Z%bool then $(inl v) else $(inr (p_nf v, p_kopt v)).

(** The values of *nf and *kopt.  The loop makes at most npt iterations.  *kopt is not set before the loop. *)
Definition prelim : prog (Z * Z) :=
  pre_init ;;
  machine (Z.to_nat npt) pre_iter (mkpv 0 0 zero zero zero 0 0).
End Prelim.

(** ** bobyqa.c 1957-2389: rescue *)
Inductive rlabel := R80 | R120.
Record rvars := mkrv { r_beta : N; r_denom : N; r_kold : Z; r_knew : Z; r_nrem : Z }.

Section Rescue.
Variables (n npt : Z) (ctx : context) (xl xu maxfun xbase xpt fval xopt gopt hq pq bmat zmat ndim sl su : Z).
Variables (delta : N) (vlag ptsaux ptsid w : Z).
Let XPT := at2 xpt npt.
Let BMAT := at2 bmat ndim.
Let ZMAT := at2 zmat npt.
Let PTSAUX := at2 ptsaux 2.
Let np := (n + 1)%Z.
Let nptm := (npt - np)%Z.
Let sfrac : N := ndiv half (nZ np).

(** bobyqa.c 2020-2050: the shift; yields winc *)
Definition res_shift : prog N :=
  let* (sumpq, winc) := LOOP npt (fun k '(sumpq, winc) =>
    let* distsq := LOOP n (fun j distsq =>
      let* temp := !(XPT k j) - xopt#j in
      XPT k j <~ $temp ;;
      $distsq + $temp * $temp) zero in
    let* sumpq := $sumpq + pq#k in
    at1 w (ndim + k)%Z <~ $distsq ;;
    let* winc := emax ($winc) ($distsq) in
    LOOP_ nptm (fun j => ZMAT k j <~ $zero) ;;
    $(sumpq, winc)) (zero, zero) in
  LOOP n (fun j ih =>
    at1 w j <~ $half * $sumpq * xopt#j ;;
    LOOP_ npt (fun k => at1 w j +~ pq#k * !(XPT k j)) ;;
    LOOP j (fun i ih =>
      let ih := (ih + 1)%Z in
      at1 hq ih <~ hq#ih + w#i * xopt#j + w#j * xopt#i ;;
      $ih) ih) 0%Z ;;
  $winc.

(** bobyqa.c 2053-2074 *)
Definition res_base : prog unit :=
  LOOP_ n (fun j =>
    at1 xbase j +~ xopt#j ;;
    at1 sl j -~ xopt#j ;;
    at1 su j -~ xopt#j ;;
    at1 xopt j <~ $zero ;;
    let* temp1 := emin ($delta) (su#j) in
    let* temp2 := emax (- $delta) (sl#j) in
    let '(temp1, temp2) := if nlt (nadd temp1 temp2) zero then (temp2, temp1) else (temp1, temp2) in
    let temp2 := if nlt (nabs temp2) (nmul half (nabs temp1)) then nmul half temp1 else temp2 in
    PTSAUX 1%Z j <~ $temp1 ;;
    PTSAUX 2%Z j <~ $temp2 ;;
    LOOP_ ndim (fun i => BMAT i j <~ $zero)).

(** bobyqa.c 2080-2120 *)
Definition res_ids : prog unit :=
  at1 ptsid 1 <~ $sfrac ;;
  LOOP_ n (fun j =>
    let* temp1 := !(PTSAUX 1%Z j) in
    let* temp2 := !(PTSAUX 2%Z j) in
    let jp := (j + 1)%Z in
    let jpn := (jp + n)%Z in
    at1 ptsid jp <~ $(nZ j) + $sfrac ;;
    if (jpn <=? npt)%Z then
      let* temp := $one / ($temp1 - $temp2) in
      at1 ptsid jpn <~ $(nZ j) / $(nZ np) + $sfrac ;;
      BMAT jp j <~ $one / $temp1 - $temp ;;
      BMAT jpn j <~ $one / $temp2 + $temp ;;
      BMAT 1%Z j <~ - !(BMAT jp j) - !(BMAT jpn j) ;;
      ZMAT 1%Z j <~ $msqrt2 / eabs ($temp1 * $temp2) ;;
      let* temp := $temp * !(ZMAT 1%Z j) in
      ZMAT jp j <~ $temp * $temp2 ;;
      ZMAT jpn j <~ - $temp * $temp1
    else
      let* temp := $one / $temp1 in
      BMAT 1%Z j <~ - $temp ;;
      BMAT jp j <~ $temp ;;
      BMAT (j + npt)%Z j <~ - $half * ($temp1 * $temp1)) ;;
  if (n + np <=? npt)%Z then
    loop (2 * np)%Z npt (fun k _ =>
      let* iw := trunc npt (ndiv (nsub (nZ (k - np)) half) (nZ n)) in
      let ip := (k - np - iw * n)%Z in
      let iq := (ip + iw)%Z in
      let iq := if (n <? iq)%Z then (iq - n)%Z else iq in
      at1 ptsid k <~ $(nZ ip) + $(nZ iq) / $(nZ np) + $sfrac ;;
      let* temp := $one / (!(PTSAUX 1%Z ip) * !(PTSAUX 1%Z iq)) in
      ZMAT 1%Z (k - np)%Z <~ $temp ;;
      ZMAT (ip + 1)%Z (k - np)%Z <~ - $temp ;;
      ZMAT (iq + 1)%Z (k - np)%Z <~ - $temp ;;
      ZMAT k (k - np)%Z <~ $temp) tt
  else $tt.

(** bobyqa.c 2127-2158: label L80; [inr] for the return at line 2154 *)
Definition res_80 (kopt : Z) (v : rvars) : prog (rlabel * rvars + bool) :=
  let 'mkrv beta denom kold knew nrem := v in
  LOOP_ n (fun j =>
    let* temp := !(BMAT kold j) in
    BMAT kold j <~ !(BMAT knew j) ;;
    BMAT knew j <~ $temp) ;;
  LOOP_ nptm (fun j =>
    let* temp := !(ZMAT kold j) in
    ZMAT kold j <~ !(ZMAT knew j) ;;
    ZMAT knew j <~ $temp) ;;
  at1 ptsid kold <~ ptsid#knew ;;
  at1 ptsid knew <~ $zero ;;
  at1 w (ndim + knew)%Z <~ $zero ;;
  let nrem := (nrem - 1)%Z in
  if (knew =? kopt)%Z then $(inl (R120, mkrv beta denom kold knew nrem)) else
  let* temp := vlag#kold in
  at1 vlag kold <~ vlag#knew ;;
  at1 vlag knew <~ $temp ;;
  update n npt bmat zmat ndim vlag beta denom knew w ;;
  if (nrem =? 0)%Z then $(inr true) else
  LOOP_ npt (fun k => at1 w (ndim + k)%Z <~ eabs (w#(ndim + k)%Z)) ;;
  $(inl (R120, mkrv beta denom kold knew nrem)).

(** bobyqa.c 2165-2171: yields dsqmin and knew *)
Definition res_pick (knew : Z) : prog (N * Z) :=
  LOOP npt (fun k '(dsqmin, knew) =>
    If (w#(ndim + k)%Z >? $zero) && ($(neq dsqmin zero) || (w#(ndim + k)%Z <? $dsqmin)) Then
      let* dsqmin := w#(ndim + k)%Z in $(dsqmin, k)
    Else $(dsqmin, knew)) (zero, knew).

(** (INTEGER)ptsid[k] and (INTEGER)((REAL)np*ptsid[k] - (REAL)(ip*np)) *)
Definition res_ip (k : Z) : prog Z := let* v := ptsid#k in trunc n v.
Definition res_iq (k ip : Z) : prog Z := let* v := $(nZ np) * ptsid#k - $(nZ (ip * np)) in trunc n v.

(** bobyqa.c 2299-2382: the W-vector, VLAG, BETA and the choice of KOLD *)
Definition res_wvec (kopt knew : Z) : prog unit :=
  LOOP_ n (fun j => at1 w (npt + j)%Z <~ !(XPT knew j)) ;;
  LOOP_ npt (fun k =>
    let* sum :=
      if (k =? kopt)%Z then $zero
      else If ptsid#k =? $zero Then
        LOOP n (fun j sum => $sum + w#(npt + j)%Z * !(XPT k j)) zero
      Else
        let* ip := res_ip k in
        let* sum := if (0 <? ip)%Z then w#(npt + ip)%Z * !(PTSAUX 1%Z ip) else $zero in
        let* iq := res_iq k ip in
        if (0 <? iq)%Z then
          let iw := if (ip =? 0)%Z then 2%Z else 1%Z in
          $sum + w#(npt + iq)%Z * !(PTSAUX iw iq)
        else $sum in
    at1 w k <~ $half * $sum * $sum).

Definition res_vlag (kopt knew : Z) : prog N :=
  LOOP_ npt (fun k =>
    let* sum := LOOP n (fun j sum => $sum + !(BMAT k j) * w#(npt + j)%Z) zero in
    at1 vlag k <~ $sum) ;;
  let* beta := LOOP nptm (fun j beta =>
    let* sum := LOOP npt (fun k sum => $sum + !(ZMAT k j) * w#k) zero in
    let* beta := $beta - $sum * $sum in
    LOOP_ npt (fun k => at1 vlag k +~ $sum * !(ZMAT k j)) ;;
    $beta) zero in
  let* (bsum, distsq) := LOOP n (fun j '(bsum, distsq) =>
    let jp := (j + npt)%Z in
    let* sum := LOOP npt (fun k sum => $sum + !(BMAT k j) * w#k) zero in
    let* bsum := $bsum + $sum * w#jp in
    let* sum := loop (npt + 1)%Z ndim (fun ip sum => $sum + !(BMAT ip j) * w#ip) sum in
    let* bsum := $bsum + $sum * w#jp in
    at1 vlag jp <~ $sum ;;
    let* distsq := $distsq + !(XPT knew j) * !(XPT knew j) in
    $(bsum, distsq)) (zero, zero) in
  at1 vlag kopt +~ $one ;;
  $half * $distsq * $distsq + $beta - $bsum.

(** Yields denom, vlmxsq and kold *)
Definition res_kold (beta : N) (kold : Z) : prog (N * N * Z) :=
  LOOP npt (fun k '(denom, vlmxsq, kold) =>
    let* (denom, kold) :=
      (If ptsid#k =? $zero Then $(denom, kold)
       Else
         let* hdiag := LOOP nptm (fun j hdiag => $hdiag + !(ZMAT k j) * !(ZMAT k j)) zero in
         let* den := $beta * $hdiag + vlag#k * vlag#k in
         if nlt denom den then $(den, k) else $(denom, kold)) in
    let* vlmxsq := emax ($vlmxsq) (vlag#k * vlag#k) in
    $(denom, vlmxsq, kold)) (zero, zero, kold).

(** bobyqa.c 2161-2172 and 2299-2387: label L120; [inr] when all the final positions are chosen (line 2172) *)
Definition res_120 (kopt : Z) (winc : N) (v : rvars) : prog (rlabel * rvars + bool) :=
  let 'mkrv _ _ kold knew nrem := v in
  let* (dsqmin, knew) := res_pick knew in
  if neq dsqmin zero then $(inr false) else
  res_wvec kopt knew ;;
  let* beta := res_vlag kopt knew in
  let* (denom, vlmxsq, kold) := res_kold beta kold in
  if nle denom (nmul vlmxsq (nQ 1 100)) then
    at1 w (ndim + knew)%Z <~ - w#(ndim + knew)%Z - $winc ;;
    $(inl (R120, mkrv beta denom kold knew nrem))
  else $(inl (R80, mkrv beta denom kold knew nrem)).

Definition res_step (kopt : Z) (winc : N) (l : rlabel * rvars) : prog (rlabel * rvars + bool) :=
  let '(l, v) := l in
  match l with R80 => res_80 kopt v | R120 => res_120 kopt winc v end.

(** bobyqa.c 2188-2208: the new point KPT is put in XPT; yields ip, iq, xp and xq *)
Definition res_newpt (kpt : Z) (xp xq : N) : prog (Z * Z * N * N) :=
  LOOP n (fun j ih =>
    let* temp := !(XPT kpt j) in
    XPT kpt j <~ $zero ;;
    at1 w j <~ $temp ;;
    let* temp := $temp * pq#kpt in
    LOOP j (fun i ih =>
      let ih := (ih + 1)%Z in
      at1 hq ih +~ $temp * w#i ;;
      $ih) ih) 0%Z ;;
  at1 pq kpt <~ $zero ;;
  let* ip := res_ip kpt in
  let* iq := res_iq kpt ip in
  let* xp := if (0 <? ip)%Z then (let* xp := !(PTSAUX 1%Z ip) in XPT kpt ip <~ $xp ;; $xp) else $xp in
  let* xq := if (0 <? iq)%Z then
               (let* xq := !(PTSAUX (if (ip =? 0)%Z then 2%Z else 1%Z) iq) in XPT kpt iq <~ $xq ;; $xq)
             else $xq in
  $(ip, iq, xp, xq).

(** The index in HQ of the second derivative with respect to the variables ip and iq (lines 2220 and 2287) *)
Definition res_iw (ip iq : Z) : Z :=
  (Z.max (Z.quot (ip + ip * ip) 2) (Z.quot (iq + iq * iq) 2) - (if (iq <=? ip)%Z then ip - iq else iq - ip))%Z.

(** bobyqa.c 2211-2233: the value of the model at the new point *)
Definition res_vquad (ip iq : Z) (xp xq fbase : N) : prog N :=
  let* vquad :=
    if (0 <? ip)%Z then
      $fbase + $xp * (gopt#ip + $half * $xp * hq#(Z.quot (ip + ip * ip) 2))
    else $fbase in
  let* vquad :=
    if (0 <? iq)%Z then
      let* vquad := $vquad + $xq * (gopt#iq + $half * $xq * hq#(Z.quot (iq + iq * iq) 2)) in
      if (0 <? ip)%Z then $vquad + $xp * $xq * hq#(res_iw ip iq) else $vquad
    else $vquad in
  LOOP npt (fun k vquad =>
    let* temp := if (0 <? ip)%Z then $zero + $xp * !(XPT k ip) else $zero in
    let* temp := if (0 <? iq)%Z then $temp + $xq * !(XPT k iq) else $temp in
    $vquad + $half * pq#k * $temp * $temp) vquad.

(** bobyqa.c 2238-2243: the variables *)
Definition res_x (kpt : Z) : prog unit :=
  LOOP_ n (fun i =>
    let* temp := !(XPT kpt i) in
    at1 w i <~ (If $temp =? su#i Then xu#i
                Else If $temp =? sl#i Then xl#i
                Else eclamp (xbase#i + !(XPT kpt i)) (xl#i) (xu#i))).

(** bobyqa.c 2262-2292: update of the model *)
Definition res_model (kpt : Z) (diff : N) : prog unit :=
  LOOP_ n (fun i => at1 gopt i +~ $diff * !(BMAT kpt i)) ;;
  LOOP_ npt (fun k =>
    let* sum := LOOP nptm (fun j sum => $sum + !(ZMAT k j) * !(ZMAT kpt j)) zero in
    let* temp := $diff * $sum in
    If ptsid#k =? $zero Then at1 pq k +~ $temp
    Else
      let* ip := res_ip k in
      let* iq := res_iq k ip in
      let ihq := Z.quot (iq * iq + iq) 2 in
      if (ip =? 0)%Z then
        let* a := !(PTSAUX 2%Z iq) in
        at1 hq ihq +~ $temp * ($a * $a)
      else
        let* a := !(PTSAUX 1%Z ip) in
        let ihp := Z.quot (ip * ip + ip) 2 in
        at1 hq ihp +~ $temp * ($a * $a) ;;
        if (0 <? iq)%Z then
          let* b := !(PTSAUX 1%Z iq) in
          at1 hq ihq +~ $temp * ($b * $b) ;;
          at1 hq (res_iw ip iq) +~ $temp * $a * $b
        else $tt).

(** bobyqa.c 2180-2294: one pass of the cycle through the new interpolation points; the variables are *nf, *kopt, xp and
    xq; the exit is the return at line 2186 *)
Definition res_eval (fbase : N) (kpt : Z) (v : Z * Z * N * N) : prog (Z * Z * N * N + Z) :=
  let '(nf, kopt, xp, xq) := v in
  If ptsid#kpt =? $zero Then $(inl (nf, kopt, xp, xq)) Else
  if (maxfun <=? nf)%Z then $(inr kopt) else
  let* (ip, iq, xp, xq) := res_newpt kpt xp xq in
  let* vquad := res_vquad ip iq xp xq fbase in
  res_x kpt ;;
  let nf := (nf + 1)%Z in
  let* f := call_objfun ctx w in
  at1 fval kpt <~ $f ;;
  let* kopt := (If $f <? fval#kopt Then $kpt Else $kopt) in
  let* diff := $f - $vquad in
  res_model kpt diff ;;
  at1 ptsid kpt <~ $zero ;;
  $(inl (nf, kopt, xp, xq)).

(** The values of *nf and *kopt *)
Definition rescue (fuel : nat) (nf kopt : Z) : prog (Z * Z) :=
  let* winc := res_shift in
  res_base ;;
  let* fbase := fval#kopt in
  res_ids ;;
  let* all := machine fuel (res_step kopt winc) (R80, mkrv zero zero 1 kopt npt) in
  if all : bool then $(nf, kopt) else
  let* r := loopx 1 npt (res_eval fbase) (nf, kopt, zero, zero) in
  match r with
  | inl (nf, kopt, _, _) => $(nf, kopt)
  | inr kopt => $((-1)%Z, kopt)
  end.
End Rescue.

(** ** bobyqa.c 567-1358: bobyqb *)

(** The labels; [Bdone] is "done" *)
Inductive blabel := B20 | B60 | B90 | B190 | B210 | B230 | B360 | B650 | B680 | Bdone.

(** The local variables used across the labels *)
Record bvars := mkbv {
  b_adelt : N; b_alpha : N; b_beta : N; b_cauchy : N; b_crvmin : N; b_delta : N; b_denom : N; b_diffa : N; b_diffb : N;
  b_diffc : N; b_distsq : N; b_dnorm : N; b_dsq : N; b_f : N; b_fsave : N; b_ratio : N; b_rho : N; b_xoptsq : N;
  b_itest : Z; b_kbase : Z; b_knew : Z; b_kopt : Z; b_nf : Z; b_nfsav : Z; b_nresc : Z; b_ntrits : Z;
  b_status : bstatus
}.
Definition set_adelt (a : N) (v : bvars) : bvars :=
  mkbv a (b_alpha v) (b_beta v) (b_cauchy v) (b_crvmin v) (b_delta v) (b_denom v) (b_diffa v) (b_diffb v) (b_diffc v) (b_distsq v) (b_dnorm v) (b_dsq v) (b_f v) (b_fsave v) (b_ratio v) (b_rho v) (b_xoptsq v) (b_itest v) (b_kbase v) (b_knew v) (b_kopt v) (b_nf v) (b_nfsav v) (b_nresc v) (b_ntrits v) (b_status v).
Definition set_alpha (a : N) (v : bvars) : bvars :=
  mkbv (b_adelt v) a (b_beta v) (b_cauchy v) (b_crvmin v) (b_delta v) (b_denom v) (b_diffa v) (b_diffb v) (b_diffc v) (b_distsq v) (b_dnorm v) (b_dsq v) (b_f v) (b_fsave v) (b_ratio v) (b_rho v) (b_xoptsq v) (b_itest v) (b_kbase v) (b_knew v) (b_kopt v) (b_nf v) (b_nfsav v) (b_nresc v) (b_ntrits v) (b_status v).
Definition set_beta (a : N) (v : bvars) : bvars :=
  mkbv (b_adelt v) (b_alpha v) a (b_cauchy v) (b_crvmin v) (b_delta v) (b_denom v) (b_diffa v) (b_diffb v) (b_diffc v) (b_distsq v) (b_dnorm v) (b_dsq v) (b_f v) (b_fsave v) (b_ratio v) (b_rho v) (b_xoptsq v) (b_itest v) (b_kbase v) (b_knew v) (b_kopt v) (b_nf v) (b_nfsav v) (b_nresc v) (b_ntrits v) (b_status v).
Definition set_cauchy (a : N) (v : bvars) : bvars :=
  mkbv (b_adelt v) (b_alpha v) (b_beta v) a (b_crvmin v) (b_delta v) (b_denom v) (b_diffa v) (b_diffb v) (b_diffc v) (b_distsq v) (b_dnorm v) (b_dsq v) (b_f v) (b_fsave v) (b_ratio v) (b_rho v) (b_xoptsq v) (b_itest v) (b_kbase v) (b_knew v) (b_kopt v) (b_nf v) (b_nfsav v) (b_nresc v) (b_ntrits v) (b_status v).
Definition set_crvmin (a : N) (v : bvars) : bvars :=
  mkbv (b_adelt v) (b_alpha v) (b_beta v) (b_cauchy v) a (b_delta v) (b_denom v) (b_diffa v) (b_diffb v) (b_diffc v) (b_distsq v) (b_dnorm v) (b_dsq v) (b_f v) (b_fsave v) (b_ratio v) (b_rho v) (b_xoptsq v) (b_itest v) (b_kbase v) (b_knew v) (b_kopt v) (b_nf v) (b_nfsav v) (b_nresc v) (b_ntrits v) (b_status v).
Definition set_delta (a : N) (v : bvars) : bvars :=
  mkbv (b_adelt v) (b_alpha v) (b_beta v) (b_cauchy v) (b_crvmin v) a (b_denom v) (b_diffa v) (b_diffb v) (b_diffc v) (b_distsq v) (b_dnorm v) (b_dsq v) (b_f v) (b_fsave v) (b_ratio v) (b_rho v) (b_xoptsq v) (b_itest v) (b_kbase v) (b_knew v) (b_kopt v) (b_nf v) (b_nfsav v) (b_nresc v) (b_ntrits v) (b_status v).
Definition set_denom (a : N) (v : bvars) : bvars :=
  mkbv (b_adelt v) (b_alpha v) (b_beta v) (b_cauchy v) (b_crvmin v) (b_delta v) a (b_diffa v) (b_diffb v) (b_diffc v) (b_distsq v) (b_dnorm v) (b_dsq v) (b_f v) (b_fsave v) (b_ratio v) (b_rho v) (b_xoptsq v) (b_itest v) (b_kbase v) (b_knew v) (b_kopt v) (b_nf v) (b_nfsav v) (b_nresc v) (b_ntrits v) (b_status v).
Definition set_diffa (a : N) (v : bvars) : bvars :=
  mkbv (b_adelt v) (b_alpha v) (b_beta v) (b_cauchy v) (b_crvmin v) (b_delta v) (b_denom v) a (b_diffb v) (b_diffc v) (b_distsq v) (b_dnorm v) (b_dsq v) (b_f v) (b_fsave v) (b_ratio v) (b_rho v) (b_xoptsq v) (b_itest v) (b_kbase v) (b_knew v) (b_kopt v) (b_nf v) (b_nfsav v) (b_nresc v) (b_ntrits v) (b_status v).
Definition set_diffb (a : N) (v : bvars) : bvars :=
  mkbv (b_adelt v) (b_alpha v) (b_beta v) (b_cauchy v) (b_crvmin v) (b_delta v) (b_denom v) (b_diffa v) a (b_diffc v) (b_distsq v) (b_dnorm v) (b_dsq v) (b_f v) (b_fsave v) (b_ratio v) (b_rho v) (b_xoptsq v) (b_itest v) (b_kbase v) (b_knew v) (b_kopt v) (b_nf v) (b_nfsav v) (b_nresc v) (b_ntrits v) (b_status v).
Definition set_diffc (a : N) (v : bvars) : bvars :=
  mkbv (b_adelt v) (b_alpha v) (b_beta v) (b_cauchy v) (b_crvmin v) (b_delta v) (b_denom v) (b_diffa v) (b_diffb v) a (b_distsq v) (b_dnorm v) (b_dsq v) (b_f v) (b_fsave v) (b_ratio v) (b_rho v) (b_xoptsq v) (b_itest v) (b_kbase v) (b_knew v) (b_kopt v) (b_nf v) (b_nfsav v) (b_nresc v) (b_ntrits v) (b_status v).
Definition set_distsq (a : N) (v : bvars) : bvars :=
  mkbv (b_adelt v) (b_alpha v) (b_beta v) (b_cauchy v) (b_crvmin v) (b_delta v) (b_denom v) (b_diffa v) (b_diffb v) (b_diffc v) a (b_dnorm v) (b_dsq v) (b_f v) (b_fsave v) (b_ratio v) (b_rho v) (b_xoptsq v) (b_itest v) (b_kbase v) (b_knew v) (b_kopt v) (b_nf v) (b_nfsav v) (b_nresc v) (b_ntrits v) (b_status v).
Definition set_dnorm (a : N) (v : bvars) : bvars :=
  mkbv (b_adelt v) (b_alpha v) (b_beta v) (b_cauchy v) (b_crvmin v) (b_delta v) (b_denom v) (b_diffa v) (b_diffb v) (b_diffc v) (b_distsq v) a (b_dsq v) (b_f v) (b_fsave v) (b_ratio v) (b_rho v) (b_xoptsq v) (b_itest v) (b_kbase v) (b_knew v) (b_kopt v) (b_nf v) (b_nfsav v) (b_nresc v) (b_ntrits v) (b_status v).
Definition set_dsq (a : N) (v : bvars) : bvars :=
  mkbv (b_adelt v) (b_alpha v) (b_beta v) (b_cauchy v) (b_crvmin v) (b_delta v) (b_denom v) (b_diffa v) (b_diffb v) (b_diffc v) (b_distsq v) (b_dnorm v) a (b_f v) (b_fsave v) (b_ratio v) (b_rho v) (b_xoptsq v) (b_itest v) (b_kbase v) (b_knew v) (b_kopt v) (b_nf v) (b_nfsav v) (b_nresc v) (b_ntrits v) (b_status v).
Definition set_f (a : N) (v : bvars) : bvars :=
  mkbv (b_adelt v) (b_alpha v) (b_beta v) (b_cauchy v) (b_crvmin v) (b_delta v) (b_denom v) (b_diffa v) (b_diffb v) (b_diffc v) (b_distsq v) (b_dnorm v) (b_dsq v) a (b_fsave v) (b_ratio v) (b_rho v) (b_xoptsq v) (b_itest v) (b_kbase v) (b_knew v) (b_kopt v) (b_nf v) (b_nfsav v) (b_nresc v) (b_ntrits v) (b_status v).
Definition set_fsave (a : N) (v : bvars) : bvars :=
  mkbv (b_adelt v) (b_alpha v) (b_beta v) (b_cauchy v) (b_crvmin v) (b_delta v) (b_denom v) (b_diffa v) (b_diffb v) (b_diffc v) (b_distsq v) (b_dnorm v) (b_dsq v) (b_f v) a (b_ratio v) (b_rho v) (b_xoptsq v) (b_itest v) (b_kbase v) (b_knew v) (b_kopt v) (b_nf v) (b_nfsav v) (b_nresc v) (b_ntrits v) (b_status v).
Definition set_ratio (a : N) (v : bvars) : bvars :=
  mkbv (b_adelt v) (b_alpha v) (b_beta v) (b_cauchy v) (b_crvmin v) (b_delta v) (b_denom v) (b_diffa v) (b_diffb v) (b_diffc v) (b_distsq v) (b_dnorm v) (b_dsq v) (b_f v) (b_fsave v) a (b_rho v) (b_xoptsq v) (b_itest v) (b_kbase v) (b_knew v) (b_kopt v) (b_nf v) (b_nfsav v) (b_nresc v) (b_ntrits v) (b_status v).
Definition set_rho (a : N) (v : bvars) : bvars :=
  mkbv (b_adelt v) (b_alpha v) (b_beta v) (b_cauchy v) (b_crvmin v) (b_delta v) (b_denom v) (b_diffa v) (b_diffb v) (b_diffc v) (b_distsq v) (b_dnorm v) (b_dsq v) (b_f v) (b_fsave v) (b_ratio v) a (b_xoptsq v) (b_itest v) (b_kbase v) (b_knew v) (b_kopt v) (b_nf v) (b_nfsav v) (b_nresc v) (b_ntrits v) (b_status v).
Definition set_xoptsq (a : N) (v : bvars) : bvars :=
  mkbv (b_adelt v) (b_alpha v) (b_beta v) (b_cauchy v) (b_crvmin v) (b_delta v) (b_denom v) (b_diffa v) (b_diffb v) (b_diffc v) (b_distsq v) (b_dnorm v) (b_dsq v) (b_f v) (b_fsave v) (b_ratio v) (b_rho v) a (b_itest v) (b_kbase v) (b_knew v) (b_kopt v) (b_nf v) (b_nfsav v) (b_nresc v) (b_ntrits v) (b_status v).
Definition set_itest (a : Z) (v : bvars) : bvars :=
  mkbv (b_adelt v) (b_alpha v) (b_beta v) (b_cauchy v) (b_crvmin v) (b_delta v) (b_denom v) (b_diffa v) (b_diffb v) (b_diffc v) (b_distsq v) (b_dnorm v) (b_dsq v) (b_f v) (b_fsave v) (b_ratio v) (b_rho v) (b_xoptsq v) a (b_kbase v) (b_knew v) (b_kopt v) (b_nf v) (b_nfsav v) (b_nresc v) (b_ntrits v) (b_status v).
Definition set_kbase (a : Z) (v : bvars) : bvars :=
  mkbv (b_adelt v) (b_alpha v) (b_beta v) (b_cauchy v) (b_crvmin v) (b_delta v) (b_denom v) (b_diffa v) (b_diffb v) (b_diffc v) (b_distsq v) (b_dnorm v) (b_dsq v) (b_f v) (b_fsave v) (b_ratio v) (b_rho v) (b_xoptsq v) (b_itest v) a (b_knew v) (b_kopt v) (b_nf v) (b_nfsav v) (b_nresc v) (b_ntrits v) (b_status v).
Definition set_knew (a : Z) (v : bvars) : bvars :=
  mkbv (b_adelt v) (b_alpha v) (b_beta v) (b_cauchy v) (b_crvmin v) (b_delta v) (b_denom v) (b_diffa v) (b_diffb v) (b_diffc v) (b_distsq v) (b_dnorm v) (b_dsq v) (b_f v) (b_fsave v) (b_ratio v) (b_rho v) (b_xoptsq v) (b_itest v) (b_kbase v) a (b_kopt v) (b_nf v) (b_nfsav v) (b_nresc v) (b_ntrits v) (b_status v).
Definition set_kopt (a : Z) (v : bvars) : bvars :=
  mkbv (b_adelt v) (b_alpha v) (b_beta v) (b_cauchy v) (b_crvmin v) (b_delta v) (b_denom v) (b_diffa v) (b_diffb v) (b_diffc v) (b_distsq v) (b_dnorm v) (b_dsq v) (b_f v) (b_fsave v) (b_ratio v) (b_rho v) (b_xoptsq v) (b_itest v) (b_kbase v) (b_knew v) a (b_nf v) (b_nfsav v) (b_nresc v) (b_ntrits v) (b_status v).
Definition set_nf (a : Z) (v : bvars) : bvars :=
  mkbv (b_adelt v) (b_alpha v) (b_beta v) (b_cauchy v) (b_crvmin v) (b_delta v) (b_denom v) (b_diffa v) (b_diffb v) (b_diffc v) (b_distsq v) (b_dnorm v) (b_dsq v) (b_f v) (b_fsave v) (b_ratio v) (b_rho v) (b_xoptsq v) (b_itest v) (b_kbase v) (b_knew v) (b_kopt v) a (b_nfsav v) (b_nresc v) (b_ntrits v) (b_status v).
Definition set_nfsav (a : Z) (v : bvars) : bvars :=
  mkbv (b_adelt v) (b_alpha v) (b_beta v) (b_cauchy v) (b_crvmin v) (b_delta v) (b_denom v) (b_diffa v) (b_diffb v) (b_diffc v) (b_distsq v) (b_dnorm v) (b_dsq v) (b_f v) (b_fsave v) (b_ratio v) (b_rho v) (b_xoptsq v) (b_itest v) (b_kbase v) (b_knew v) (b_kopt v) (b_nf v) a (b_nresc v) (b_ntrits v) (b_status v).
Definition set_nresc (a : Z) (v : bvars) : bvars :=
  mkbv (b_adelt v) (b_alpha v) (b_beta v) (b_cauchy v) (b_crvmin v) (b_delta v) (b_denom v) (b_diffa v) (b_diffb v) (b_diffc v) (b_distsq v) (b_dnorm v) (b_dsq v) (b_f v) (b_fsave v) (b_ratio v) (b_rho v) (b_xoptsq v) (b_itest v) (b_kbase v) (b_knew v) (b_kopt v) (b_nf v) (b_nfsav v) a (b_ntrits v) (b_status v).
Definition set_ntrits (a : Z) (v : bvars) : bvars :=
  mkbv (b_adelt v) (b_alpha v) (b_beta v) (b_cauchy v) (b_crvmin v) (b_delta v) (b_denom v) (b_diffa v) (b_diffb v) (b_diffc v) (b_distsq v) (b_dnorm v) (b_dsq v) (b_f v) (b_fsave v) (b_ratio v) (b_rho v) (b_xoptsq v) (b_itest v) (b_kbase v) (b_knew v) (b_kopt v) (b_nf v) (b_nfsav v) (b_nresc v) a (b_status v).
Definition set_status (a : bstatus) (v : bvars) : bvars :=
  mkbv (b_adelt v) (b_alpha v) (b_beta v) (b_cauchy v) (b_crvmin v) (b_delta v) (b_denom v) (b_diffa v) (b_diffb v) (b_diffc v) (b_distsq v) (b_dnorm v) (b_dsq v) (b_f v) (b_fsave v) (b_ratio v) (b_rho v) (b_xoptsq v) (b_itest v) (b_kbase v) (b_knew v) (b_kopt v) (b_nf v) (b_nfsav v) (b_nresc v) (b_ntrits v) a.

Section Bobyqb.
Variables (n npt : Z) (ctx : context) (x xl xu : Z) (rhobeg rhoend : N) (maxfun : Z).
Variables (xbase xpt fval xopt gopt hq pq bmat zmat ndim sl su xnew xalt d vlag w : Z).
Let XPT := at2 xpt npt.
Let BMAT := at2 bmat ndim.
Let ZMAT := at2 zmat npt.
Let np := (n + 1)%Z.
Let nptm := (npt - np)%Z.
Let nh := (n * np / 2)%Z.
Notation bprog := (prog (blabel * bvars + bvars)).
Definition goto (l : blabel) (v : bvars) : bprog := $(inl (l, v)).
(** The labels too_many_evaluations, cancellation_of_denominator and step_failed, lines 1337-1356 *)
Definition fail (st : bstatus) (v : bvars) : bprog := goto Bdone (set_status st v).

(** bobyqa.c 640-662: from PRELIM to L20.  [ratio], [beta], [crvmin], [dnorm], [dsq], [distsq] and [kbase] are not set yet. *)
Definition bq_start : bprog :=
  let* (nf, kopt) := prelim n npt ctx x xl xu rhobeg maxfun xbase xpt fval gopt hq pq bmat zmat ndim sl su in
  let* xoptsq := LOOP n (fun i xoptsq =>
    at1 xopt i <~ !(XPT kopt i) ;;
    $xoptsq + xopt#i * xopt#i) zero in
  let* fsave := fval#1 in
  let v := mkbv zero zero zero zero zero rhobeg zero zero zero zero zero zero zero zero fsave zero rhobeg xoptsq
             0 1 0 kopt nf nf nf 0 BQ_SUCCESS in
  if (nf <? npt)%Z then fail BQ_TOO_MANY_EVALUATIONS v else goto B20 v.

(** The change of GOPT due to a move of the base along the vector s: lines 668-689 and 1138-1160 *)
Definition bq_gopt_hq (s : Z) : prog unit :=
  LOOP n (fun j ih =>
    LOOP j (fun i ih =>
      let ih := (ih + 1)%Z in
      (if (i <? j)%Z then at1 gopt j +~ hq#ih * s#i else $tt) ;;
      at1 gopt i +~ hq#ih * s#j ;;
      $ih) ih) 0%Z ;;
  $tt.
Definition bq_gopt_pq (s : Z) : prog unit :=
  LOOP_ npt (fun k =>
    let* temp := LOOP n (fun j temp => $temp + !(XPT k j) * s#j) zero in
    let* temp := $temp * pq#k in
    LOOP_ n (fun i => at1 gopt i +~ $temp * !(XPT k i))).

(** bobyqa.c 666-690: label L20 *)
Definition bq_20 (v : bvars) : bprog :=
  (if (b_kopt v =? b_kbase v)%Z then $tt
   else
     bq_gopt_hq xopt ;;
     if (npt <? b_nf v)%Z then bq_gopt_pq xopt else $tt) ;;
  goto B60 v.

(** bobyqa.c 698-738: label L60 *)
Definition bq_60 (fuel : nat) (v : bvars) : bprog :=
  let* (dsq, crvmin) := trsbox n npt xpt xopt gopt hq pq sl su (b_delta v) xnew d w (at1 w np) (at1 w (np + n))
                          (at1 w (np + 2 * n)) (at1 w (np + n * 3)) fuel in
  let dnorm := bmin (nsqrt dsq) (b_delta v) in
  let rho := b_rho v in
  let v := set_dsq dsq (set_crvmin crvmin (set_dnorm dnorm v)) in
  if nlt dnorm (nmul half rho) then
    let v := set_ntrits (-1) (set_distsq (nmul (nmul (nZ 100) rho) rho) v) in
    if (b_nf v <=? b_nfsav v + 2)%Z then goto B650 v else
    let errbig := bmax (bmax (b_diffa v) (b_diffb v)) (b_diffc v) in
    let frhosq := nmul (nmul rho (nQ 1 8)) rho in
    if (nlt zero crvmin && nlt (nmul frhosq crvmin) errbig)%bool then goto B650 v else
    let bdtol := ndiv errbig rho in
    let* r := loopx 1 n (fun j _ =>
      let* bdtest := (If xnew#j =? su#j Then - w#j Else If xnew#j =? sl#j Then w#j Else $bdtol) in
      if nlt bdtest bdtol then
        let* curv := hq#(Z.quot (j + j * j) 2) in
        let* curv := LOOP npt (fun k curv => $curv + pq#k * (!(XPT k j) * !(XPT k j))) curv in
        let* bdtest := $bdtest + $half * $curv * $rho in
        if nlt bdtest bdtol then $(inr tt) else $(inl tt)
      else $(inl tt)) tt in
    match r with
    | inr _ => goto B650 v
    | inl _ => goto B680 v
    end
  else goto B90 (set_ntrits (b_ntrits v + 1) v).

(** bobyqa.c 747-817: the shift of XBASE *)
Definition bq_shift (xoptsq : N) : prog unit :=
  let* fracsq := $xoptsq * $(nQ 1 4) in
  let* sumpq := LOOP npt (fun k sumpq =>
    let* sum := LOOP n (fun i sum => $sum + !(XPT k i) * xopt#i) (nmul (nopp half) xoptsq) in
    let* sumpq := $sumpq + pq#k in
    at1 w (npt + k)%Z <~ $sum ;;
    let* temp := $fracsq - $half * $sum in
    LOOP_ n (fun i =>
      let ip := (npt + i)%Z in
      at1 w i <~ !(BMAT k i) ;;
      at1 vlag i <~ $sum * !(XPT k i) + $temp * xopt#i ;;
      LOOP_ i (fun j => BMAT ip j <~ !(BMAT ip j) + w#i * vlag#j + vlag#i * w#j)) ;;
    $sumpq) zero in
  LOOP_ nptm (fun jj =>
    let* (sumz, sumw) := LOOP npt (fun k '(sumz, sumw) =>
      let* sumz := $sumz + !(ZMAT k jj) in
      at1 vlag k <~ w#(npt + k)%Z * !(ZMAT k jj) ;;
      let* sumw := $sumw + vlag#k in
      $(sumz, sumw)) (zero, zero) in
    LOOP_ n (fun j =>
      let* sum := ($fracsq * $sumz - $half * $sumw) * xopt#j in
      let* sum := LOOP npt (fun k sum => $sum + vlag#k * !(XPT k j)) sum in
      at1 w j <~ $sum ;;
      LOOP_ npt (fun k => BMAT k j +~ $sum * !(ZMAT k jj))) ;;
    LOOP_ n (fun i =>
      let* temp := w#i in
      let ip := (i + npt)%Z in
      LOOP_ i (fun j => BMAT ip j +~ $temp * w#j))) ;;
  LOOP n (fun j ih =>
    at1 w j <~ - $half * $sumpq * xopt#j ;;
    LOOP_ npt (fun k =>
      at1 w j +~ pq#k * !(XPT k j) ;;
      XPT k j -~ xopt#j) ;;
    LOOP j (fun i ih =>
      let ih := (ih + 1)%Z in
      at1 hq ih <~ hq#ih + w#i * xopt#j + xopt#i * w#j ;;
      BMAT (npt + i)%Z j <~ !(BMAT (npt + j)%Z i) ;;
      $ih) ih) 0%Z ;;
  LOOP_ n (fun i =>
    at1 xbase i +~ xopt#i ;;
    at1 xnew i -~ xopt#i ;;
    at1 sl i -~ xopt#i ;;
    at1 su i -~ xopt#i ;;
    at1 xopt i <~ $zero).

(** bobyqa.c 745-822: label L90 *)
Definition bq_90 (v : bvars) : bprog :=
  let* v := if nle (b_dsq v) (nmul (b_xoptsq v) (nQ 1 1000)) then
              bq_shift (b_xoptsq v) ;; $(set_xoptsq zero v)
            else $v in
  if (b_ntrits v =? 0)%Z then goto B210 v else goto B230 v.

(** bobyqa.c 832-862: label L190 *)
Definition bq_190 (fuel : nat) (v : bvars) : bprog :=
  let nfsav := b_nf v in
  let kbase := b_kopt v in
  let* (nf, kopt) := rescue n npt ctx xl xu maxfun xbase xpt fval xopt gopt hq pq bmat zmat ndim sl su (b_delta v) vlag w
                       (at1 w (n + np)) (at1 w (ndim + np)) fuel (b_nf v) (b_kopt v) in
  let* xoptsq := if (kopt =? kbase)%Z then $zero
                 else LOOP n (fun i xoptsq =>
                   let* temp := !(XPT kopt i) in
                   at1 xopt i <~ $temp ;;
                   $xoptsq + $temp * $temp) zero in
  let v := set_nfsav nfsav (set_kbase kbase (set_nf nf (set_kopt kopt (set_xoptsq xoptsq v)))) in
  if (nf <? 0)%Z then fail BQ_TOO_MANY_EVALUATIONS (set_nf maxfun v) else
  let v := set_nresc nf v in
  if (nfsav <? nf)%Z then goto B20 (set_nfsav nf v)
  else if (0 <? b_ntrits v)%Z then goto B60 v
  else goto B210 v.

(** bobyqa.c 874-880: label L210 *)
Definition bq_210 (fuel : nat) (v : bvars) : bprog :=
  let* (alpha, cauchy) := altmov n npt xpt xopt bmat zmat ndim sl su (b_kopt v) (b_knew v) (b_adelt v) xnew xalt w (at1 w np)
                            (at1 w (ndim + 1)) fuel in
  LOOP_ n (fun i => at1 d i <~ xnew#i - xopt#i) ;;
  goto B230 (set_alpha alpha (set_cauchy cauchy v)).

(** bobyqa.c 886-927: VLAG and BETA for the current choice of D; yields beta and dsq *)
Definition bq_vlag (kopt : Z) (xoptsq : N) : prog (N * N) :=
  LOOP_ npt (fun k =>
    let* (suma, sumb, sumc) := LOOP n (fun j '(suma, sumb, sumc) =>
      let* suma := $suma + !(XPT k j) * d#j in
      let* sumb := $sumb + !(XPT k j) * xopt#j in
      let* sumc := $sumc + !(BMAT k j) * d#j in
      $(suma, sumb, sumc)) (zero, zero, zero) in
    at1 w k <~ $suma * ($half * $suma + $sumb) ;;
    at1 vlag k <~ $sumc ;;
    at1 w (npt + k)%Z <~ $suma) ;;
  let* beta := LOOP nptm (fun jj beta =>
    let* sum := LOOP npt (fun k sum => $sum + !(ZMAT k jj) * w#k) zero in
    let* beta := $beta - $sum * $sum in
    LOOP_ npt (fun k => at1 vlag k +~ $sum * !(ZMAT k jj)) ;;
    $beta) zero in
  let* (dsq, bsum, dx) := LOOP n (fun j '(dsq, bsum, dx) =>
    let jp := (npt + j)%Z in
    let* sum := LOOP npt (fun k sum => $sum + w#k * !(BMAT k j)) zero in
    let* dsq := $dsq + d#j * d#j in
    let* bsum := $bsum + $sum * d#j in
    let* sum := LOOP n (fun i sum => $sum + !(BMAT jp i) * d#i) sum in
    at1 vlag jp <~ $sum ;;
    let* bsum := $bsum + $sum * d#j in
    let* dx := $dx + d#j * xopt#j in
    $(dsq, bsum, dx)) (zero, zero, zero) in
  at1 vlag kopt +~ $one ;;
  let* beta := $dx * $dx + $dsq * ($xoptsq + $dx + $dx + $half * $dsq) + $beta - $bsum in
  $(beta, dsq).

(** bobyqa.c 953-979 and 1057-1081: the choice of KNEW; [skip] is kopt in the former case and 0 in the latter, [xv] is xopt
    or xnew.  Yields scaden, biglsq, knew and denom; [distsq] is not kept, it is set again before its next use. *)
Definition bq_scan (skip xv : Z) (delta beta denom : N) : prog (N * N * Z * N) :=
  let delsq := nmul delta delta in
  LOOP npt (fun k '(scaden, biglsq, knew, denom) =>
    if (k =? skip)%Z then $(scaden, biglsq, knew, denom) else
    let* hdiag := LOOP nptm (fun j hdiag => $hdiag + !(ZMAT k j) * !(ZMAT k j)) zero in
    let* den := $beta * $hdiag + vlag#k * vlag#k in
    let* distsq := LOOP n (fun j distsq =>
      let* temp := !(XPT k j) - xv#j in
      $distsq + $temp * $temp) zero in
    let* temp := $distsq / $delsq in
    let* temp := emax ($one) ($temp * $temp) in
    let '(scaden, knew, denom) :=
      if nlt scaden (nmul temp den) then (nmul temp den, k, den) else (scaden, knew, denom) in
    let* temp := $temp * (vlag#k * vlag#k) in
    let* biglsq := emax ($biglsq) ($temp) in
    $(scaden, biglsq, knew, denom)) (zero, zero, 0%Z, denom).

(** bobyqa.c 885-986: label L230 *)
Definition bq_230 (v : bvars) : bprog :=
  let* (beta, dsq) := bq_vlag (b_kopt v) (b_xoptsq v) in
  let v := set_beta beta (set_dsq dsq v) in
  let knew := b_knew v in
  if (b_ntrits v =? 0)%Z then
    let* denom := vlag#knew * vlag#knew + $(b_alpha v) * $beta in
    let v := set_denom denom v in
    if (nlt denom (b_cauchy v) && nlt zero (b_cauchy v))%bool then
      LOOP_ n (fun i => at1 xnew i <~ xalt#i ;; at1 d i <~ xnew#i - xopt#i) ;;
      goto B230 (set_cauchy zero v)
    else
      If $denom <=? $half * (vlag#knew * vlag#knew) Then
        (if (b_nresc v <? b_nf v)%Z then goto B190 v else fail BQ_ROUNDING_ERRORS v)
      Else goto B360 v
  else
    let* (scaden, biglsq, knew, denom) := bq_scan (b_kopt v) xopt (b_delta v) beta (b_denom v) in
    let v := set_knew knew (set_denom denom v) in
    if nle scaden (nmul half biglsq) then
      (if (b_nresc v <? b_nf v)%Z then goto B190 v else fail BQ_ROUNDING_ERRORS v)
    else goto B360 v.

(** bobyqa.c 994-998 and 1315-1319: the variables for the displacement xv from XBASE *)
Definition bq_x (xv : Z) : prog unit :=
  LOOP_ n (fun i =>
    at1 x i <~ (If xv#i =? su#i Then xu#i
                Else If xv#i =? sl#i Then xl#i
                Else eclamp (xbase#i + xv#i) (xl#i) (xu#i))).

(** bobyqa.c 1019-1031: the change of the model *)
Definition bq_vquad : prog N :=
  let* (vquad, _) := LOOP n (fun j '(vquad, ih) =>
    let* vquad := $vquad + d#j * gopt#j in
    LOOP j (fun i '(vquad, ih) =>
      let* temp := d#i * d#j in
      let ih := (ih + 1)%Z in
      let* vquad := $vquad + hq#ih * (if (i =? j)%Z then $half * $temp else $temp) in
      $(vquad, ih)) (vquad, ih)) (zero, 0%Z) in
  LOOP npt (fun k vquad => $vquad + $half * pq#k * (w#(npt + k)%Z * w#(npt + k)%Z)) vquad.

(** bobyqa.c 1091-1132: update of BMAT, ZMAT and of the model for the new point KNEW *)
Definition bq_move (beta denom diff f : N) (knew : Z) : prog unit :=
  update n npt bmat zmat ndim vlag beta denom knew w ;;
  let* pqold := pq#knew in
  at1 pq knew <~ $zero ;;
  LOOP n (fun i ih =>
    let* temp := $pqold * !(XPT knew i) in
    LOOP i (fun j ih =>
      let ih := (ih + 1)%Z in
      at1 hq ih +~ $temp * !(XPT knew j) ;;
      $ih) ih) 0%Z ;;
  LOOP_ nptm (fun j =>
    let* temp := $diff * !(ZMAT knew j) in
    LOOP_ npt (fun k => at1 pq k +~ $temp * !(ZMAT k j))) ;;
  at1 fval knew <~ $f ;;
  LOOP_ n (fun i =>
    XPT knew i <~ xnew#i ;;
    at1 w i <~ !(BMAT knew i)) ;;
  LOOP_ npt (fun k =>
    let* suma := LOOP nptm (fun j suma => $suma + !(ZMAT knew j) * !(ZMAT k j)) zero in
    let* sumb := LOOP n (fun j sumb => $sumb + !(XPT k j) * xopt#j) zero in
    let* temp := $suma * $sumb in
    LOOP_ n (fun i => at1 w i +~ $temp * !(XPT k i))) ;;
  LOOP_ n (fun i => at1 gopt i +~ $diff * w#i).

(** bobyqa.c 1135-1161: XOPT and GOPT when the new value is less than FOPT; yields xoptsq *)
Definition bq_newopt : prog N :=
  let* (xoptsq, _) := LOOP n (fun j '(xoptsq, ih) =>
    let* temp := xnew#j in
    at1 xopt j <~ $temp ;;
    let* xoptsq := $xoptsq + $temp * $temp in
    let* ih := LOOP j (fun i ih =>
      let ih := (ih + 1)%Z in
      (if (i <? j)%Z then at1 gopt j +~ hq#ih * d#i else $tt) ;;
      at1 gopt i +~ hq#ih * d#j ;;
      $ih) ih in
    $(xoptsq, ih)) (zero, 0%Z) in
  bq_gopt_pq d ;;
  $xoptsq.

(** bobyqa.c 1166-1229: the least Frobenius norm interpolant; yields itest *)
Definition bq_frob (kopt itest : Z) : prog Z :=
  LOOP_ npt (fun k =>
    at1 vlag k <~ fval#k - fval#kopt ;;
    at1 w k <~ $zero) ;;
  LOOP_ nptm (fun j =>
    let* sum := LOOP npt (fun k sum => $sum + !(ZMAT k j) * vlag#k) zero in
    LOOP_ npt (fun k => at1 w k +~ $sum * !(ZMAT k j))) ;;
  LOOP_ npt (fun k =>
    let* sum := LOOP n (fun j sum => $sum + !(XPT k j) * xopt#j) zero in
    at1 w (k + npt)%Z <~ w#k ;;
    at1 w k <~ w#k * $sum) ;;
  let* (gqsq, gisq) := LOOP n (fun i '(gqsq, gisq) =>
    let* sum := LOOP npt (fun k sum => $sum + !(BMAT k i) * vlag#k + !(XPT k i) * w#k) zero in
    let* (tempa, tempb) :=
      (If xopt#i =? sl#i Then
         let* a := emin ($zero) (gopt#i) in let* b := emin ($zero) ($sum) in $(a, b)
       Else If xopt#i =? su#i Then
         let* a := emax ($zero) (gopt#i) in let* b := emax ($zero) ($sum) in $(a, b)
       Else let* a := gopt#i in $(a, sum)) in
    let* gqsq := $gqsq + $tempa * $tempa in
    let* gisq := $gisq + $tempb * $tempb in
    at1 vlag (npt + i)%Z <~ $sum ;;
    $(gqsq, gisq)) (zero, zero) in
  let itest := if nlt gqsq (nmul ten gisq) then 0%Z else (itest + 1)%Z in
  if (3 <=? itest)%Z then
    LOOP_ (Z.max npt nh) (fun i =>
      (if (i <=? n)%Z then at1 gopt i <~ vlag#(npt + i)%Z else $tt) ;;
      (if (i <=? npt)%Z then at1 pq i <~ w#(npt + i)%Z else $tt) ;;
      (if (i <=? nh)%Z then at1 hq i <~ $zero else $tt)) ;;
    $0%Z
  else $itest.

(** bobyqa.c 1011-1242: what follows the evaluation of f at L360 *)
Definition bq_after (f : N) (v : bvars) : bprog :=
  if (b_ntrits v =? -1)%Z then goto Bdone (set_fsave f v) else
  let* fopt := fval#(b_kopt v) in
  let* vquad := bq_vquad in
  let diff := nsub (nsub f fopt) vquad in
  let v := set_diffa (nabs diff) (set_diffb (b_diffa v) (set_diffc (b_diffb v) v)) in
  let v := if nlt (b_rho v) (b_dnorm v) then set_nfsav (b_nf v) v else v in
  if ((0 <? b_ntrits v)%Z && nle zero vquad)%bool then fail BQ_STEP_FAILED v else
  let* v :=
    if (0 <? b_ntrits v)%Z then
      let ratio := ndiv (nsub f fopt) vquad in
      let dnorm := b_dnorm v in
      let hd := nmul (b_delta v) half in
      let delta := if nle ratio tenth then bmin hd dnorm
                   else if nle ratio (nQ 7 10) then bmax hd dnorm
                   else bmax hd (nadd dnorm dnorm) in
      let delta := if nle delta (nmul (b_rho v) (nQ 3 2)) then b_rho v else delta in
      let v := set_ratio ratio (set_delta delta v) in
      if nlt f fopt then
        let* (scaden, biglsq, knew, denom) := bq_scan 0 xnew delta (b_beta v) (b_denom v) in
        if nle scaden (nmul half biglsq) then $v else $(set_knew knew (set_denom denom v))
      else $v
    else $v in
  bq_move (b_beta v) (b_denom v) diff f (b_knew v) ;;
  let* v := if nlt f fopt then (let* xoptsq := bq_newopt in $(set_kopt (b_knew v) (set_xoptsq xoptsq v))) else $v in
  let* v := if (0 <? b_ntrits v)%Z then (let* itest := bq_frob (b_kopt v) (b_itest v) in $(set_itest itest v)) else $v in
  if ((b_ntrits v =? 0)%Z || nle f (nadd fopt (nmul tenth vquad)))%bool then goto B60 v
  else
    let tempa := nmul two (b_delta v) in
    let tempb := nmul ten (b_rho v) in
    goto B650 (set_distsq (bmax (nmul tempa tempa) (nmul tempb tempb)) v).

(** bobyqa.c 993-1003: label L360 *)
Definition bq_360 (v : bvars) : bprog :=
  bq_x xnew ;;
  if (maxfun <=? b_nf v)%Z then fail BQ_TOO_MANY_EVALUATIONS v else
  let v := set_nf (b_nf v + 1) v in
  let* f := call_objfun ctx x in
  bq_after f (set_f f v).

(** bobyqa.c 1243-1278: label L650 *)
Definition bq_650 (v : bvars) : bprog :=
  let* (knew, distsq) := LOOP npt (fun k '(knew, distsq) =>
    let* sum := LOOP n (fun j sum =>
      let* temp := !(XPT k j) - xopt#j in
      $sum + $temp * $temp) zero in
    if nlt distsq sum then $(k, sum) else $(knew, distsq)) (0%Z, b_distsq v) in
  let v := set_knew knew (set_distsq distsq v) in
  if (0 <? knew)%Z then
    let dist := nsqrt distsq in
    let delta := if (b_ntrits v =? -1)%Z then
                   (let delta := bmin (nmul tenth (b_delta v)) (nmul half dist) in
                    if nle delta (nmul (b_rho v) (nQ 3 2)) then b_rho v else delta)
                 else b_delta v in
    let adelt := clamp (nmul tenth dist) (b_rho v) delta in
    goto B90 (set_delta delta (set_ntrits 0 (set_adelt adelt (set_dsq (nmul adelt adelt) v))))
  else if (b_ntrits v =? -1)%Z then goto B680 v
  else if (nlt zero (b_ratio v) || nlt (b_rho v) (bmax (b_delta v) (b_dnorm v)))%bool then goto B60 v
  else goto B680 v.

(** bobyqa.c 1282-1312: label L680 *)
Definition bq_680 (v : bvars) : bprog :=
  let rho := b_rho v in
  if nlt rhoend rho then
    let delta := nmul half rho in
    let ratio := ndiv rho rhoend in
    let rho := if nle ratio (nZ 16) then rhoend
               else if nle ratio (nZ 250) then nmul (nsqrt ratio) rhoend
               else nmul tenth rho in
    let delta := bmax delta rho in
    goto B60 (set_rho rho (set_ratio ratio (set_delta delta (set_ntrits 0 (set_nfsav (b_nf v) v)))))
  else if (b_ntrits v =? -1)%Z then goto B360 v
  else goto Bdone v.

Definition bq_step (fuel : nat) (l : blabel * bvars) : bprog :=
  let '(l, v) := l in
  match l with
  | B20 => bq_20 v | B60 => bq_60 fuel v | B90 => bq_90 v | B190 => bq_190 fuel v | B210 => bq_210 fuel v
  | B230 => bq_230 v | B360 => bq_360 v | B650 => bq_650 v | B680 => bq_680 v
  | Bdone => $(inr v)
  end.

(** bobyqa.c 1313-1335: done *)
Definition bq_done (v : bvars) : prog bstatus :=
  let* f := (If fval#(b_kopt v) <=? $(b_fsave v) Then (bq_x xopt ;; fval#(b_kopt v)) Else $(b_f v)) in
  (match b_status v with BQ_SUCCESS => at1 xbase 1 <~ $f | _ => $tt end) ;;
  $(b_status v).

Definition bobyqb (fuel : nat) : prog bstatus :=
  let* r := bq_start in
  match r with
  | inl l => let* v := machine fuel (bq_step fuel) l in bq_done v
  | inr v => bq_done v
  end.
End Bobyqb.

(** ** bobyqa.c 333-486: bobyqa_optimize *)
Section Optimize.
Variables (n npt : Z) (maximize : bool) (fn : list (list N * N) -> list N -> N) (x xl xu : Z) (scl : option Z).
Variables (rhobeg rhoend : N) (maxfun w : Z).

(** bobyqa.c 379-388: the scaling factors; [None] for a bad one, else whether scaling is needed *)
Definition opt_check_scl (scl : Z) : prog (option bool) :=
  let* r := loopx 0 (n - 1) (fun j scaling =>
    let* s := !(scl + j)%Z in
    if neq s one then $(inl scaling)
    else if (negb (neq (nsub s s) zero) || nle s zero)%bool then $(inr tt)
    else $(inl true)) false in
  match r with inl b => $(Some b) | inr _ => $None end.

(** bobyqa.c 389-399: the division by the scaling factors *)
Definition opt_scale (scl tmpxl tmpxu : Z) : prog unit :=
  loop 0 (n - 1) (fun j _ =>
    let* s := $one / !(scl + j)%Z in
    (x + j)%Z <~ !(x + j)%Z * $s ;;
    (tmpxl + j)%Z <~ $s * !(xl + j)%Z ;;
    (tmpxu + j)%Z <~ $s * !(xu + j)%Z) tt.

(** bobyqa.c 413-429: the partition of the workspace *)
Definition ndim_ : Z := (npt + n)%Z.
Definition ixb : Z := 0%Z.
Definition ixp : Z := (ixb + n)%Z.
Definition ifv : Z := (ixp + n * npt)%Z.
Definition ixo : Z := (ifv + npt)%Z.
Definition igo : Z := (ixo + n)%Z.
Definition ihq_ : Z := (igo + n)%Z.
Definition ipq : Z := (ihq_ + n * (n + 1) / 2)%Z.
Definition ibmat : Z := (ipq + npt)%Z.
Definition izmat : Z := (ibmat + ndim_ * n)%Z.
Definition isl : Z := (izmat + npt * (npt - (n + 1)))%Z.
Definition isu : Z := (isl + n)%Z.
Definition ixn : Z := (isu + n)%Z.
Definition ixa : Z := (ixn + n)%Z.
Definition id_ : Z := (ixa + n)%Z.
Definition ivl : Z := (id_ + n)%Z.
Definition iw_ : Z := (ivl + ndim_)%Z.

(** bobyqa.c 437-470: the starting point and its distances to the bounds, for one variable; the exit is the return of
    BOBYQA_TOO_CLOSE *)
Definition opt_start_body (xl xu j : Z) : prog (unit + unit) :=
    let* temp := !(xu + j)%Z - !(xl + j)%Z in
    if nlt temp (nadd rhobeg rhobeg) then $(inr tt) else
    let jsl := (w + (isl + j))%Z in
    let jsu := (jsl + n)%Z in
    jsl <~ !(xl + j)%Z - !(x + j)%Z ;;
    jsu <~ !(xu + j)%Z - !(x + j)%Z ;;
    (If !jsl >=? $(nopp rhobeg) Then
       If !jsl >=? $zero Then
         (x + j)%Z <~ !(xl + j)%Z ;; jsl <~ $zero ;; jsu <~ $temp
       Else
         ((x + j)%Z <~ !(xl + j)%Z + $rhobeg ;; jsl <~ $(nopp rhobeg) ;;
          jsu <~ emax (!(xu + j)%Z - !(x + j)%Z) ($rhobeg))
     Else If !jsu <=? $rhobeg Then
       If !jsu <=? $zero Then
         (x + j)%Z <~ !(xu + j)%Z ;; jsl <~ $(nopp temp) ;; jsu <~ $zero
       Else
         ((x + j)%Z <~ !(xu + j)%Z - $rhobeg ;;
          jsl <~ emin (!(xl + j)%Z - !(x + j)%Z) ($(nopp rhobeg)) ;;
          jsu <~ $rhobeg)
     Else $tt) ;;
    $(inl tt).

(** bobyqa.c 437-470 *)
Definition opt_start (xl xu : Z) : prog (unit + unit) := loopx 0 (n - 1) (fun j _ => opt_start_body xl xu j) tt.

(** bobyqa.c 437-487: from the starting point of the workspace to the end *)
Definition opt_run (fuel : nat) (ctx : context) (xl xu : Z) : prog bstatus :=
  let* r := opt_start xl xu in
  match r with
  | inr _ => $BQ_TOO_CLOSE
  | inl _ =>
      let* status :=
        bobyqb n npt ctx x xl xu rhobeg rhoend maxfun (w + ixb)%Z (w + ixp)%Z (w + ifv)%Z (w + ixo)%Z (w + igo)%Z (w + ihq_)%Z
          (w + ipq)%Z (w + ibmat)%Z (w + izmat)%Z ndim_ (w + isl)%Z (w + isu)%Z (w + ixn)%Z (w + ixa)%Z (w + id_)%Z
          (w + ivl)%Z (w + iw_)%Z fuel in
      (match c_scl ctx with None => $tt | Some scl => scale x n scl x end) ;;
      w <~ !w * $(c_sgn ctx) ;;
      $status
  end.

Definition bobyqa_optimize (fuel : nat) : prog bstatus :=
  if (n <? 2)%Z then $BQ_BAD_NVARS
  else if ((npt <? n + 2) || ((n + 2) * (n + 1) / 2 <? npt))%Z%bool then $BQ_BAD_NPT
  else if (nle rhoend zero || nlt rhobeg rhoend)%bool then $BQ_BAD_RHO_RANGE
  else
    let sgn := if maximize then nZ (-1) else one in
    match scl with
    | None => opt_run fuel (mkctx fn None 0 sgn n) xl xu
    | Some scl =>
        let* r := opt_check_scl scl in
        match r with
        | None => $BQ_BAD_SCALING
        | Some false => opt_run fuel (mkctx fn None 0 sgn n) xl xu
        | Some true =>
            let tmpx := (w + work_size n npt)%Z in
            let tmpxl := (tmpx + n)%Z in
            let tmpxu := (tmpxl + n)%Z in
            opt_scale scl tmpxl tmpxu ;;
            opt_run fuel (mkctx fn (Some scl) tmpx sgn n) tmpxl tmpxu
        end
    end.
End Optimize.

(** bobyqa.c 322-331: bobyqa *)
Definition bobyqa (n npt : Z) (fn : list (list N * N) -> list N -> N) (x xl xu : Z) (rhobeg rhoend : N) (maxfun w : Z)
  (fuel : nat) : prog bstatus :=
  bobyqa_optimize n npt false fn x xl xu None rhobeg rhoend maxfun w fuel.
End Bobyqa.
