(** * Model of newuoa.c: Powell's NEWUOA

    All of newuoa.c but the printing (IPRINT = 0 is assumed), the test problem, newuoa_reason and the Fortran wrapper.  The
    file is compiled twice, once for newuoa_optimize and once for newuoa_iterate (NEWUOA_REVCOM_): the code between the
    labels is common and is written once here, as the steps of a machine; the two functions are two ways to run it.  The
    indices of the arrays start at 1 as in the C code after the "parameter adjustments".  The integers do not overflow.
    The trigonometric functions COS and SIN are parameters. *)
From Coq Require Import ZArith List Bool.
From Verif Require Import Num BqLang BqModel.
Import ListNotations.
Local Open Scope Z_scope.
Local Open Scope bq_scope.

(** newuoa.h 44-71: newuoa_status *)
Inductive nstatus := NW_INITIAL_ITERATE | NW_ITERATE | NW_SUCCESS | NW_BAD_NVARS | NW_BAD_NPT | NW_BAD_RHO_RANGE
  | NW_BAD_SCALING | NW_ROUNDING_ERRORS | NW_TOO_MANY_EVALUATIONS | NW_STEP_FAILED | NW_BAD_ADDRESS | NW_CORRUPTED.

(** newuoa.c 300-351: sin_cos_table, the numerators over 10^20 of the decimal constants; the pair (sin, cos) of index i is at
    2*i and 2*i + 1 in the C array.  Simplification: in binary arithmetic the rounding of [nQ] is not exactly the one of the
    decimal constants. *)
Definition sin_cos_table : list (Z * Z) := [
  (0, 100000000000000000000);
  (12533323356430425832, 99211470131447787590);
  (24868988716485479484, 96858316112863107605);
  (36812455268467797476, 92977648588825145826);
  (48175367410171532345, 87630668004386358394);
  (58778525229247313710, 80901699437494745126);
  (68454710592868872610, 72896862742141155245);
  (77051324277578925326, 63742398974868963446);
  (84432792550201507531, 53582679497899654564);
  (90482705246601957683, 42577929156507265951);
  (95105651629515353118, 30901699437494745126);
  (98228725072868872115, 18738131458572451771);
  (99802672842827155897, 6279051952931330449);
  (99802672842827155897, (-6279051952931340164));
  (98228725072868861012, (-18738131458572482302));
  (95105651629515353118, (-30901699437494756229));
  (90482705246601946580, (-42577929156507271502));
  (84432792550201496429, (-53582679497899687870));
  (77051324277578925326, (-63742398974868974548));
  (68454710592868850405, (-72896862742141166347));
  (58778525229247324813, (-80901699437494734024));
  (48175367410171521243, (-87630668004386358394));
  (36812455268467775271, (-92977648588825145826));
  (24868988716485482260, (-96858316112863107605));
  (12533323356430409179, (-99211470131447787590));
  ((-32162), (-100000000000000000000));
  ((-12533323356430428608), (-99211470131447787590));
  ((-24868988716485501689), (-96858316112863107605));
  ((-36812455268467830782), (-92977648588825123621));
  ((-48175367410171537896), (-87630668004386358394));
  ((-58778525229247335915), (-80901699437494722922));
  ((-68454710592868872610), (-72896862742141155245));
  ((-77051324277578936428), (-63742398974868952344));
  ((-84432792550201529735), (-53582679497899632359));
  ((-90482705246601979887), (-42577929156507215991));
  ((-95105651629515353118), (-30901699437494756229));
  ((-98228725072868872115), (-18738131458572462873));
  ((-99802672842827155897), (-6279051952931320735));
  ((-99802672842827155897), 6279051952931372083);
  ((-98228725072868861012), 18738131458572512833);
  ((-95105651629515364220), 30901699437494722922);
  ((-90482705246601957683), 42577929156507260400);
  ((-84432792550201496429), 53582679497899676768);
  ((-77051324277578903121), 63742398974868996753);
  ((-68454710592868828201), 72896862742141188551);
  ((-58778525229247258199), 80901699437494778433);
  ((-48175367410171532345), 87630668004386358394);
  ((-36812455268467786373), 92977648588825145826);
  ((-24868988716485448953), 96858316112863118708);
  ((-12533323356430378648), 99211470131447787590)].

(** newuoa.c 293: iu *)
Definition iu : Z := 49%Z.

Section Newuoa.
Context {N : Num}.
Notation prog := (prog N).
(** The functions COS and SIN of the C library *)
Variables (ncos nsin : N -> N).

(** newuoa.c 294: angle_step = 2*M_PI/(iu + 1) *)
Definition mpi : N := nQ 314159265358979323846 100000000000000000000.
Definition angle_step : N := ndiv (nmul two mpi) (nZ (iu + 1)).

(** newuoa.c 407-412: get_sin_cos *)
Definition get_sin_cos (i : Z) : prog (N * N) := fun s =>
  if (i <? 0)%Z then Undef s else
  match nth_error sin_cos_table (Z.to_nat i) with
  | Some (a, b) => Ret (nQ a 100000000000000000000, nQ b 100000000000000000000) s
  | None => Undef s
  end.

(** newuoa.c 438-448: parabolic_refinement *)
Definition parabolic_refinement (fprev fbest fnext : N) : N :=
  if neq fprev fnext then zero
  else
    let a := nsub fprev fbest in
    let b := nsub fnext fbest in
    ndiv (nsub a b) (nmul two (nadd a b)).

(** newuoa.c 2043-2056, 2345-2360, 2601-2616: the neighbours [tempa] and [tempb] of the best of the values at the
    discrete angles, which has
    index [isave], when it is the first or the last one; then the best angle.  [beg] and [last] are the values for the
    first and the last angle. *)
Definition best_angle (isave : Z) (tempa best tempb beg last : N) : N :=
  let tempa := if (isave =? 0)%Z then last else tempa in
  let tempb := if (isave =? iu)%Z then beg else tempb in
  nmul angle_step (nadd (nZ isave) (parabolic_refinement tempa best tempb)).

(** ** newuoa.c 2643-2775: update.  Yields the new IDZ. *)
Definition nupdate (n npt bmat zmat idz ndim vlag : Z) (beta : N) (knew w : Z) : prog Z :=
  let BMAT := at2 bmat ndim in
  let ZMAT := at2 zmat npt in
  let nptm := (npt - n - 1)%Z in
  (* Apply the rotations that put zeros in the KNEW-th row of ZMAT. *)
  let* jl := loop 2 nptm (fun j jl =>
    if (j =? idz)%Z then $idz
    else If !(ZMAT knew j) =? $zero Then $jl
    Else (
      let* tempa := !(ZMAT knew jl) in
      let* tempb := !(ZMAT knew j) in
      let* temp := esqrt ($tempa * $tempa + $tempb * $tempb) in
      let* tempa := $tempa / $temp in
      let* tempb := $tempb / $temp in
      LOOP_ npt (fun i =>
        let* temp := $tempa * !(ZMAT i jl) + $tempb * !(ZMAT i j) in
        ZMAT i j <~ $tempa * !(ZMAT i j) - $tempb * !(ZMAT i jl) ;;
        ZMAT i jl <~ $temp) ;;
      ZMAT knew j <~ $zero ;;
      $jl)) 1%Z in
  (* Put the first NPT components of the KNEW-th column of HLAG into W, and calculate the parameters of the updating
    formula. *)
  let* tempa := !(ZMAT knew 1) in
  let tempa := if (2 <=? idz)%Z then nopp tempa else tempa in
  let* tempb := if (1 <? jl)%Z then !(ZMAT knew jl) else $zero in
  LOOP_ npt (fun i =>
    at1 w i <~ $tempa * !(ZMAT i 1) ;;
    if (1 <? jl)%Z then at1 w i +~ $tempb * !(ZMAT i jl) else $tt) ;;
  let* alpha := w#knew in
  let* tau := vlag#knew in
  let tausq := nmul tau tau in
  let denom := nadd (nmul alpha beta) tausq in
  at1 vlag knew -~ $one ;;
  (* Complete the updating of ZMAT when there is only one nonzero element in the KNEW-th row of the new matrix ZMAT. *)
  let* (idz, iflag) :=
    if (jl =? 1)%Z then
      let temp := nsqrt (nabs denom) in
      let tempb := ndiv tempa temp in
      let tempa := ndiv tau temp in
      LOOP_ npt (fun i => ZMAT i 1 <~ $tempa * !(ZMAT i 1) - $tempb * vlag#i) ;;
      let idz := if ((idz =? 1)%Z && nlt temp zero)%bool then 2%Z else idz in
      $(idz, ((2 <=? idz)%Z && nle zero temp)%bool)
    else
      (* Complete the updating of ZMAT in the alternative case. *)
      let ja := if nle zero beta then jl else 1%Z in
      let jb := (jl + 1 - ja)%Z in
      let* temp := !(ZMAT knew jb) / $denom in
      let tempa := nmul temp beta in
      let tempb := nmul temp tau in
      let* temp := !(ZMAT knew ja) in
      let* scala := $one / esqrt ($(nabs beta) * $temp * $temp + $tausq) in
      let scalb := nmul scala (nsqrt (nabs denom)) in
      LOOP_ npt (fun i =>
        ZMAT i ja <~ $scala * ($tau * !(ZMAT i ja) - $temp * vlag#i) ;;
        ZMAT i jb <~ $scalb * (!(ZMAT i jb) - $tempa * w#i - $tempb * vlag#i)) ;;
      if nle denom zero then $((if nlt beta zero then idz + 1 else idz)%Z, nle zero beta)
      else $(idz, false) in
  (* IDZ is reduced in the following case, and usually the first column of ZMAT is exchanged with a later one. *)
  let* idz :=
    if iflag : bool then
      let idz := (idz - 1)%Z in
      LOOP_ npt (fun i =>
        let* temp := !(ZMAT i 1) in
        ZMAT i 1 <~ !(ZMAT i idz) ;;
        ZMAT i idz <~ $temp) ;;
      $idz
    else $idz in
  (* Finally, update the matrix BMAT. *)
  LOOP_ n (fun j =>
    let jp := (npt + j)%Z in
    at1 w jp <~ !(BMAT knew j) ;;
    let* tempa := ($alpha * vlag#jp - $tau * w#jp) / $denom in
    let* tempb := (- $beta * w#jp - $tau * vlag#jp) / $denom in
    LOOP_ jp (fun i =>
      BMAT i j <~ !(BMAT i j) + $tempa * vlag#i + $tempb * w#i ;;
      if (npt <? i)%Z then BMAT jp (i - npt)%Z <~ !(BMAT i j) else $tt)) ;;
  $idz.

(** ** newuoa.c 2387-2421: sethd *)
Definition sethd (n npt xpt hq pq d hd : Z) : prog unit :=
  let XPT := at2 xpt npt in
  LOOP_ n (fun i => at1 hd i <~ $zero) ;;
  LOOP_ npt (fun k =>
    let* temp := LOOP n (fun j temp => $temp + !(XPT k j) * d#j) zero in
    let* temp := $temp * pq#k in
    LOOP_ n (fun i => at1 hd i +~ $temp * !(XPT k i))) ;;
  let* _ := LOOP n (fun j ih =>
    LOOP j (fun i ih =>
      let ih := (ih + 1)%Z in
      (if (i <? j)%Z then at1 hd j +~ hq#ih * d#i else $tt) ;;
      at1 hd i +~ hq#ih * d#j ;;
      $ih) ih) 0%Z in
  $tt.

(** ** newuoa.c 2444-2632: trsapp.  Yields CRVMIN.

    The variables of the loop of lines 2495-2549: crvmin, ds, ss, dd, gg, qred, iterc *)
Record avars := mkav { a_crv : N; a_ds : N; a_ss : N; a_dd : N; a_gg : N; a_qred : N; a_iterc : Z }.

Section Trsapp.
Variables (n npt xopt xpt gq hq pq : Z) (delta : N) (step d g hd hs : Z).
Let XPT := at2 xpt npt.
Let delsq : N := nmul delta delta.

(** newuoa.c 2475-2494: [None] for the return of line 2486 *)
Definition tra_init : prog (option avars) :=
  sethd n npt xpt hq pq xopt hd ;;
  let* dd := LOOP n (fun i dd =>
    at1 step i <~ $zero ;;
    at1 hs i <~ $zero ;;
    at1 g i <~ gq#i + hd#i ;;
    at1 d i <~ - g#i ;;
    $dd + d#i * d#i) zero in
  if neq dd zero then $None else $(Some (mkav zero zero zero dd dd zero 0)).

(** newuoa.c 2495-2549: one pass of the loop; [inr (v, true)] for a return, [inr (v, false)] for the break *)
Definition tra_cg (ggbeg : N) (v : avars) : prog (avars + (avars * bool)) :=
  let 'mkav crvmin ds ss dd gg qred iterc := v in
  let iterc := (iterc + 1)%Z in
  let temp := nsub delsq ss in
  let bstep := ndiv temp (nadd ds (nsqrt (nadd (nmul ds ds) (nmul dd temp)))) in
  sethd n npt xpt hq pq d hd ;;
  let* dhd := LOOP n (fun j dhd => $dhd + d#j * hd#j) zero in
  (* Update CRVMIN and set the step-length ALPHA. *)
  let '(crvmin, alpha) :=
    if nlt zero dhd then
      let temp := ndiv dhd dd in
      (if (iterc =? 1)%Z then temp else bmin crvmin temp, bmin bstep (ndiv gg dhd))
    else (crvmin, bstep) in
  let qadd := nmul alpha (nsub gg (nmul (nmul half alpha) dhd)) in
  let qred := nadd qred qadd in
  (* Update STEP and HS. *)
  let ggsav := gg in
  let* gg := LOOP n (fun i gg =>
    at1 step i +~ $alpha * d#i ;;
    at1 hs i +~ $alpha * hd#i ;;
    let* temp := g#i + hs#i in
    $gg + $temp * $temp) zero in
  (* Begin another conjugate direction iteration if required. *)
  if nlt alpha bstep then
    if ((n <=? iterc)%Z || nle qadd (nmul qred (nQ 1 100)) || nle gg (nmul ggbeg (nQ 1 10000)))%bool then
      $(inr (mkav crvmin ds ss dd gg qred iterc, true))
    else
    let temp := ndiv gg ggsav in
    let* (dd, ds, ss) := LOOP n (fun i '(dd, ds, ss) =>
      at1 d i <~ $temp * d#i - g#i - hs#i ;;
      let* dd := $dd + d#i * d#i in
      let* ds := $ds + d#i * step#i in
      let* ss := $ss + step#i * step#i in
      $(dd, ds, ss)) (zero, zero, zero) in
    let v := mkav crvmin ds ss dd gg qred iterc in
    if nle ds zero then $(inr (v, true))
    else if nlt ss delsq then $(inl v)
    else $(inr (v, false))
  else $(inr (mkav crvmin ds ss dd gg qred iterc, false)).

(** newuoa.c 2551-2630: one pass of the loop, with the variables gg, qred and iterc; [tempa] and [tempb] are set in any case
    before they are used.  [inr] for the end of the loop. *)
Definition tra_alt (ggbeg : N) (l : N * N * Z) : prog (N * N * Z + unit) :=
  let '(gg, qred, iterc) := l in
  (* Test whether an alternative iteration is required. *)
  if nle gg (nmul ggbeg (nQ 1 10000)) then $(inr tt) else
  let* (sg, shs) := LOOP n (fun i '(sg, shs) =>
    let* sg := $sg + step#i * g#i in
    let* shs := $shs + step#i * hs#i in
    $(sg, shs)) (zero, zero) in
  let sgk := nadd sg shs in
  let angtest := ndiv sgk (nsqrt (nmul gg delsq)) in
  if nle angtest (nQ (-99) 100) then $(inr tt) else
  (* Begin the alternative iteration by calculating D and HD and some scalar products. *)
  let iterc := (iterc + 1)%Z in
  let temp := nsqrt (nsub (nmul delsq gg) (nmul sgk sgk)) in
  let tempa := ndiv delsq temp in
  let tempb := ndiv sgk temp in
  LOOP_ n (fun i => at1 d i <~ $tempa * (g#i + hs#i) - $tempb * step#i) ;;
  sethd n npt xpt hq pq d hd ;;
  let* (dg, dhd, dhs) := LOOP n (fun i '(dg, dhd, dhs) =>
    let* dg := $dg + d#i * g#i in
    let* dhd := $dhd + hd#i * d#i in
    let* dhs := $dhs + hd#i * step#i in
    $(dg, dhd, dhs)) (zero, zero, zero) in
  (* Seek the value of the angle that minimizes Q. *)
  let cf := nmul half (nsub shs dhd) in
  let qbeg := nadd sg cf in
  let* (qsav, qmin, isave, tempa, tempb) := LOOP iu (fun i '(qsav, qmin, isave, tempa, tempb) =>
    let* (sth, cth) := get_sin_cos i in
    let* qnew := ($sg + $cf * $cth) * $cth + ($dg + $dhs * $cth) * $sth in
    if nlt qnew qmin then $(qnew, qnew, i, qsav, tempb)
    else if (i =? isave + 1)%Z then $(qnew, qmin, isave, tempa, qnew)
    else $(qnew, qmin, isave, tempa, tempb)) (qbeg, qbeg, 0%Z, tempa, tempb) in
  let angle := best_angle isave tempa qmin tempb qbeg qsav in
  (* Calculate the new STEP and HS. Then test for convergence. *)
  let cth := ncos angle in
  let sth := nsin angle in
  let* gg := LOOP n (fun i gg =>
    at1 step i <~ $cth * step#i + $sth * d#i ;;
    at1 hs i <~ $cth * hs#i + $sth * hd#i ;;
    let* temp := g#i + hs#i in
    $gg + $temp * $temp) zero in
  let* reduc := $qbeg - ($sg + $cf * $cth) * $cth - ($dg + $dhs * $cth) * $sth in
  let qred := nadd qred reduc in
  if ((iterc <? n)%Z && nlt (nQ 1 100) (ndiv reduc qred))%bool then $(inl (gg, qred, iterc)) else $(inr tt).

Definition trsapp (fuel : nat) : prog N :=
  let* r := tra_init in
  match r with
  | None => $zero
  | Some v =>
      let ggbeg := a_gg v in
      let* (v, stop) := machine fuel (tra_cg ggbeg) v in
      if stop : bool then $(a_crv v)
      else
        machine fuel (tra_alt ggbeg) (a_gg v, a_qred v, a_iterc v) ;;
        $zero
  end.
End Trsapp.

(** ** newuoa.c 2175-2376: biglag.  Yields ALPHA. *)
Section Biglag.
Variables (n npt xopt xpt bmat zmat idz ndim knew : Z) (delta : N) (d hcol gc gd s w : Z).
Let XPT := at2 xpt npt.
Let BMAT := at2 bmat ndim.
Let ZMAT := at2 zmat npt.
Let nptm := (npt - n - 1)%Z.
Let delsq : N := nmul delta delta.

(** newuoa.c 2215-2281 *)
Definition lag_init : prog N :=
  LOOP_ npt (fun k => at1 hcol k <~ $zero) ;;
  LOOP_ nptm (fun j =>
    let* temp := !(ZMAT knew j) in
    let temp := if (j <? idz)%Z then nopp temp else temp in
    LOOP_ npt (fun k => at1 hcol k +~ $temp * !(ZMAT k j))) ;;
  let* alpha := hcol#knew in
  (* Set the unscaled initial direction D. Form the gradient of LFUNC at XOPT, and multiply D by the second derivative
     matrix of LFUNC. *)
  let* dd := LOOP n (fun i dd =>
    at1 d i <~ !(XPT knew i) - xopt#i ;;
    at1 gc i <~ !(BMAT knew i) ;;
    at1 gd i <~ $zero ;;
    $dd + d#i * d#i) zero in
  LOOP_ npt (fun k =>
    let* (temp, sum) := LOOP n (fun j '(temp, sum) =>
      let* temp := $temp + !(XPT k j) * xopt#j in
      let* sum := $sum + !(XPT k j) * d#j in
      $(temp, sum)) (zero, zero) in
    let* temp := hcol#k * $temp in
    let* sum := hcol#k * $sum in
    LOOP_ n (fun i =>
      at1 gc i +~ $temp * !(XPT k i) ;;
      at1 gd i +~ $sum * !(XPT k i))) ;;
  (* Scale D and GD, with a sign change if required. Set S to another vector in the initial two dimensional subspace. *)
  let* (gg, sp, dhd) := LOOP n (fun i '(gg, sp, dhd) =>
    let* gg := $gg + gc#i * gc#i in
    let* sp := $sp + d#i * gc#i in
    let* dhd := $dhd + d#i * gd#i in
    $(gg, sp, dhd)) (zero, zero, zero) in
  let scale := ndiv delta (nsqrt dd) in
  let scale := if nlt (nmul sp dhd) zero then nopp scale else scale in
  let temp := if nlt (nmul (nmul dd (nQ 99 100)) gg) (nmul sp sp) then one else zero in
  let tau := nmul scale (nadd (nabs sp) (nmul (nmul half scale) (nabs dhd))) in
  let temp := if nlt (nmul gg delsq) (nmul (nmul tau (nQ 1 100)) tau) then one else temp in
  LOOP_ n (fun i =>
    at1 d i <~ $scale * d#i ;;
    at1 gd i <~ $scale * gd#i ;;
    at1 s i <~ gc#i + $temp * gd#i) ;;
  $alpha.

(** newuoa.c 2286-2373: one pass of the loop; [inr] for the break.  The values of [tempa] and [tempb] are kept from one
    pass to the
    next one. *)
Definition lag_pass (l : N * N) : prog (N * N + unit) :=
  let '(tempa, tempb) := l in
  let* (dd, sp, ss) := LOOP n (fun i '(dd, sp, ss) =>
    let* dd := $dd + d#i * d#i in
    let* sp := $sp + d#i * s#i in
    let* ss := $ss + s#i * s#i in
    $(dd, sp, ss)) (zero, zero, zero) in
  let temp := nsub (nmul dd ss) (nmul sp sp) in
  if nle temp (nmul (nmul dd (nQ 1 100000000)) ss) then $(inr tt) else
  let denom := nsqrt temp in
  LOOP_ n (fun i =>
    at1 s i <~ ($dd * s#i - $sp * d#i) / $denom ;;
    at1 w i <~ $zero) ;;
  (* Calculate the coefficients of the objective function on the circle, beginning with the multiplication of S by the
     second derivative matrix. *)
  LOOP_ npt (fun k =>
    let* sum := LOOP n (fun j sum => $sum + !(XPT k j) * s#j) zero in
    let* sum := hcol#k * $sum in
    LOOP_ n (fun i => at1 w i +~ $sum * !(XPT k i))) ;;
  let* (cf1, cf2, cf3, cf4, cf5) := LOOP n (fun i '(cf1, cf2, cf3, cf4, cf5) =>
    let* cf1 := $cf1 + s#i * w#i in
    let* cf2 := $cf2 + d#i * gc#i in
    let* cf3 := $cf3 + s#i * gc#i in
    let* cf4 := $cf4 + d#i * gd#i in
    let* cf5 := $cf5 + s#i * gd#i in
    $(cf1, cf2, cf3, cf4, cf5)) (zero, zero, zero, zero, zero) in
  let cf1 := nmul half cf1 in
  let cf4 := nsub (nmul half cf4) cf1 in
  (* Seek the value of the angle that maximizes the modulus of TAU. *)
  let taubeg := nadd (nadd cf1 cf2) cf4 in
  let* (tauold, taumax, isave, tempa, tempb) := LOOP iu (fun i '(tauold, taumax, isave, tempa, tempb) =>
    let* (sth, cth) := get_sin_cos i in
    let* tau := $cf1 + ($cf2 + $cf4 * $cth) * $cth + ($cf3 + $cf5 * $cth) * $sth in
    if nlt (nabs taumax) (nabs tau) then $(tau, tau, i, tauold, tempb)
    else if (i =? isave + 1)%Z then $(tau, taumax, isave, tempa, tau)
    else $(tau, taumax, isave, tempa, tempb)) (taubeg, taubeg, 0%Z, tempa, tempb) in
  let angle := best_angle isave tempa taumax tempb taubeg tauold in
  let tempa := if (isave =? 0)%Z then tauold else tempa in
  let tempb := if (isave =? iu)%Z then taubeg else tempb in
  (* Calculate the new D and GD. Then test for convergence. *)
  let cth := ncos angle in
  let sth := nsin angle in
  let* tau := $cf1 + ($cf2 + $cf4 * $cth) * $cth + ($cf3 + $cf5 * $cth) * $sth in
  LOOP_ n (fun i =>
    at1 d i <~ $cth * d#i + $sth * s#i ;;
    at1 gd i <~ $cth * gd#i + $sth * w#i ;;
    at1 s i <~ gc#i + gd#i) ;;
  if nle (nabs tau) (nmul (nabs taubeg) (nQ 11 10)) then $(inr tt) else $(inl (tempa, tempb)).

Definition biglag : prog N :=
  let* alpha := lag_init in
  let* _ := loopx 1 n (fun _ => lag_pass) (zero, zero) in
  $alpha.
End Biglag.

(** ** newuoa.c 1781-2138: bigden.  Yields BETA.

    The local arrays DEN, DENEX and PAR have 9 elements, the indices are constants. *)
(** newuoa.c 2030-2038, 2061-2066: PAR from the cosine and the sine *)
Definition par9 (c s : N) : list N :=
  let p3 := nsub (nmul c c) (nmul s s) in
  let p4 := nadd (nmul c s) (nmul s c) in
  let p5 := nsub (nmul c p3) (nmul s p4) in
  let p6 := nadd (nmul c p4) (nmul s p3) in
  let p7 := nsub (nmul c p5) (nmul s p6) in
  let p8 := nadd (nmul c p6) (nmul s p5) in
  [one; c; s; p3; p4; p5; p6; p7; p8].
(** newuoa.c 2040-2042, 2069-2072: sum of the products of the 9 elements *)
Fixpoint dot9 (sum : N) (a b : list N) : N :=
  match a, b with
  | x :: a, y :: b => dot9 (nadd sum (nmul x y)) a b
  | _, _ => sum
  end.

(** The variables of the loop of lines 1883-2126: dd, ds, ssden, densav, iterc *)
Record dvars := mkdv { d_dd : N; d_ds : N; d_ssden : N; d_densav : N; d_iterc : Z }.

Section Bigden.
Variables (n npt xopt xpt bmat zmat idz ndim kopt knew d w vlag s wvec prod : Z).
Let XPT := at2 xpt npt.
Let BMAT := at2 bmat ndim.
Let ZMAT := at2 zmat npt.
Let WVEC := at2 wvec ndim.
Let PROD := at2 prod ndim.
Let nptm := (npt - n - 1)%Z.

(** newuoa.c 1824-1879; yields alpha, xoptsq and the variables of the loop *)
Definition den_init : prog (N * N * dvars) :=
  LOOP_ npt (fun k => at1 w (n + k)%Z <~ $zero) ;;
  LOOP_ nptm (fun j =>
    let* temp := !(ZMAT knew j) in
    let temp := if (j <? idz)%Z then nopp temp else temp in
    LOOP_ npt (fun k => at1 w (n + k)%Z +~ $temp * !(ZMAT k j))) ;;
  let* alpha := ld (at1 w (n + knew)%Z) in
  let* (dd, ds, ss, xoptsq) := LOOP n (fun i '(dd, ds, ss, xoptsq) =>
    let* dd := $dd + d#i * d#i in
    at1 s i <~ !(XPT knew i) - xopt#i ;;
    let* ds := $ds + d#i * s#i in
    let* ss := $ss + s#i * s#i in
    let* xoptsq := $xoptsq + xopt#i * xopt#i in
    $(dd, ds, ss, xoptsq)) (zero, zero, zero, zero) in
  let* (ds, ss) :=
    if nlt (nmul (nmul dd (nQ 99 100)) ss) (nmul ds ds) then
      let* (ksav, _, ds, ss) := LOOP npt (fun k '(ksav, dtest, ds, ss) =>
        if (k =? kopt)%Z then $(ksav, dtest, ds, ss)
        else
          let* (dstemp, sstemp) := LOOP n (fun i '(dstemp, sstemp) =>
            let* diff := !(XPT k i) - xopt#i in
            let* dstemp := $dstemp + d#i * $diff in
            let* sstemp := $sstemp + $diff * $diff in
            $(dstemp, sstemp)) (zero, zero) in
          if nlt (ndiv (nmul dstemp dstemp) sstemp) dtest then
            $(k, ndiv (nmul dstemp dstemp) sstemp, dstemp, sstemp)
          else $(ksav, dtest, ds, ss)) (knew, ndiv (nmul ds ds) ss, ds, ss) in
      LOOP_ n (fun i => at1 s i <~ !(XPT ksav i) - xopt#i) ;;
      $(ds, ss)
    else $(ds, ss) in
  $(alpha, xoptsq, mkdv dd ds (nsub (nmul dd ss) (nmul ds ds)) zero 0).

(** newuoa.c 1906-1929: the coefficients of Wcheck *)
Definition den_wvec : prog unit :=
  LOOP_ npt (fun k =>
    let* (tempa, tempb, tempc) := LOOP n (fun i '(tempa, tempb, tempc) =>
      let* tempa := $tempa + !(XPT k i) * d#i in
      let* tempb := $tempb + !(XPT k i) * s#i in
      let* tempc := $tempc + !(XPT k i) * xopt#i in
      $(tempa, tempb, tempc)) (zero, zero, zero) in
    WVEC k 1 <~ $(nQ 1 4) * ($tempa * $tempa + $tempb * $tempb) ;;
    WVEC k 2 <~ $tempa * $tempc ;;
    WVEC k 3 <~ $tempb * $tempc ;;
    WVEC k 4 <~ $(nQ 1 4) * ($tempa * $tempa - $tempb * $tempb) ;;
    WVEC k 5 <~ $half * $tempa * $tempb) ;;
  LOOP_ n (fun i =>
    let ip := (i + npt)%Z in
    WVEC ip 1 <~ $zero ;;
    WVEC ip 2 <~ d#i ;;
    WVEC ip 3 <~ s#i ;;
    WVEC ip 4 <~ $zero ;;
    WVEC ip 5 <~ $zero).

(** newuoa.c 1931-1968: the coefficients of THETA*Wcheck *)
Definition den_prod : prog unit :=
  loop 1 5 (fun jc _ =>
    let nw := if ((jc =? 2) || (jc =? 3))%Z%bool then ndim else npt in
    LOOP_ npt (fun k => PROD k jc <~ $zero) ;;
    LOOP_ nptm (fun j =>
      let* sum := LOOP npt (fun k sum => $sum + !(ZMAT k j) * !(WVEC k jc)) zero in
      let sum := if (j <? idz)%Z then nopp sum else sum in
      LOOP_ npt (fun k => PROD k jc <~ !(PROD k jc) + $sum * !(ZMAT k j))) ;;
    (if (nw =? ndim)%Z then
       LOOP_ npt (fun k =>
         let* sum := LOOP n (fun j sum => $sum + !(BMAT k j) * !(WVEC (npt + j) jc)%Z) zero in
         PROD k jc <~ !(PROD k jc) + $sum)
     else $tt) ;;
    LOOP_ n (fun j =>
      let* sum := LOOP nw (fun i sum => $sum + !(BMAT i j) * !(WVEC i jc)) zero in
      PROD (npt + j)%Z jc <~ $sum)) tt.

(** newuoa.c 1970-1996: the part of BETA that depends on THETA *)
Definition den_beta (den : N * N * N * N * N * N * N * N * N) : prog (N * N * N * N * N * N * N * N * N) :=
  LOOP ndim (fun k '(e0, e1, e2, e3, e4, e5, e6, e7, e8) =>
    let* par0 := $half * !(PROD k 1) * !(WVEC k 1) in
    let* par1 := $half * !(PROD k 2) * !(WVEC k 2) in
    let* par2 := $half * !(PROD k 3) * !(WVEC k 3) in
    let* par3 := $half * !(PROD k 4) * !(WVEC k 4) in
    let* par4 := $half * !(PROD k 5) * !(WVEC k 5) in
    let sum := nadd (nadd (nadd (nadd (nadd zero par0) par1) par2) par3) par4 in
    let* e0 := $e0 - $par0 - $sum in
    let* tempa := !(PROD k 1) * !(WVEC k 2) + !(PROD k 2) * !(WVEC k 1) in
    let* tempb := !(PROD k 2) * !(WVEC k 4) + !(PROD k 4) * !(WVEC k 2) in
    let* tempc := !(PROD k 3) * !(WVEC k 5) + !(PROD k 5) * !(WVEC k 3) in
    let* e1 := $e1 - $tempa - $half * ($tempb + $tempc) in
    let* e5 := $e5 - $half * ($tempb - $tempc) in
    let* tempa := !(PROD k 1) * !(WVEC k 3) + !(PROD k 3) * !(WVEC k 1) in
    let* tempb := !(PROD k 2) * !(WVEC k 5) + !(PROD k 5) * !(WVEC k 2) in
    let* tempc := !(PROD k 3) * !(WVEC k 4) + !(PROD k 4) * !(WVEC k 3) in
    let* e2 := $e2 - $tempa - $half * ($tempb - $tempc) in
    let* e6 := $e6 - $half * ($tempb + $tempc) in
    let* tempa := !(PROD k 1) * !(WVEC k 4) + !(PROD k 4) * !(WVEC k 1) in
    let* e3 := $e3 - $tempa - $par1 + $par2 in
    let* tempa := !(PROD k 1) * !(WVEC k 5) + !(PROD k 5) * !(WVEC k 1) in
    let* tempb := !(PROD k 2) * !(WVEC k 3) + !(PROD k 3) * !(WVEC k 2) in
    let* e4 := $e4 - $tempa - $half * $tempb in
    let* e7 := $e7 - $par3 + $par4 in
    let* tempa := !(PROD k 4) * !(WVEC k 5) + !(PROD k 5) * !(WVEC k 4) in
    let* e8 := $e8 - $half * $tempa in
    $(e0, e1, e2, e3, e4, e5, e6, e7, e8)) den.

(** newuoa.c 1998-2020: all the coefficients of DENOM *)
Definition den_denex (alpha : N) (den : N * N * N * N * N * N * N * N * N) : prog (list N) :=
  let '(e0, e1, e2, e3, e4, e5, e6, e7, e8) := den in
  let* q1 := !(PROD knew 1) in
  let* q2 := !(PROD knew 2) in
  let* q3 := !(PROD knew 3) in
  let* q4 := !(PROD knew 4) in
  let* q5 := !(PROD knew 5) in
  let* par0 := $half * ($q1 * $q1) in
  let* par1 := $half * ($q2 * $q2) in
  let* par2 := $half * ($q3 * $q3) in
  let* par3 := $half * ($q4 * $q4) in
  let* par4 := $half * ($q5 * $q5) in
  let sum := nadd (nadd (nadd (nadd (nadd zero par0) par1) par2) par3) par4 in
  let* x0 := $alpha * $e0 + $par0 + $sum in
  let* tempa := $two * $q1 * $q2 in
  let* tempb := $q2 * $q4 in
  let* tempc := $q3 * $q5 in
  let* x1 := $alpha * $e1 + $tempa + $tempb + $tempc in
  let* x5 := $alpha * $e5 + $tempb - $tempc in
  let* tempa := $two * $q1 * $q3 in
  let* tempb := $q2 * $q5 in
  let* tempc := $q3 * $q4 in
  let* x2 := $alpha * $e2 + $tempa + $tempb - $tempc in
  let* x6 := $alpha * $e6 + $tempb + $tempc in
  let* tempa := $two * $q1 * $q4 in
  let* x3 := $alpha * $e3 + $tempa + $par1 - $par2 in
  let* tempa := $two * $q1 * $q5 in
  let* x4 := $alpha * $e4 + $tempa + $q2 * $q3 in
  let* x7 := $alpha * $e7 + $par3 - $par4 in
  let* x8 := $alpha * $e8 + $q4 * $q5 in
  $[x0; x1; x2; x3; x4; x5; x6; x7; x8].

(** newuoa.c 2022-2057: the angle that maximizes the modulus of DENOM.  Yields the initial value of DENOM and the angle.
    [tempa] and [tempb] are set before: their values do not matter if they are not set in the loop, as [isave] is then 0
    or [iu]. *)
Definition den_angle (denex : list N) (tempa tempb : N) : prog (N * N) :=
  let c i := nth i denex zero in
  let sum := nadd (nadd (nadd (nadd (c 0%nat) (c 1%nat)) (c 3%nat)) (c 5%nat)) (c 7%nat) in
  let* (sum', denmax, isave, tempa, tempb) := LOOP iu (fun i '(sumold, denmax, isave, tempa, tempb) =>
    let* (sth, cth) := get_sin_cos i in
    let sum := dot9 zero denex (par9 cth sth) in
    if nlt (nabs denmax) (nabs sum) then $(sum, sum, i, sumold, tempb)
    else if (i =? isave + 1)%Z then $(sum, denmax, isave, tempa, sum)
    else $(sum, denmax, isave, tempa, tempb)) (sum, sum, 0%Z, tempa, tempb) in
  $(sum, best_angle isave tempa denmax tempb sum sum').

(** newuoa.c 1883-2126: one pass of the loop from L70; [inr] with PAR and BETA for L340 *)
Definition den_pass (alpha xoptsq : N) (v : dvars) : prog (dvars + (list N * N)) :=
  let 'mkdv dd ds ssden densav iterc := v in
  let iterc := (iterc + 1)%Z in
  let temp := ndiv one (nsqrt ssden) in
  let* (xoptd, xopts) := LOOP n (fun i '(xoptd, xopts) =>
    at1 s i <~ $temp * ($dd * s#i - $ds * d#i) ;;
    let* xoptd := $xoptd + xopt#i * d#i in
    let* xopts := $xopts + xopt#i * s#i in
    $(xoptd, xopts)) (zero, zero) in
  (* Set the coefficients of the first two terms of BETA. *)
  let* tempa := $half * $xoptd * $xoptd in
  let* tempb := $half * $xopts * $xopts in
  let* e0 := $dd * ($xoptsq + $half * $dd) + $tempa + $tempb in
  let* e1 := $two * $xoptd * $dd in
  let* e2 := $two * $xopts * $dd in
  let* e3 := $tempa - $tempb in
  let* e4 := $xoptd * $xopts in
  den_wvec ;;
  den_prod ;;
  let* den := den_beta (e0, e1, e2, e3, e4, zero, zero, zero, zero) in
  let* denex := den_denex alpha den in
  let* (denold, angle) := den_angle denex zero zero in
  (* Calculate the new parameters of the denominator, the new VLAG vector and the new D. Then test for convergence. *)
  let cth := ncos angle in
  let sth := nsin angle in
  let par := par9 cth sth in
  let '(e0, e1, e2, e3, e4, e5, e6, e7, e8) := den in
  let beta := dot9 zero [e0; e1; e2; e3; e4; e5; e6; e7; e8] par in
  let denmax := dot9 zero denex par in
  LOOP_ ndim (fun k =>
    at1 vlag k <~ $zero ;;
    loop 1 5 (fun j _ => at1 vlag k +~ !(PROD k j) * $(nth (Z.to_nat (j - 1)) par zero)) tt) ;;
  let* tau := vlag#knew in
  let* (dd, tempa, tempb) := LOOP n (fun i '(dd, tempa, tempb) =>
    at1 d i <~ $cth * d#i + $sth * s#i ;;
    at1 w i <~ xopt#i + d#i ;;
    let* dd := $dd + d#i * d#i in
    let* tempa := $tempa + d#i * w#i in
    let* tempb := $tempb + w#i * w#i in
    $(dd, tempa, tempb)) (zero, zero, zero) in
  if (n <=? iterc)%Z then $(inr (par, beta)) else
  let densav := if (1 <? iterc)%Z then bmax densav denold else densav in
  if nle (nabs denmax) (nmul (nabs densav) (nQ 11 10)) then $(inr (par, beta)) else
  let densav := denmax in
  (* Set S to half the gradient of the denominator with respect to D. Then branch for the next iteration. *)
  LOOP_ n (fun i =>
    let* temp := $tempa * xopt#i + $tempb * d#i - vlag#(npt + i)%Z in
    at1 s i <~ $tau * !(BMAT knew i) + $alpha * $temp) ;;
  LOOP_ npt (fun k =>
    let* sum := LOOP n (fun j sum => $sum + !(XPT k j) * w#j) zero in
    let* temp := ($tau * w#(n + k)%Z - $alpha * vlag#k) * $sum in
    LOOP_ n (fun i => at1 s i +~ $temp * !(XPT k i))) ;;
  let* (ss, ds) := LOOP n (fun i '(ss, ds) =>
    let* ss := $ss + s#i * s#i in
    let* ds := $ds + d#i * s#i in
    $(ss, ds)) (zero, zero) in
  let ssden := nsub (nmul dd ss) (nmul ds ds) in
  if nle (nmul (nmul dd (nQ 1 100000000)) ss) ssden then $(inl (mkdv dd ds ssden densav iterc))
  else $(inr (par, beta)).

Definition bigden (fuel : nat) : prog N :=
  let* (alpha, xoptsq, v) := den_init in
  let* (par, beta) := machine fuel (den_pass alpha xoptsq) v in
  (* L340: Set the vector W before the RETURN from the subroutine. *)
  LOOP_ ndim (fun k =>
    at1 w k <~ $zero ;;
    loop 1 5 (fun j _ => at1 w k +~ !(WVEC k j) * $(nth (Z.to_nat (j - 1)) par zero)) tt) ;;
  at1 vlag kopt +~ $one ;;
  $beta.
End Bigden.

(** ** newuoa.c 736-1724: newuoa_iterate and newuoa_optimize

    The local variables, saved in the context by newuoa_iterate; [gqsq] and [ih] are always set before they are used and not
    kept.  The value [f] of the function is an argument of newuoa_iterate. *)
Record nvars := mknv {
  v_alpha : N; v_beta : N; v_crvmin : N; v_delta : N; v_diff : N; v_diffa : N; v_diffb : N; v_diffc : N; v_dnorm : N;
    v_dsq : N; v_dstep : N; v_fbeg : N; v_fopt : N; v_ratio : N; v_recip : N; v_reciq : N; v_rho : N; v_rhosq : N;
    v_vquad : N; v_xipt : N; v_xjpt : N; v_xoptsq : N; v_f : N;
  v_idz : Z; v_ipt : Z; v_itest : Z; v_jpt : Z; v_knew : Z; v_kopt : Z; v_ksave : Z; v_nf : Z; v_nfm : Z; v_nfmm : Z;
    v_nfsav : Z;
  v_status : nstatus
}.

Definition s_alpha (a : N) (v : nvars) : nvars :=
  mknv a (v_beta v) (v_crvmin v) (v_delta v) (v_diff v) (v_diffa v) (v_diffb v) (v_diffc v) (v_dnorm v) (v_dsq v)
    (v_dstep v) (v_fbeg v) (v_fopt v) (v_ratio v) (v_recip v) (v_reciq v) (v_rho v) (v_rhosq v) (v_vquad v) (v_xipt v)
    (v_xjpt v) (v_xoptsq v) (v_f v) (v_idz v) (v_ipt v) (v_itest v) (v_jpt v) (v_knew v) (v_kopt v) (v_ksave v) (v_nf
    v) (v_nfm v) (v_nfmm v) (v_nfsav v) (v_status v).
Definition s_beta (a : N) (v : nvars) : nvars :=
  mknv (v_alpha v) a (v_crvmin v) (v_delta v) (v_diff v) (v_diffa v) (v_diffb v) (v_diffc v) (v_dnorm v) (v_dsq v)
    (v_dstep v) (v_fbeg v) (v_fopt v) (v_ratio v) (v_recip v) (v_reciq v) (v_rho v) (v_rhosq v) (v_vquad v) (v_xipt v)
    (v_xjpt v) (v_xoptsq v) (v_f v) (v_idz v) (v_ipt v) (v_itest v) (v_jpt v) (v_knew v) (v_kopt v) (v_ksave v) (v_nf
    v) (v_nfm v) (v_nfmm v) (v_nfsav v) (v_status v).
Definition s_crvmin (a : N) (v : nvars) : nvars :=
  mknv (v_alpha v) (v_beta v) a (v_delta v) (v_diff v) (v_diffa v) (v_diffb v) (v_diffc v) (v_dnorm v) (v_dsq v)
    (v_dstep v) (v_fbeg v) (v_fopt v) (v_ratio v) (v_recip v) (v_reciq v) (v_rho v) (v_rhosq v) (v_vquad v) (v_xipt v)
    (v_xjpt v) (v_xoptsq v) (v_f v) (v_idz v) (v_ipt v) (v_itest v) (v_jpt v) (v_knew v) (v_kopt v) (v_ksave v) (v_nf
    v) (v_nfm v) (v_nfmm v) (v_nfsav v) (v_status v).
Definition s_delta (a : N) (v : nvars) : nvars :=
  mknv (v_alpha v) (v_beta v) (v_crvmin v) a (v_diff v) (v_diffa v) (v_diffb v) (v_diffc v) (v_dnorm v) (v_dsq v)
    (v_dstep v) (v_fbeg v) (v_fopt v) (v_ratio v) (v_recip v) (v_reciq v) (v_rho v) (v_rhosq v) (v_vquad v) (v_xipt v)
    (v_xjpt v) (v_xoptsq v) (v_f v) (v_idz v) (v_ipt v) (v_itest v) (v_jpt v) (v_knew v) (v_kopt v) (v_ksave v) (v_nf
    v) (v_nfm v) (v_nfmm v) (v_nfsav v) (v_status v).
Definition s_diff (a : N) (v : nvars) : nvars :=
  mknv (v_alpha v) (v_beta v) (v_crvmin v) (v_delta v) a (v_diffa v) (v_diffb v) (v_diffc v) (v_dnorm v) (v_dsq v)
    (v_dstep v) (v_fbeg v) (v_fopt v) (v_ratio v) (v_recip v) (v_reciq v) (v_rho v) (v_rhosq v) (v_vquad v) (v_xipt v)
    (v_xjpt v) (v_xoptsq v) (v_f v) (v_idz v) (v_ipt v) (v_itest v) (v_jpt v) (v_knew v) (v_kopt v) (v_ksave v) (v_nf
    v) (v_nfm v) (v_nfmm v) (v_nfsav v) (v_status v).
Definition s_diffa (a : N) (v : nvars) : nvars :=
  mknv (v_alpha v) (v_beta v) (v_crvmin v) (v_delta v) (v_diff v) a (v_diffb v) (v_diffc v) (v_dnorm v) (v_dsq v)
    (v_dstep v) (v_fbeg v) (v_fopt v) (v_ratio v) (v_recip v) (v_reciq v) (v_rho v) (v_rhosq v) (v_vquad v) (v_xipt v)
    (v_xjpt v) (v_xoptsq v) (v_f v) (v_idz v) (v_ipt v) (v_itest v) (v_jpt v) (v_knew v) (v_kopt v) (v_ksave v) (v_nf
    v) (v_nfm v) (v_nfmm v) (v_nfsav v) (v_status v).
Definition s_diffb (a : N) (v : nvars) : nvars :=
  mknv (v_alpha v) (v_beta v) (v_crvmin v) (v_delta v) (v_diff v) (v_diffa v) a (v_diffc v) (v_dnorm v) (v_dsq v)
    (v_dstep v) (v_fbeg v) (v_fopt v) (v_ratio v) (v_recip v) (v_reciq v) (v_rho v) (v_rhosq v) (v_vquad v) (v_xipt v)
    (v_xjpt v) (v_xoptsq v) (v_f v) (v_idz v) (v_ipt v) (v_itest v) (v_jpt v) (v_knew v) (v_kopt v) (v_ksave v) (v_nf
    v) (v_nfm v) (v_nfmm v) (v_nfsav v) (v_status v).
Definition s_diffc (a : N) (v : nvars) : nvars :=
  mknv (v_alpha v) (v_beta v) (v_crvmin v) (v_delta v) (v_diff v) (v_diffa v) (v_diffb v) a (v_dnorm v) (v_dsq v)
    (v_dstep v) (v_fbeg v) (v_fopt v) (v_ratio v) (v_recip v) (v_reciq v) (v_rho v) (v_rhosq v) (v_vquad v) (v_xipt v)
    (v_xjpt v) (v_xoptsq v) (v_f v) (v_idz v) (v_ipt v) (v_itest v) (v_jpt v) (v_knew v) (v_kopt v) (v_ksave v) (v_nf
    v) (v_nfm v) (v_nfmm v) (v_nfsav v) (v_status v).
Definition s_dnorm (a : N) (v : nvars) : nvars :=
  mknv (v_alpha v) (v_beta v) (v_crvmin v) (v_delta v) (v_diff v) (v_diffa v) (v_diffb v) (v_diffc v) a (v_dsq v)
    (v_dstep v) (v_fbeg v) (v_fopt v) (v_ratio v) (v_recip v) (v_reciq v) (v_rho v) (v_rhosq v) (v_vquad v) (v_xipt v)
    (v_xjpt v) (v_xoptsq v) (v_f v) (v_idz v) (v_ipt v) (v_itest v) (v_jpt v) (v_knew v) (v_kopt v) (v_ksave v) (v_nf
    v) (v_nfm v) (v_nfmm v) (v_nfsav v) (v_status v).
Definition s_dsq (a : N) (v : nvars) : nvars :=
  mknv (v_alpha v) (v_beta v) (v_crvmin v) (v_delta v) (v_diff v) (v_diffa v) (v_diffb v) (v_diffc v) (v_dnorm v) a
    (v_dstep v) (v_fbeg v) (v_fopt v) (v_ratio v) (v_recip v) (v_reciq v) (v_rho v) (v_rhosq v) (v_vquad v) (v_xipt v)
    (v_xjpt v) (v_xoptsq v) (v_f v) (v_idz v) (v_ipt v) (v_itest v) (v_jpt v) (v_knew v) (v_kopt v) (v_ksave v) (v_nf
    v) (v_nfm v) (v_nfmm v) (v_nfsav v) (v_status v).
Definition s_dstep (a : N) (v : nvars) : nvars :=
  mknv (v_alpha v) (v_beta v) (v_crvmin v) (v_delta v) (v_diff v) (v_diffa v) (v_diffb v) (v_diffc v) (v_dnorm v)
    (v_dsq v) a (v_fbeg v) (v_fopt v) (v_ratio v) (v_recip v) (v_reciq v) (v_rho v) (v_rhosq v) (v_vquad v) (v_xipt v)
    (v_xjpt v) (v_xoptsq v) (v_f v) (v_idz v) (v_ipt v) (v_itest v) (v_jpt v) (v_knew v) (v_kopt v) (v_ksave v) (v_nf
    v) (v_nfm v) (v_nfmm v) (v_nfsav v) (v_status v).
Definition s_fbeg (a : N) (v : nvars) : nvars :=
  mknv (v_alpha v) (v_beta v) (v_crvmin v) (v_delta v) (v_diff v) (v_diffa v) (v_diffb v) (v_diffc v) (v_dnorm v)
    (v_dsq v) (v_dstep v) a (v_fopt v) (v_ratio v) (v_recip v) (v_reciq v) (v_rho v) (v_rhosq v) (v_vquad v) (v_xipt v)
    (v_xjpt v) (v_xoptsq v) (v_f v) (v_idz v) (v_ipt v) (v_itest v) (v_jpt v) (v_knew v) (v_kopt v) (v_ksave v) (v_nf
    v) (v_nfm v) (v_nfmm v) (v_nfsav v) (v_status v).
Definition s_fopt (a : N) (v : nvars) : nvars :=
  mknv (v_alpha v) (v_beta v) (v_crvmin v) (v_delta v) (v_diff v) (v_diffa v) (v_diffb v) (v_diffc v) (v_dnorm v)
    (v_dsq v) (v_dstep v) (v_fbeg v) a (v_ratio v) (v_recip v) (v_reciq v) (v_rho v) (v_rhosq v) (v_vquad v) (v_xipt v)
    (v_xjpt v) (v_xoptsq v) (v_f v) (v_idz v) (v_ipt v) (v_itest v) (v_jpt v) (v_knew v) (v_kopt v) (v_ksave v) (v_nf
    v) (v_nfm v) (v_nfmm v) (v_nfsav v) (v_status v).
Definition s_ratio (a : N) (v : nvars) : nvars :=
  mknv (v_alpha v) (v_beta v) (v_crvmin v) (v_delta v) (v_diff v) (v_diffa v) (v_diffb v) (v_diffc v) (v_dnorm v)
    (v_dsq v) (v_dstep v) (v_fbeg v) (v_fopt v) a (v_recip v) (v_reciq v) (v_rho v) (v_rhosq v) (v_vquad v) (v_xipt v)
    (v_xjpt v) (v_xoptsq v) (v_f v) (v_idz v) (v_ipt v) (v_itest v) (v_jpt v) (v_knew v) (v_kopt v) (v_ksave v) (v_nf
    v) (v_nfm v) (v_nfmm v) (v_nfsav v) (v_status v).
Definition s_recip (a : N) (v : nvars) : nvars :=
  mknv (v_alpha v) (v_beta v) (v_crvmin v) (v_delta v) (v_diff v) (v_diffa v) (v_diffb v) (v_diffc v) (v_dnorm v)
    (v_dsq v) (v_dstep v) (v_fbeg v) (v_fopt v) (v_ratio v) a (v_reciq v) (v_rho v) (v_rhosq v) (v_vquad v) (v_xipt v)
    (v_xjpt v) (v_xoptsq v) (v_f v) (v_idz v) (v_ipt v) (v_itest v) (v_jpt v) (v_knew v) (v_kopt v) (v_ksave v) (v_nf
    v) (v_nfm v) (v_nfmm v) (v_nfsav v) (v_status v).
Definition s_reciq (a : N) (v : nvars) : nvars :=
  mknv (v_alpha v) (v_beta v) (v_crvmin v) (v_delta v) (v_diff v) (v_diffa v) (v_diffb v) (v_diffc v) (v_dnorm v)
    (v_dsq v) (v_dstep v) (v_fbeg v) (v_fopt v) (v_ratio v) (v_recip v) a (v_rho v) (v_rhosq v) (v_vquad v) (v_xipt v)
    (v_xjpt v) (v_xoptsq v) (v_f v) (v_idz v) (v_ipt v) (v_itest v) (v_jpt v) (v_knew v) (v_kopt v) (v_ksave v) (v_nf
    v) (v_nfm v) (v_nfmm v) (v_nfsav v) (v_status v).
Definition s_rho (a : N) (v : nvars) : nvars :=
  mknv (v_alpha v) (v_beta v) (v_crvmin v) (v_delta v) (v_diff v) (v_diffa v) (v_diffb v) (v_diffc v) (v_dnorm v)
    (v_dsq v) (v_dstep v) (v_fbeg v) (v_fopt v) (v_ratio v) (v_recip v) (v_reciq v) a (v_rhosq v) (v_vquad v) (v_xipt
    v) (v_xjpt v) (v_xoptsq v) (v_f v) (v_idz v) (v_ipt v) (v_itest v) (v_jpt v) (v_knew v) (v_kopt v) (v_ksave v)
    (v_nf v) (v_nfm v) (v_nfmm v) (v_nfsav v) (v_status v).
Definition s_rhosq (a : N) (v : nvars) : nvars :=
  mknv (v_alpha v) (v_beta v) (v_crvmin v) (v_delta v) (v_diff v) (v_diffa v) (v_diffb v) (v_diffc v) (v_dnorm v)
    (v_dsq v) (v_dstep v) (v_fbeg v) (v_fopt v) (v_ratio v) (v_recip v) (v_reciq v) (v_rho v) a (v_vquad v) (v_xipt v)
    (v_xjpt v) (v_xoptsq v) (v_f v) (v_idz v) (v_ipt v) (v_itest v) (v_jpt v) (v_knew v) (v_kopt v) (v_ksave v) (v_nf
    v) (v_nfm v) (v_nfmm v) (v_nfsav v) (v_status v).
Definition s_vquad (a : N) (v : nvars) : nvars :=
  mknv (v_alpha v) (v_beta v) (v_crvmin v) (v_delta v) (v_diff v) (v_diffa v) (v_diffb v) (v_diffc v) (v_dnorm v)
    (v_dsq v) (v_dstep v) (v_fbeg v) (v_fopt v) (v_ratio v) (v_recip v) (v_reciq v) (v_rho v) (v_rhosq v) a (v_xipt v)
    (v_xjpt v) (v_xoptsq v) (v_f v) (v_idz v) (v_ipt v) (v_itest v) (v_jpt v) (v_knew v) (v_kopt v) (v_ksave v) (v_nf
    v) (v_nfm v) (v_nfmm v) (v_nfsav v) (v_status v).
Definition s_xipt (a : N) (v : nvars) : nvars :=
  mknv (v_alpha v) (v_beta v) (v_crvmin v) (v_delta v) (v_diff v) (v_diffa v) (v_diffb v) (v_diffc v) (v_dnorm v)
    (v_dsq v) (v_dstep v) (v_fbeg v) (v_fopt v) (v_ratio v) (v_recip v) (v_reciq v) (v_rho v) (v_rhosq v) (v_vquad v) a
    (v_xjpt v) (v_xoptsq v) (v_f v) (v_idz v) (v_ipt v) (v_itest v) (v_jpt v) (v_knew v) (v_kopt v) (v_ksave v) (v_nf
    v) (v_nfm v) (v_nfmm v) (v_nfsav v) (v_status v).
Definition s_xjpt (a : N) (v : nvars) : nvars :=
  mknv (v_alpha v) (v_beta v) (v_crvmin v) (v_delta v) (v_diff v) (v_diffa v) (v_diffb v) (v_diffc v) (v_dnorm v)
    (v_dsq v) (v_dstep v) (v_fbeg v) (v_fopt v) (v_ratio v) (v_recip v) (v_reciq v) (v_rho v) (v_rhosq v) (v_vquad v)
    (v_xipt v) a (v_xoptsq v) (v_f v) (v_idz v) (v_ipt v) (v_itest v) (v_jpt v) (v_knew v) (v_kopt v) (v_ksave v) (v_nf
    v) (v_nfm v) (v_nfmm v) (v_nfsav v) (v_status v).
Definition s_xoptsq (a : N) (v : nvars) : nvars :=
  mknv (v_alpha v) (v_beta v) (v_crvmin v) (v_delta v) (v_diff v) (v_diffa v) (v_diffb v) (v_diffc v) (v_dnorm v)
    (v_dsq v) (v_dstep v) (v_fbeg v) (v_fopt v) (v_ratio v) (v_recip v) (v_reciq v) (v_rho v) (v_rhosq v) (v_vquad v)
    (v_xipt v) (v_xjpt v) a (v_f v) (v_idz v) (v_ipt v) (v_itest v) (v_jpt v) (v_knew v) (v_kopt v) (v_ksave v) (v_nf
    v) (v_nfm v) (v_nfmm v) (v_nfsav v) (v_status v).
Definition s_f (a : N) (v : nvars) : nvars :=
  mknv (v_alpha v) (v_beta v) (v_crvmin v) (v_delta v) (v_diff v) (v_diffa v) (v_diffb v) (v_diffc v) (v_dnorm v)
    (v_dsq v) (v_dstep v) (v_fbeg v) (v_fopt v) (v_ratio v) (v_recip v) (v_reciq v) (v_rho v) (v_rhosq v) (v_vquad v)
    (v_xipt v) (v_xjpt v) (v_xoptsq v) a (v_idz v) (v_ipt v) (v_itest v) (v_jpt v) (v_knew v) (v_kopt v) (v_ksave v)
    (v_nf v) (v_nfm v) (v_nfmm v) (v_nfsav v) (v_status v).
Definition s_idz (a : Z) (v : nvars) : nvars :=
  mknv (v_alpha v) (v_beta v) (v_crvmin v) (v_delta v) (v_diff v) (v_diffa v) (v_diffb v) (v_diffc v) (v_dnorm v)
    (v_dsq v) (v_dstep v) (v_fbeg v) (v_fopt v) (v_ratio v) (v_recip v) (v_reciq v) (v_rho v) (v_rhosq v) (v_vquad v)
    (v_xipt v) (v_xjpt v) (v_xoptsq v) (v_f v) a (v_ipt v) (v_itest v) (v_jpt v) (v_knew v) (v_kopt v) (v_ksave v)
    (v_nf v) (v_nfm v) (v_nfmm v) (v_nfsav v) (v_status v).
Definition s_ipt (a : Z) (v : nvars) : nvars :=
  mknv (v_alpha v) (v_beta v) (v_crvmin v) (v_delta v) (v_diff v) (v_diffa v) (v_diffb v) (v_diffc v) (v_dnorm v)
    (v_dsq v) (v_dstep v) (v_fbeg v) (v_fopt v) (v_ratio v) (v_recip v) (v_reciq v) (v_rho v) (v_rhosq v) (v_vquad v)
    (v_xipt v) (v_xjpt v) (v_xoptsq v) (v_f v) (v_idz v) a (v_itest v) (v_jpt v) (v_knew v) (v_kopt v) (v_ksave v)
    (v_nf v) (v_nfm v) (v_nfmm v) (v_nfsav v) (v_status v).
Definition s_itest (a : Z) (v : nvars) : nvars :=
  mknv (v_alpha v) (v_beta v) (v_crvmin v) (v_delta v) (v_diff v) (v_diffa v) (v_diffb v) (v_diffc v) (v_dnorm v)
    (v_dsq v) (v_dstep v) (v_fbeg v) (v_fopt v) (v_ratio v) (v_recip v) (v_reciq v) (v_rho v) (v_rhosq v) (v_vquad v)
    (v_xipt v) (v_xjpt v) (v_xoptsq v) (v_f v) (v_idz v) (v_ipt v) a (v_jpt v) (v_knew v) (v_kopt v) (v_ksave v) (v_nf
    v) (v_nfm v) (v_nfmm v) (v_nfsav v) (v_status v).
Definition s_jpt (a : Z) (v : nvars) : nvars :=
  mknv (v_alpha v) (v_beta v) (v_crvmin v) (v_delta v) (v_diff v) (v_diffa v) (v_diffb v) (v_diffc v) (v_dnorm v)
    (v_dsq v) (v_dstep v) (v_fbeg v) (v_fopt v) (v_ratio v) (v_recip v) (v_reciq v) (v_rho v) (v_rhosq v) (v_vquad v)
    (v_xipt v) (v_xjpt v) (v_xoptsq v) (v_f v) (v_idz v) (v_ipt v) (v_itest v) a (v_knew v) (v_kopt v) (v_ksave v)
    (v_nf v) (v_nfm v) (v_nfmm v) (v_nfsav v) (v_status v).
Definition s_knew (a : Z) (v : nvars) : nvars :=
  mknv (v_alpha v) (v_beta v) (v_crvmin v) (v_delta v) (v_diff v) (v_diffa v) (v_diffb v) (v_diffc v) (v_dnorm v)
    (v_dsq v) (v_dstep v) (v_fbeg v) (v_fopt v) (v_ratio v) (v_recip v) (v_reciq v) (v_rho v) (v_rhosq v) (v_vquad v)
    (v_xipt v) (v_xjpt v) (v_xoptsq v) (v_f v) (v_idz v) (v_ipt v) (v_itest v) (v_jpt v) a (v_kopt v) (v_ksave v) (v_nf
    v) (v_nfm v) (v_nfmm v) (v_nfsav v) (v_status v).
Definition s_kopt (a : Z) (v : nvars) : nvars :=
  mknv (v_alpha v) (v_beta v) (v_crvmin v) (v_delta v) (v_diff v) (v_diffa v) (v_diffb v) (v_diffc v) (v_dnorm v)
    (v_dsq v) (v_dstep v) (v_fbeg v) (v_fopt v) (v_ratio v) (v_recip v) (v_reciq v) (v_rho v) (v_rhosq v) (v_vquad v)
    (v_xipt v) (v_xjpt v) (v_xoptsq v) (v_f v) (v_idz v) (v_ipt v) (v_itest v) (v_jpt v) (v_knew v) a (v_ksave v) (v_nf
    v) (v_nfm v) (v_nfmm v) (v_nfsav v) (v_status v).
Definition s_ksave (a : Z) (v : nvars) : nvars :=
  mknv (v_alpha v) (v_beta v) (v_crvmin v) (v_delta v) (v_diff v) (v_diffa v) (v_diffb v) (v_diffc v) (v_dnorm v)
    (v_dsq v) (v_dstep v) (v_fbeg v) (v_fopt v) (v_ratio v) (v_recip v) (v_reciq v) (v_rho v) (v_rhosq v) (v_vquad v)
    (v_xipt v) (v_xjpt v) (v_xoptsq v) (v_f v) (v_idz v) (v_ipt v) (v_itest v) (v_jpt v) (v_knew v) (v_kopt v) a (v_nf
    v) (v_nfm v) (v_nfmm v) (v_nfsav v) (v_status v).
Definition s_nf (a : Z) (v : nvars) : nvars :=
  mknv (v_alpha v) (v_beta v) (v_crvmin v) (v_delta v) (v_diff v) (v_diffa v) (v_diffb v) (v_diffc v) (v_dnorm v)
    (v_dsq v) (v_dstep v) (v_fbeg v) (v_fopt v) (v_ratio v) (v_recip v) (v_reciq v) (v_rho v) (v_rhosq v) (v_vquad v)
    (v_xipt v) (v_xjpt v) (v_xoptsq v) (v_f v) (v_idz v) (v_ipt v) (v_itest v) (v_jpt v) (v_knew v) (v_kopt v) (v_ksave
    v) a (v_nfm v) (v_nfmm v) (v_nfsav v) (v_status v).
Definition s_nfm (a : Z) (v : nvars) : nvars :=
  mknv (v_alpha v) (v_beta v) (v_crvmin v) (v_delta v) (v_diff v) (v_diffa v) (v_diffb v) (v_diffc v) (v_dnorm v)
    (v_dsq v) (v_dstep v) (v_fbeg v) (v_fopt v) (v_ratio v) (v_recip v) (v_reciq v) (v_rho v) (v_rhosq v) (v_vquad v)
    (v_xipt v) (v_xjpt v) (v_xoptsq v) (v_f v) (v_idz v) (v_ipt v) (v_itest v) (v_jpt v) (v_knew v) (v_kopt v) (v_ksave
    v) (v_nf v) a (v_nfmm v) (v_nfsav v) (v_status v).
Definition s_nfmm (a : Z) (v : nvars) : nvars :=
  mknv (v_alpha v) (v_beta v) (v_crvmin v) (v_delta v) (v_diff v) (v_diffa v) (v_diffb v) (v_diffc v) (v_dnorm v)
    (v_dsq v) (v_dstep v) (v_fbeg v) (v_fopt v) (v_ratio v) (v_recip v) (v_reciq v) (v_rho v) (v_rhosq v) (v_vquad v)
    (v_xipt v) (v_xjpt v) (v_xoptsq v) (v_f v) (v_idz v) (v_ipt v) (v_itest v) (v_jpt v) (v_knew v) (v_kopt v) (v_ksave
    v) (v_nf v) (v_nfm v) a (v_nfsav v) (v_status v).
Definition s_nfsav (a : Z) (v : nvars) : nvars :=
  mknv (v_alpha v) (v_beta v) (v_crvmin v) (v_delta v) (v_diff v) (v_diffa v) (v_diffb v) (v_diffc v) (v_dnorm v)
    (v_dsq v) (v_dstep v) (v_fbeg v) (v_fopt v) (v_ratio v) (v_recip v) (v_reciq v) (v_rho v) (v_rhosq v) (v_vquad v)
    (v_xipt v) (v_xjpt v) (v_xoptsq v) (v_f v) (v_idz v) (v_ipt v) (v_itest v) (v_jpt v) (v_knew v) (v_kopt v) (v_ksave
    v) (v_nf v) (v_nfm v) (v_nfmm v) a (v_status v).
Definition s_status (a : nstatus) (v : nvars) : nvars :=
  mknv (v_alpha v) (v_beta v) (v_crvmin v) (v_delta v) (v_diff v) (v_diffa v) (v_diffb v) (v_diffc v) (v_dnorm v)
    (v_dsq v) (v_dstep v) (v_fbeg v) (v_fopt v) (v_ratio v) (v_recip v) (v_reciq v) (v_rho v) (v_rhosq v) (v_vquad v)
    (v_xipt v) (v_xjpt v) (v_xoptsq v) (v_f v) (v_idz v) (v_ipt v) (v_itest v) (v_jpt v) (v_knew v) (v_kopt v) (v_ksave
    v) (v_nf v) (v_nfm v) (v_nfmm v) (v_nfsav v) a.

(** The labels; [Neval] is the call of the objective function, line 1332, or its request, line 1326, [Nnew] is
    new_eval, line 1329 *)
Inductive nlabel := N50 | N70 | N90 | N100 | N120 | N290 | N310 | Neval | Nnew | N460 | N490 | Ndone.

Section Main.
Variables (n npt x : Z) (rhobeg rhoend : N) (maxfun : Z).
Variables (xbase xopt xnew xpt fval gq hq pq bmat zmat d vlag w : Z).
Let ndim := (npt + n)%Z.
Let np := (n + 1)%Z.
Let nh := (n * np / 2)%Z.
Let nptm := (npt - np)%Z.
Let XPT := at2 xpt npt.
Let BMAT := at2 bmat ndim.
Let ZMAT := at2 zmat npt.
Context {B : Type}.
Notation nprog := (prog (nlabel * nvars + B)).
Definition ngoto (l : nlabel) (v : nvars) : nprog := $(inl (l, v)).
Definition nfail (st : nstatus) (v : nvars) : nprog := ngoto Ndone (s_status st v).

(** newuoa.c 985-1011: from the first evaluation to L50 *)
Definition nw_start (v : nvars) : prog nvars :=
  LOOP_ n (fun j =>
    at1 xbase j <~ x#j ;;
    LOOP_ npt (fun k => XPT k j <~ $zero) ;;
    LOOP_ ndim (fun i => BMAT i j <~ $zero)) ;;
  LOOP_ nh (fun ih => at1 hq ih <~ $zero) ;;
  LOOP_ npt (fun k =>
    at1 pq k <~ $zero ;;
    LOOP_ nptm (fun j => ZMAT k j <~ $zero)) ;;
  let rhosq := nmul rhobeg rhobeg in
  $(s_rhosq rhosq (s_recip (ndiv one rhosq) (s_reciq (ndiv (nsqrt half) rhosq) (s_nf 0 v)))).

(** newuoa.c 1012-1049: L50 *)
Definition nw_50 (v : nvars) : nprog :=
  let nfm := v_nf v in
  let nfmm := (v_nf v - n)%Z in
  let nf := (v_nf v + 1)%Z in
  let v := s_nfm nfm (s_nfmm nfmm (s_nf nf v)) in
  let* v :=
    if (nfm <=? 2 * n)%Z then
      (if ((1 <=? nfm) && (nfm <=? n))%Z%bool then XPT nf nfm <~ $rhobeg
       else if (n <? nfm)%Z then XPT nf nfmm <~ - $rhobeg
       else $tt) ;;
      $v
    else
      let itemp := Z.quot (nfmm - 1) n in
      let jpt := (nfm - itemp * n - n)%Z in
      let ipt := (jpt + itemp)%Z in
      let '(ipt, jpt) := if (n <? ipt)%Z then (jpt, (ipt - n)%Z) else (ipt, jpt) in
      let* xipt := (If fval#(ipt + np)%Z <? fval#(ipt + 1)%Z Then - $rhobeg Else $rhobeg) in
      let* xjpt := (If fval#(jpt + np)%Z <? fval#(jpt + 1)%Z Then - $rhobeg Else $rhobeg) in
      XPT nf ipt <~ $xipt ;;
      XPT nf jpt <~ $xjpt ;;
      $(s_ipt ipt (s_jpt jpt (s_xipt xipt (s_xjpt xjpt v)))) in
  LOOP_ n (fun j => at1 x j <~ !(XPT nf j) + xbase#j) ;;
  ngoto N310 v.

(** newuoa.c 1050-1113: L70 *)
Definition nw_70 (v : nvars) : nprog :=
  let nf := v_nf v in
  let nfm := v_nfm v in
  let nfmm := v_nfmm v in
  let f := v_f v in
  at1 fval nf <~ $f ;;
  let v :=
    if (nf =? 1)%Z then s_fbeg f (s_fopt f (s_kopt 1 v))
    else if nlt f (v_fopt v) then s_fopt f (s_kopt nf v)
    else v in
  let* v :=
    if (nfm <=? 2 * n)%Z then
      (if ((1 <=? nfm) && (nfm <=? n))%Z%bool then
         at1 gq nfm <~ ($f - $(v_fbeg v)) / $rhobeg ;;
         if (npt <? nf + n)%Z then
           BMAT 1 nfm <~ - $one / $rhobeg ;;
           BMAT nf nfm <~ $one / $rhobeg ;;
           BMAT (npt + nfm)%Z nfm <~ - $half * $(v_rhosq v)
         else $tt
       else if (n <? nfm)%Z then
         BMAT (nf - n)%Z nfmm <~ $half / $rhobeg ;;
         BMAT nf nfmm <~ - $half / $rhobeg ;;
         ZMAT 1 nfmm <~ - $(v_reciq v) - $(v_reciq v) ;;
         ZMAT (nf - n)%Z nfmm <~ $(v_reciq v) ;;
         ZMAT nf nfmm <~ $(v_reciq v) ;;
         let ih := Z.quot (nfmm * (nfmm + 1)) 2 in
         let* temp := ($(v_fbeg v) - $f) / $rhobeg in
         at1 hq ih <~ (gq#nfmm - $temp) / $rhobeg ;;
         at1 gq nfmm <~ $half * (gq#nfmm + $temp)
       else $tt) ;;
      $v
    else
      let ih := (Z.quot (v_ipt v * (v_ipt v - 1)) 2 + v_jpt v)%Z in
      let ipt := if nlt (v_xipt v) zero then (v_ipt v + n)%Z else v_ipt v in
      let jpt := if nlt (v_xjpt v) zero then (v_jpt v + n)%Z else v_jpt v in
      ZMAT 1 nfmm <~ $(v_recip v) ;;
      ZMAT nf nfmm <~ $(v_recip v) ;;
      ZMAT (ipt + 1)%Z nfmm <~ - $(v_recip v) ;;
      ZMAT (jpt + 1)%Z nfmm <~ - $(v_recip v) ;;
      at1 hq ih <~ ($(v_fbeg v) - fval#(ipt + 1)%Z - fval#(jpt + 1)%Z + $f) / ($(v_xipt v) * $(v_xjpt v)) ;;
      $(s_ipt ipt (s_jpt jpt v)) in
  if (nf <? npt)%Z then ngoto N50 v else
  (* Begin the iterative procedure, because the initial model is complete. *)
  let* xoptsq := LOOP n (fun i xoptsq =>
    at1 xopt i <~ !(XPT (v_kopt v) i) ;;
    $xoptsq + xopt#i * xopt#i) zero in
  ngoto N90 (s_rho rhobeg (s_delta rhobeg (s_idz 1 (s_diffa zero (s_diffb zero (s_itest 0 (s_xoptsq xoptsq v))))))).

(** newuoa.c 1119-1145: L100 *)
Definition nw_100 (fuel : nat) (v : nvars) : nprog :=
  let* crvmin := trsapp n npt xopt xpt gq hq pq (v_delta v) d w (w + n)%Z (w + n + n)%Z (w + n + 2 * n)%Z fuel in
  let* dsq := LOOP n (fun i dsq => $dsq + d#i * d#i) zero in
  let dnorm := bmin (nsqrt dsq) (v_delta v) in
  let v := s_crvmin crvmin (s_dsq dsq (s_dnorm dnorm (s_knew 0 v))) in
  let rho := v_rho v in
  if nlt dnorm (nmul half rho) then
    let delta := nmul tenth (v_delta v) in
    let delta := if nle delta (nmul rho (nQ 3 2)) then rho else delta in
    let v := s_knew (-1) (s_delta delta (s_ratio onemin v)) in
    if (v_nf v <=? v_nfsav v + 2)%Z then ngoto N460 v
    else if nle (nmul (nmul (nmul crvmin (nQ 1 8)) rho) rho) (bmax (bmax (v_diffa v) (v_diffb v)) (v_diffc v)) then
    ngoto N460 v
    else ngoto N490 v
  else ngoto N120 v.

(** newuoa.c 1149-1230: the shift of XBASE; yields [xoptsq] *)
Definition nw_shift (idz : Z) (dsq xoptsq : N) : prog N :=
  if nle dsq (nmul xoptsq (nQ 1 1000)) then
    let tempq := nmul xoptsq (nQ 1 4) in
    LOOP_ npt (fun k =>
      let* sum := LOOP n (fun i sum => $sum + !(XPT k i) * xopt#i) zero in
      let* temp := pq#k * $sum in
      let* sum := $sum - $half * $xoptsq in
      at1 w (npt + k)%Z <~ $sum ;;
      LOOP_ n (fun i =>
        at1 gq i +~ $temp * !(XPT k i) ;;
        XPT k i <~ !(XPT k i) - $half * xopt#i ;;
        at1 vlag i <~ !(BMAT k i) ;;
        at1 w i <~ $sum * !(XPT k i) + $tempq * xopt#i ;;
        let ip := (npt + i)%Z in
        LOOP_ i (fun j => BMAT ip j <~ !(BMAT ip j) + vlag#i * w#j + w#i * vlag#j))) ;;
    (* Then the revisions of BMAT that depend on ZMAT are calculated. *)
    LOOP_ nptm (fun k =>
      let* sumz := LOOP npt (fun i sumz =>
        let* sumz := $sumz + !(ZMAT i k) in
        at1 w i <~ w#(npt + i)%Z * !(ZMAT i k) ;;
        $sumz) zero in
      LOOP_ n (fun j =>
        let* sum := $tempq * $sumz * xopt#j in
        let* sum := LOOP npt (fun i sum => $sum + w#i * !(XPT i j)) sum in
        at1 vlag j <~ $sum ;;
        let sum := if (k <? idz)%Z then nopp sum else sum in
        LOOP_ npt (fun i => BMAT i j <~ !(BMAT i j) + $sum * !(ZMAT i k))) ;;
      LOOP_ n (fun i =>
        let ip := (i + npt)%Z in
        let* temp := vlag#i in
        let temp := if (k <? idz)%Z then nopp temp else temp in
        LOOP_ i (fun j => BMAT ip j <~ !(BMAT ip j) + $temp * vlag#j))) ;;
    (* The following instructions complete the shift of XBASE, including the changes to the parameters of the quadratic
       model. *)
    let* _ := LOOP n (fun j ih =>
      at1 w j <~ $zero ;;
      LOOP_ npt (fun k =>
        at1 w j +~ pq#k * !(XPT k j) ;;
        XPT k j <~ !(XPT k j) - $half * xopt#j) ;;
      LOOP j (fun i ih =>
        let ih := (ih + 1)%Z in
        (if (i <? j)%Z then at1 gq j +~ hq#ih * xopt#i else $tt) ;;
        at1 gq i +~ hq#ih * xopt#j ;;
        at1 hq ih <~ hq#ih + w#i * xopt#j + xopt#i * w#j ;;
        BMAT (npt + i)%Z j <~ !(BMAT (npt + j) i)%Z ;;
        $ih) ih) 0%Z in
    LOOP_ n (fun j =>
      at1 xbase j +~ xopt#j ;;
      at1 xopt j <~ $zero) ;;
    $zero
  else $xoptsq.

(** newuoa.c 1241-1289: VLAG and BETA for the current D; yields [beta] *)
Definition nw_vlag (idz kopt : Z) (dsq xoptsq : N) : prog N :=
  LOOP_ npt (fun k =>
    let* (suma, sumb, sum) := LOOP n (fun j '(suma, sumb, sum) =>
      let* suma := $suma + !(XPT k j) * d#j in
      let* sumb := $sumb + !(XPT k j) * xopt#j in
      let* sum := $sum + !(BMAT k j) * d#j in
      $(suma, sumb, sum)) (zero, zero, zero) in
    at1 w k <~ $suma * ($half * $suma + $sumb) ;;
    at1 vlag k <~ $sum) ;;
  let* beta := LOOP nptm (fun k beta =>
    let* sum := LOOP npt (fun i sum => $sum + !(ZMAT i k) * w#i) zero in
    let '(beta, sum) :=
      if (k <? idz)%Z then (nadd beta (nmul sum sum), nopp sum) else (nsub beta (nmul sum sum), sum) in
    LOOP_ npt (fun i => at1 vlag i +~ $sum * !(ZMAT i k)) ;;
    $beta) zero in
  let* (bsum, dx) := LOOP n (fun j '(bsum, dx) =>
    let* sum := LOOP npt (fun i sum => $sum + w#i * !(BMAT i j)) zero in
    let* bsum := $bsum + $sum * d#j in
    let jp := (npt + j)%Z in
    let* sum := LOOP n (fun k sum => $sum + !(BMAT jp k) * d#k) sum in
    at1 vlag jp <~ $sum ;;
    let* bsum := $bsum + $sum * d#j in
    let* dx := $dx + d#j * xopt#j in
    $(bsum, dx)) (zero, zero) in
  let* beta := $dx * $dx + $dsq * ($xoptsq + $dx + $dx + $half * $dsq) + $beta - $bsum in
  at1 vlag kopt +~ $one ;;
  $beta.

(** newuoa.c 1149-1302: L120 *)
Definition nw_120 (fuel : nat) (v : nvars) : nprog :=
  let idz := v_idz v in
  let knew := v_knew v in
  let* xoptsq := nw_shift idz (v_dsq v) (v_xoptsq v) in
  let* alpha :=
    if (0 <? knew)%Z then
      biglag n npt xopt xpt bmat zmat idz ndim knew (v_dstep v) d vlag (vlag + npt)%Z w (w + n)%Z (w + n + n)%Z
    else $(v_alpha v) in
  let* beta := nw_vlag idz (v_kopt v) (v_dsq v) xoptsq in
  let* beta :=
    if (0 <? knew)%Z then
      let* temp := $one + $alpha * $beta / (vlag#knew * vlag#knew) in
      if nle (nabs temp) (nQ 4 5) then
        bigden n npt xopt xpt bmat zmat idz ndim (v_kopt v) knew d w vlag xnew (w + ndim)%Z (w + ndim * 6)%Z fuel
      else $beta
    else $beta in
  ngoto N290 (s_xoptsq xoptsq (s_alpha alpha (s_beta beta v))).

(** newuoa.c 1304-1309: L290 *)
Definition nw_290 (v : nvars) : nprog :=
  LOOP_ n (fun i =>
    at1 xnew i <~ xopt#i + d#i ;;
    at1 x i <~ xbase#i + xnew#i) ;;
  ngoto N310 (s_nf (v_nf v + 1)%Z v).

(** newuoa.c 1310-1316: L310 *)
Definition nw_310 (v : nvars) : nprog :=
  if (Z.max maxfun 1 <? v_nf v)%Z then nfail NW_TOO_MANY_EVALUATIONS (s_nf (v_nf v - 1)%Z v)
  else ngoto Neval v.

(** newuoa.c 1355-1371: the change in F predicted by the quadratic model *)
Definition nw_vquad : prog N :=
  let* (vquad, _) := LOOP n (fun j '(vquad, ih) =>
    let* vquad := $vquad + d#j * gq#j in
    LOOP j (fun i '(vquad, ih) =>
      let ih := (ih + 1)%Z in
      let* temp := d#i * xnew#j + d#j * xopt#i in
      let temp := if (i =? j)%Z then nmul half temp else temp in
      let* vquad := $vquad + $temp * hq#ih in
      $(vquad, ih)) (vquad, ih)) (zero, 0%Z) in
  LOOP npt (fun k vquad => $vquad + pq#k * w#k) vquad.

(** newuoa.c 1419-1452: the index of the next interpolation point to be deleted *)
Definition nw_choose (v : nvars) (fsave rhosq : N) : prog Z :=
  let '(ktemp, detrat) := if nle fsave (v_f v) then (v_kopt v, one) else (0%Z, zero) in
  let* (_, knew) := LOOP npt (fun k '(detrat, knew) =>
    let* hdiag := LOOP nptm (fun j hdiag =>
      let temp := if (j <? v_idz v)%Z then nopp one else one in
      $hdiag + $temp * (!(ZMAT k j) * !(ZMAT k j))) zero in
    let* temp := eabs ($(v_beta v) * $hdiag + vlag#k * vlag#k) in
    let* distsq := LOOP n (fun j distsq =>
      let* tempa := !(XPT k j) - xopt#j in
      $distsq + $tempa * $tempa) zero in
    let temp :=
      if nlt rhosq distsq then
        let tempa := ndiv distsq rhosq in
        nmul temp (nmul (nmul tempa tempa) tempa)
      else temp in
    if (nlt detrat temp && negb (k =? ktemp)%Z)%bool then $(temp, k) else $(detrat, knew)) (detrat, v_knew v) in
  $knew.

(** newuoa.c 1492-1544: the least Frobenius norm interpolant may replace the model; yields [itest] *)
Definition nw_frob (idz kopt itest : Z) (gqsq : N) : prog Z :=
  LOOP_ npt (fun k => at1 vlag k <~ fval#k - fval#kopt) ;;
  let* gisq := LOOP n (fun i gisq =>
    let* sum := LOOP npt (fun k sum => $sum + !(BMAT k i) * vlag#k) zero in
    let* gisq := $gisq + $sum * $sum in
    at1 w i <~ $sum ;;
    $gisq) zero in
  let itest := (itest + 1)%Z in
  let itest := if nlt gqsq (nmul gisq (nZ 100)) then 0%Z else itest in
  if (3 <=? itest)%Z then
    LOOP_ n (fun i => at1 gq i <~ w#i) ;;
    LOOP_ nh (fun ih => at1 hq ih <~ $zero) ;;
    LOOP_ nptm (fun j =>
      at1 w j <~ $zero ;;
      LOOP_ npt (fun k => at1 w j +~ vlag#k * !(ZMAT k j)) ;;
      if (j <? idz)%Z then at1 w j <~ - w#j else $tt) ;;
    LOOP_ npt (fun k =>
      at1 pq k <~ $zero ;;
      LOOP_ nptm (fun j => at1 pq k +~ !(ZMAT k j) * w#j)) ;;
    $0%Z
  else $itest.

(** newuoa.c 1460-1558: L410, the update of the model *)
Definition nw_410 (fsave : N) (v : nvars) : nprog :=
  let knew := v_knew v in
  let f := v_f v in
  let* idz := nupdate n npt bmat zmat (v_idz v) ndim vlag (v_beta v) knew w in
  at1 fval knew <~ $f ;;
  let* _ := LOOP n (fun i ih =>
    let* temp := pq#knew * !(XPT knew i) in
    LOOP i (fun j ih =>
      let ih := (ih + 1)%Z in
      at1 hq ih +~ $temp * !(XPT knew j) ;;
      $ih) ih) 0%Z in
  at1 pq knew <~ $zero ;;
  (* Update the other second derivative parameters, and then the gradient vector of the model. Also include the new
     interpolation point. *)
  LOOP_ nptm (fun j =>
    let* temp := $(v_diff v) * !(ZMAT knew j) in
    let temp := if (j <? idz)%Z then nopp temp else temp in
    LOOP_ npt (fun k => at1 pq k +~ $temp * !(ZMAT k j))) ;;
  let* gqsq := LOOP n (fun i gqsq =>
    at1 gq i +~ $(v_diff v) * !(BMAT knew i) ;;
    let* gqsq := $gqsq + gq#i * gq#i in
    XPT knew i <~ xnew#i ;;
    $gqsq) zero in
  let* itest :=
    if ((v_ksave v =? 0)%Z && neq (v_delta v) (v_rho v))%bool then
      if nlt (nQ 1 100) (nabs (v_ratio v)) then $0%Z
      else nw_frob idz (v_kopt v) (v_itest v) gqsq
    else $(v_itest v) in
  let v := s_idz idz (s_itest itest v) in
  let v := if nlt f fsave then s_kopt knew v else v in
  if (nle f (nadd fsave (nmul tenth (v_vquad v))) || (0 <? v_ksave v)%Z)%bool then ngoto N100 v
  else ngoto N460 (s_knew 0 v).

(** newuoa.c 1329-1455: after the evaluation of the objective function *)
Definition nw_new (v : nvars) : nprog :=
  if (v_nf v <=? npt)%Z then ngoto N70 v
  else if (v_knew v =? -1)%Z then nfail NW_SUCCESS v
  else
  let f := v_f v in
  let* vquad := nw_vquad in
  let* diff := $f - $(v_fopt v) - $vquad in
  let v := s_vquad vquad (s_diff diff (s_diffc (v_diffb v) (s_diffb (v_diffa v) (s_diffa (nabs diff) v)))) in
  let v := if nlt (v_rho v) (v_dnorm v) then s_nfsav (v_nf v) v else v in
  (* Update FOPT and XOPT if the new F is the least value of the objective function so far. *)
  let fsave := v_fopt v in
  let* v :=
    if nlt f (v_fopt v) then
      let* xoptsq := LOOP n (fun i xoptsq =>
        at1 xopt i <~ xnew#i ;;
        $xoptsq + xopt#i * xopt#i) zero in
      $(s_fopt f (s_xoptsq xoptsq v))
    else $v in
  let v := s_ksave (v_knew v) v in
  if (0 <? v_knew v)%Z then nw_410 fsave v else
  (* Pick the next value of DELTA after a trust region step. *)
  if nle zero vquad then nfail NW_STEP_FAILED v else
  let ratio := ndiv (nsub f fsave) vquad in
  let delta :=
    if nle ratio tenth then nmul half (v_dnorm v)
    else if nle ratio (nQ 7 10) then bmax (nmul (v_delta v) half) (v_dnorm v)
    else bmax (nmul (v_delta v) half) (nadd (v_dnorm v) (v_dnorm v)) in
  let delta := if nle delta (nmul (v_rho v) (nQ 3 2)) then v_rho v else delta in
  let tempa := bmax (nmul tenth delta) (v_rho v) in
  let rhosq := nmul tempa tempa in
  let v := s_ratio ratio (s_delta delta (s_rhosq rhosq v)) in
  let* knew := nw_choose v fsave rhosq in
  let v := s_knew knew v in
  if (knew =? 0)%Z then ngoto N460 v else nw_410 fsave v.

(** newuoa.c 1559-1587: L460 *)
Definition nw_460 (v : nvars) : nprog :=
  let* distsq := $(v_delta v) * $(nZ 4) * $(v_delta v) in
  let* (distsq, knew) := LOOP npt (fun k '(distsq, knew) =>
    let* sum := LOOP n (fun j sum =>
      let* tempa := !(XPT k j) - xopt#j in
      $sum + $tempa * $tempa) zero in
    if nlt distsq sum then $(sum, k) else $(distsq, knew)) (distsq, v_knew v) in
  let v := s_knew knew v in
  if (0 <? knew)%Z then
    let tempa := bmin (nmul tenth (nsqrt distsq)) (nmul half (v_delta v)) in
    let dstep := bmax tempa (v_rho v) in
    ngoto N120 (s_dstep dstep (s_dsq (nmul dstep dstep) v))
  else if (nlt zero (v_ratio v) || nlt (v_rho v) (bmax (v_delta v) (v_dnorm v)))%bool then ngoto N100 v
  else ngoto N490 v.

(** newuoa.c 1589-1632: L490 *)
Definition nw_490 (v : nvars) : nprog :=
  if nlt rhoend (v_rho v) then
    let delta := nmul half (v_rho v) in
    let ratio := ndiv (v_rho v) rhoend in
    let rho :=
      if nle ratio (nZ 16) then rhoend
      else if nle ratio (nZ 250) then nmul (nsqrt ratio) rhoend
      else nmul tenth (v_rho v) in
    ngoto N90 (s_delta (bmax delta rho) (s_ratio ratio (s_rho rho v)))
  else if (v_knew v =? -1)%Z then ngoto N290 v
  else nfail NW_SUCCESS v.

(** newuoa.c 1633-1638: done *)
Definition nw_done (v : nvars) : prog nvars :=
  if nle (v_fopt v) (v_f v) then
    LOOP_ n (fun i => at1 x i <~ xbase#i + xopt#i) ;;
    $(s_f (v_fopt v) v)
  else $v.

(** The code of a label.  [ev] is the evaluation of the objective function, [fin] what is done after [done]. *)
Definition nw_step (ev : nvars -> nprog) (fin : nvars -> prog B) (fuel : nat) (l : nlabel * nvars) : nprog :=
  let v := snd l in
  match fst l with
  | N50 => nw_50 v
  | N70 => nw_70 v
  | N90 => ngoto N100 (s_nfsav (v_nf v) v)
  | N100 => nw_100 fuel v
  | N120 => nw_120 fuel v
  | N290 => nw_290 v
  | N310 => nw_310 v
  | Neval => ev v
  | Nnew => nw_new v
  | N460 => nw_460 v
  | N490 => nw_490 v
  | Ndone => let* v := nw_done v in let* r := fin v in $(inr r)
  end.
End Main.

(** newuoa.c 583-597, 918-930: the partition of the workspace at address [w] *)
Definition o_xopt (n npt w : Z) : Z := (w + n)%Z.
Definition o_xnew (n npt w : Z) : Z := (o_xopt n npt w + n)%Z.
Definition o_xpt (n npt w : Z) : Z := (o_xnew n npt w + n)%Z.
Definition o_fval (n npt w : Z) : Z := (o_xpt n npt w + n * npt)%Z.
Definition o_gq (n npt w : Z) : Z := (o_fval n npt w + npt)%Z.
Definition o_hq (n npt w : Z) : Z := (o_gq n npt w + n)%Z.
Definition o_pq (n npt w : Z) : Z := (o_hq n npt w + n * (n + 1) / 2)%Z.
Definition o_bmat (n npt w : Z) : Z := (o_pq n npt w + npt)%Z.
Definition o_zmat (n npt w : Z) : Z := (o_bmat n npt w + (npt + n) * n)%Z.
Definition o_d (n npt w : Z) : Z := (o_zmat n npt w + npt * (npt - (n + 1)))%Z.
Definition o_vlag (n npt w : Z) : Z := (o_d n npt w + n)%Z.
Definition o_w (n npt w : Z) : Z := (o_vlag n npt w + (npt + n))%Z.

(** The machine with the arrays in the workspace *)
Definition nw_run {B} (n npt x : Z) (rhobeg rhoend : N) (maxfun w : Z) (ev : nvars -> prog (nlabel * nvars + B))
  (fin : nvars -> prog B) (fi fuel : nat) : nlabel * nvars -> prog B :=
  machine fuel (nw_step n npt x rhobeg rhoend maxfun w (o_xopt n npt w) (o_xnew n npt w) (o_xpt n npt w) (o_fval n npt w)
    (o_gq n npt w) (o_hq n npt w) (o_pq n npt w) (o_bmat n npt w) (o_zmat n npt w) (o_d n npt w) (o_vlag n npt w)
    (o_w n npt w) ev fin fi).
Definition nw_begin (n npt x : Z) (rhobeg : N) (w : Z) (v : nvars) : prog nvars :=
  nw_start n npt x rhobeg w (o_xpt n npt w) (o_hq n npt w) (o_pq n npt w) (o_bmat n npt w) (o_zmat n npt w) v.

(** newuoa.c 562, 887: the size of the workspace *)
Definition nw_size (n npt : Z) : Z := ((npt + 13) * (npt + n) + 3 * n * (n + 3) / 2)%Z.

(** newuoa.c 893-913, 567: the variables that are not set; the other ones are set before they are used, as well as the
    status in newuoa_optimize *)
Definition nv0 : nvars := mknv zero zero zero zero zero zero zero zero zero zero zero zero zero zero zero zero zero
    zero zero zero
  zero zero zero 0 0 0 0 0 0 0 0 0 0 0 NW_ITERATE.

(** ** newuoa.c 739-1724: newuoa_optimize *)
Section Optimize.
Variables (n npt : Z) (maximize : bool) (fn : list (list N * N) -> list N -> N) (x : Z) (scl : option Z) (rhobeg rhoend : N).
Variables (maxfun work : Z).

(** newuoa.c 1331-1346: [scl] is NULL or the address of the scaling factors *)
Definition nw_call (scl : option Z) (v : nvars) : prog (nlabel * nvars + nstatus) :=
  let xtmp := (work + nw_size n npt)%Z in
  let* xs := match scl with None => $x | Some scl => scale xtmp n scl x ;; $xtmp end in
  let* f := objfun (mkctx fn None 0 one n) xs in
  $(inl (Nnew, s_f (if maximize then nopp f else f) v)).

(** newuoa.c 1640-1649, 1719, 1723 *)
Definition nw_end (scl : option Z) (v : nvars) : prog nstatus :=
  (match scl with
   | None => $tt
   | Some scl => loop 0 (n - 1) (fun i _ => (x + i)%Z <~ !(x + i)%Z * !(scl + i)%Z) tt
   end) ;;
  work <~ $(if maximize then nopp (v_f v) else v_f v) ;;
  $(v_status v).

Definition nw_optimize (scl : option Z) (fi fuel : nat) : prog nstatus :=
  let* v := nw_begin n npt x rhobeg work nv0 in
  nw_run n npt x rhobeg rhoend maxfun work (nw_call scl) (nw_end scl) fi fuel (N50, v).

Definition newuoa_optimize (fi fuel : nat) : prog nstatus :=
  if (n <? 2)%Z then $NW_BAD_NVARS
  else if ((npt <? n + 2) || ((n + 2) * (n + 1) / 2 <? npt))%Z%bool then $NW_BAD_NPT
  else if (nle rhoend zero || nlt rhobeg rhoend)%bool then $NW_BAD_RHO_RANGE
  else
    match scl with
    | None => nw_optimize None fi fuel
    | Some scl =>
        (* newuoa.c 866-880: the same code as in bobyqa.c *)
        let* r := opt_check_scl n scl in
        match r with
        | None => $NW_BAD_SCALING
        | Some false => nw_optimize None fi fuel
        | Some true =>
            loop 0 (n - 1) (fun i _ => (x + i)%Z <~ !(x + i)%Z / !(scl + i)%Z) tt ;;
            nw_optimize (Some scl) fi fuel
        end
    end.
End Optimize.

(** newuoa.c 253-260: newuoa *)
Definition newuoa (n npt : Z) (fn : list (list N * N) -> list N -> N) (x : Z) (rhobeg rhoend : N) (maxfun work : Z)
  (fi fuel : nat) : prog nstatus :=
  newuoa_optimize n npt false fn x None rhobeg rhoend maxfun work fi fuel.

(** ** The reverse communication version

    newuoa.c 453-519: newuoa_context; the address of the workspace instead of the ones of its parts; the status is in the
    variables. *)
Record ncontext := mknc {
  k_n : Z; k_npt : Z; k_rhobeg : N; k_rhoend : N; k_maxfun : Z; k_w : Z; k_v : nvars; k_nevals : Z
}.
Definition k_status (c : ncontext) : nstatus := v_status (k_v c).
Definition k_set (c : ncontext) (v : nvars) (nevals : Z) : ncontext :=
  mknc (k_n c) (k_npt c) (k_rhobeg c) (k_rhoend c) (k_maxfun c) (k_w c) v nevals.

(** newuoa.c 525-603: newuoa_create.  [a] is the address of the workspace allocated by malloc, [None] if it fails; the
    result is [None]
    for NULL.  The errors and errno are not modelled. *)
Definition newuoa_create (n npt : Z) (rhobeg rhoend : N) (maxfun : Z) (a : option Z) : prog (option ncontext) :=
  if (n <? 0)%Z then $None
  else if ((npt <? n + 2) || ((n + 2) * (n + 1) / 2 <? npt))%Z%bool then $None
  else if (nle rhoend zero || nlt rhobeg rhoend)%bool then $None
  else if (maxfun <? 1)%Z then $None
  else
    match a with
    | None => $None
    | Some a =>
        loop 0 (nw_size n npt - 1) (fun i _ => (a + i)%Z <~ $zero) tt ;;
        $(Some (mknc n npt rhobeg rhoend maxfun a nv0 0))
    end.

(** newuoa.c 613-653: newuoa_restart, newuoa_get_status, newuoa_get_nevals and newuoa_get_rho; [None] for NULL *)
Definition newuoa_restart (c : ncontext) : ncontext := k_set c (s_status NW_ITERATE (k_v c)) 0.
Definition newuoa_get_status (c : option ncontext) : nstatus := match c with None => NW_BAD_ADDRESS | Some c =>
    k_status c end.
Definition newuoa_get_nevals (c : option ncontext) : Z := match c with None => (-1)%Z | Some c => k_nevals c end.
Definition newuoa_get_rho (c : option ncontext) : N := match c with None => onemin | Some c => v_rho (k_v c) end.

(** newuoa.c 1318-1328: the request of a value *)
Definition nw_request (v : nvars) : prog (nlabel * nvars + nvars) :=
  match v_status v with
  | NW_INITIAL_ITERATE => $(inl (Nnew, s_status NW_ITERATE v))
  | _ => $(inr (s_status NW_ITERATE v))
  end.

(** newuoa.c 736-1724: newuoa_iterate for a context that is not NULL *)
Definition newuoa_iterate (c : ncontext) (f : N) (x : option Z) (fi fuel : nat) : prog ncontext :=
  match x with
  | None => $(k_set c (s_status NW_BAD_ADDRESS (k_v c)) (k_nevals c))
  | Some x =>
      match k_status c with
      | NW_ITERATE =>
          let nevals := (k_nevals c + 1)%Z in
          let v := s_f f (k_v c) in
          let run := nw_run (k_n c) (k_npt c) x (k_rhobeg c) (k_rhoend c) (k_maxfun c) (k_w c) nw_request (fun v => $v)
    fi fuel in
          if (1 <? nevals)%Z then
            let* v := run (Nnew, v) in
            $(k_set c v nevals)
          else if negb (nevals =? 1)%Z then $(k_set c (s_status NW_CORRUPTED (k_v c)) nevals)
          else
            let* v := nw_begin (k_n c) (k_npt c) x (k_rhobeg c) (k_w c) (s_status NW_INITIAL_ITERATE v) in
            let* v := run (N50, v) in
            $(k_set c v nevals)
      | _ => $(k_set c (s_status NW_CORRUPTED (k_v c)) (k_nevals c))
      end
  end.
End Newuoa.
