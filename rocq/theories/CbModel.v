(** * Model of cobyla.c: Powell's COBYLA

    All of cobyla.c but the printing, the test problems, cobyla_reason and the Fortran wrapper.  The file is compiled twice,
    (lines 315, 343-352) once for cobyla_iterate and once for cobyla_optimize: the common code is written once here, as the steps
    of a machine; the two functions are two ways to run it.  The indices of the arrays start at 1 as in the macros of the C
    code.  The integers do not overflow.

    The integer array IACT only matters inside trstlp, which sets its elements before it reads them; it is a variable of trstlp here
    ([iarr]), except the number of evaluations stored at the end in iact[0], which is a result of the functions. *)
From Coq Require Import ZArith List Bool.
From Verif Require Import Num BqLang BqModel.
Import ListNotations.
Local Open Scope Z_scope.
Local Open Scope bq_scope.

(** cobyla.h 50-63: cobyla_status *)
Inductive cstatus := CB_INITIAL_ITERATE | CB_ITERATE | CB_SUCCESS | CB_BAD_NVARS | CB_BAD_NCONS | CB_BAD_RHO_RANGE
  | CB_BAD_SCALING | CB_ROUNDING_ERRORS | CB_TOO_MANY_EVALUATIONS | CB_BAD_ADDRESS | CB_CORRUPTED.

(** The elements of IACT that have been set *)
Definition iarr := Z -> option Z.

Section Cobyla.
Context {N : Num}.
Notation prog := (prog N).

(** ** IACT, an array with the elements IACT(1), ..., IACT(m+1)

    Reading an element that has not been set is undefined.  Simplification: for a degenerate active set (NACT is 0, or becomes 1)
    the code may access IACT(0), the element before the array of the caller; this ends the program with the outcome [cast], to
    tell this access from the other ones. *)
Definition iget (m : Z) (ia : iarr) (k : Z) : prog Z :=
  if (k =? 0)%Z then cast
  else if ((1 <=? k) && (k <=? m + 1))%Z%bool then match ia k with Some v => $v | None => fun s => Undef s end
  else fun s => Undef s.
Definition iput (m : Z) (ia : iarr) (k v : Z) : prog iarr :=
  if (k =? 0)%Z then cast
  else if ((1 <=? k) && (k <=? m + 1))%Z%bool then $(fun j => if (j =? k)%Z then Some v else ia j)
  else fun s => Undef s.

(** ** cobyla.c 1097-1542: trstlp *)

(** cobyla.c 1110-1114: the variables that are used after a label *)
Record tvars := mktv {
  t_icon : Z; t_mcon : Z; t_nact : Z; t_nactx : Z; t_icount : Z; t_resmax : N; t_optold : N; t_ia : iarr
}.
Definition u_icon (a : Z) (v : tvars) : tvars :=
  mktv a (t_mcon v) (t_nact v) (t_nactx v) (t_icount v) (t_resmax v) (t_optold v) (t_ia v).
Definition u_mcon (a : Z) (v : tvars) : tvars :=
  mktv (t_icon v) a (t_nact v) (t_nactx v) (t_icount v) (t_resmax v) (t_optold v) (t_ia v).
Definition u_nact (a : Z) (v : tvars) : tvars :=
  mktv (t_icon v) (t_mcon v) a (t_nactx v) (t_icount v) (t_resmax v) (t_optold v) (t_ia v).
Definition u_nactx (a : Z) (v : tvars) : tvars :=
  mktv (t_icon v) (t_mcon v) (t_nact v) a (t_icount v) (t_resmax v) (t_optold v) (t_ia v).
Definition u_icount (a : Z) (v : tvars) : tvars :=
  mktv (t_icon v) (t_mcon v) (t_nact v) (t_nactx v) a (t_resmax v) (t_optold v) (t_ia v).
Definition u_resmax (a : N) (v : tvars) : tvars :=
  mktv (t_icon v) (t_mcon v) (t_nact v) (t_nactx v) (t_icount v) a (t_optold v) (t_ia v).
Definition u_optold (a : N) (v : tvars) : tvars :=
  mktv (t_icon v) (t_mcon v) (t_nact v) (t_nactx v) (t_icount v) (t_resmax v) a (t_ia v).
Definition u_ia (a : iarr) (v : tvars) : tvars :=
  mktv (t_icon v) (t_mcon v) (t_nact v) (t_nactx v) (t_icount v) (t_resmax v) (t_optold v) a.

(** The labels; [T210] has the variable [kk] *)
Inductive tlabel := T60 | T70 | T210 (kk : Z) | T260 | T320 | T340 | T480 | T490.

Section Trstlp.
Variables (n m a b : Z) (rho : N) (dx z zdota vmultc sdirn dxnew vmultd : Z).
Let A := at2 a n.
Let Z_ := at2 z n.
(** The result is *ifull *)
Notation tprog := (prog (tlabel * tvars + Z)).
Definition tgoto (l : tlabel) (v : tvars) : tprog := $(inl (l, v)).
Definition tiny : N := nQ 1 1000000.
Definition Op1 : N := tenth.
Definition Op2 : N := nQ 1 5.

(** The test that [e] could be zero within the rounding errors, [eabs] being the sum of the absolute values of its terms:
    cobyla.c 1194-1196, 1465-1467, 1493-1495 *)
Definition negligible (e eabs : N) : bool :=
  let acca := nadd eabs (nmul Op1 (nabs e)) in
  let accb := nadd eabs (nmul Op2 (nabs e)) in
  (nle acca eabs || nle accb acca)%bool.

(** The sums of Z(i,k)*DXNEW(i) and of the absolute values, cobyla.c 1187-1193, 1232-1238, 1458-1464 *)
Definition tr_zdot (k : Z) : prog (N * N) :=
  LOOP n (fun i '(sp, spabs) =>
    let* temp := !(Z_ i k) * dxnew#i in
    $(nadd sp temp, nadd spabs (nabs temp))) (zero, zero).

(** cobyla.c 1116-1144 *)
Definition tr_init : prog (tlabel * tvars) :=
  LOOP_ n (fun i =>
    LOOP_ n (fun j => Z_ i j <~ $zero) ;;
    Z_ i i <~ $one ;;
    at1 dx i <~ $zero) ;;
  let* (resmax, icon) := LOOP m (fun k '(resmax, icon) =>
    let* bk := b#k in
    $(if nlt resmax bk then (bk, k) else (resmax, icon))) (zero, 0%Z) in
  let* ia := LOOP m (fun k ia =>
    let* ia := iput m ia k k in
    at1 vmultc k <~ $resmax - b#k ;;
    $ia) (fun _ => None) in
  let v := mktv icon m 0 0 0 resmax zero ia in
  if neq resmax zero then $(T480, v)
  else
    LOOP_ n (fun i => at1 sdirn i <~ $zero) ;;
    $(T60, v).

(** The interchange of the columns K and KP = K+1 of Z, and of the constraints, cobyla.c 1276-1293, 1358-1375; yields [ia] *)
Definition tr_move (ia : iarr) (k : Z) : prog iarr :=
  let kp := (k + 1)%Z in
  let* kw := iget m ia kp in
  let* sp := LOOP n (fun i sp => $sp + !(Z_ i k) * !(A i kw)) zero in
  let* temp := esqrt ($sp * $sp + zdota#kp * zdota#kp) in
  let* alpha := zdota#kp / $temp in
  let* beta := $sp / $temp in
  at1 zdota kp <~ $alpha * zdota#k ;;
  at1 zdota k <~ $temp ;;
  LOOP_ n (fun i =>
    let* temp := $alpha * !(Z_ i kp) + $beta * !(Z_ i k) in
    Z_ i kp <~ $alpha * !(Z_ i k) - $beta * !(Z_ i kp) ;;
    Z_ i k <~ $temp) ;;
  let* ia := iput m ia k kw in
  at1 vmultc k <~ vmultc#kp ;;
  $ia.

(** The constraint ICON becomes the last one of the active set, cobyla.c 1271-1298, 1353-1380; yields [ia] *)
Definition tr_last (ia : iarr) (icon nact : Z) : prog iarr :=
  if (icon <? nact)%Z then
    let* isave := iget m ia icon in
    let* vsave := vmultc#icon in
    let* ia := loop icon (nact - 1) (fun k ia => tr_move ia k) ia in
    let* ia := iput m ia nact isave in
    at1 vmultc nact <~ $vsave ;;
    $ia
  else $ia.

(** cobyla.c 1185-1211: the rotations of the last columns of Z; yields [tot] *)
Definition tr_rotate (nact : Z) : prog N :=
  loop 1 (n - nact) (fun t tot =>
    let k := (n + 1 - t)%Z in
    let* (sp, spabs) := tr_zdot k in
    let sp := if negligible sp spabs then zero else sp in
    if neq tot zero then $sp
    else
      let kp := (k + 1)%Z in
      let* temp := esqrt ($sp * $sp + $tot * $tot) in
      let alpha := ndiv sp temp in
      let beta := ndiv tot temp in
      LOOP_ n (fun i =>
        let* temp := $alpha * !(Z_ i k) + $beta * !(Z_ i kp) in
        Z_ i kp <~ $alpha * !(Z_ i kp) - $beta * !(Z_ i k) ;;
        Z_ i k <~ $temp) ;;
      $temp) zero.

(** cobyla.c 1229-1261: the multipliers of the linear combination, from K = NACT to 1 (once if NACT is 0); yields [ratio] *)
Definition tr_multipliers (ia : iarr) (nact : Z) : prog N :=
  loop 1 (Z.max nact 1) (fun t ratio =>
    let k := (nact + 1 - t)%Z in
    let* (zdotv, zdvabs) := tr_zdot k in
    let acca := nadd zdvabs (nmul Op1 (nabs zdotv)) in
    let accb := nadd zdvabs (nmul Op2 (nabs zdotv)) in
    if (nlt zdvabs acca && nlt acca accb)%bool then
      let* temp := $zdotv / zdota#k in
      let* ratio :=
        if nlt zero temp then
          let* c := iget m ia k in
          if (c <=? m)%Z then
            let* tempa := vmultc#k / $temp in
            $(if (nlt ratio zero || nlt tempa ratio)%bool then tempa else ratio)
          else $ratio
        else $ratio in
      (if (2 <=? k)%Z then
         let* kw := iget m ia k in
         LOOP_ n (fun i => at1 dxnew i -~ $temp * !(A i kw))
       else $tt) ;;
      at1 vmultd k <~ $temp ;;
      $ratio
    else
      at1 vmultd k <~ $zero ;;
      $ratio) onemin.

(** cobyla.c 1154-1173: L_70, the count of the iterations without progress; yields [None] for goto L_490 *)
Definition tr_progress (v : tvars) : prog (option tvars) :=
  let* optnew :=
    if (t_mcon v =? m)%Z then $(t_resmax v)
    else LOOP n (fun i optnew => $optnew - dx#i * !(A i (t_mcon v))) zero in
  $(if ((t_icount v =? 0)%Z || nlt optnew (t_optold v))%bool then
      Some (u_optold optnew (u_nactx (t_nact v) (u_icount 3 v)))
    else if (t_nactx v <? t_nact v)%Z then Some (u_nactx (t_nact v) (u_icount 3 v))
    else if (t_icount v - 1 =? 0)%Z then None
    else Some (u_icount (t_icount v - 1) v)).

(** cobyla.c 1175-1306: the addition of the constraint ICON to the active set *)
Definition tr_add (v : tvars) : tprog :=
  let icon := t_icon v in
  let nact := t_nact v in
  let* kk := iget m (t_ia v) icon in
  LOOP_ n (fun i => at1 dxnew i <~ !(A i kk)) ;;
  let* tot := tr_rotate nact in
  if negb (neq tot zero) then
    let nact := (nact + 1)%Z in
    at1 zdota nact <~ $tot ;;
    at1 vmultc icon <~ vmultc#nact ;;
    at1 vmultc nact <~ $zero ;;
    tgoto (T210 kk) (u_nact nact v)
  else
  let* ratio := tr_multipliers (t_ia v) nact in
  if nlt ratio zero then tgoto T490 v else
  LOOP_ nact (fun k =>
    let* tempb := vmultc#k - $ratio * vmultd#k in
    at1 vmultc k <~ $(bmax zero tempb)) ;;
  let* ia := tr_last (t_ia v) icon nact in
  let* temp := LOOP n (fun i temp => $temp + !(Z_ i nact) * !(A i kk)) zero in
  if neq temp zero then tgoto T490 (u_ia ia v) else
  at1 zdota nact <~ $temp ;;
  at1 vmultc icon <~ $zero ;;
  at1 vmultc nact <~ $ratio ;;
  tgoto (T210 kk) (u_ia ia v).

(** cobyla.c 1154-1306: L_70 *)
Definition tr_70 (v : tvars) : tprog :=
  let* r := tr_progress v in
  match r with
  | None => tgoto T490 v
  | Some v => if (t_icon v <=? t_nact v)%Z then tgoto T260 v else tr_add v
  end.

(** cobyla.c 1308-1348: L_210 *)
Definition tr_210 (kk : Z) (v : tvars) : tprog :=
  let nact := t_nact v in
  let* c := iget m (t_ia v) nact in
  let* ia := iput m (t_ia v) (t_icon v) c in
  let* ia := iput m ia nact kk in
  let* ia :=
    if ((m <? t_mcon v) && negb (kk =? t_mcon v))%Z%bool then
      let k := (nact - 1)%Z in
      let* sp := LOOP n (fun i sp => $sp + !(Z_ i k) * !(A i kk)) zero in
      let* temp := esqrt ($sp * $sp + zdota#nact * zdota#nact) in
      let* alpha := zdota#nact / $temp in
      let* beta := $sp / $temp in
      at1 zdota nact <~ $alpha * zdota#k ;;
      at1 zdota k <~ $temp ;;
      LOOP_ n (fun i =>
        let* temp := $alpha * !(Z_ i nact) + $beta * !(Z_ i k) in
        Z_ i nact <~ $alpha * !(Z_ i k) - $beta * !(Z_ i nact) ;;
        Z_ i k <~ $temp) ;;
      let* c := iget m ia k in
      let* ia := iput m ia nact c in
      let* ia := iput m ia k kk in
      let* temp := vmultc#k in
      at1 vmultc k <~ vmultc#nact ;;
      at1 vmultc nact <~ $temp ;;
      $ia
    else $ia in
  let v := u_ia ia v in
  if (m <? t_mcon v)%Z then tgoto T320 v else
  let* kk := iget m ia nact in
  let* temp := LOOP n (fun i temp => $temp + sdirn#i * !(A i kk)) zero in
  let* temp := ($temp - $one) / zdota#nact in
  LOOP_ n (fun i => at1 sdirn i -~ $temp * !(Z_ i nact)) ;;
  tgoto T340 v.

(** cobyla.c 1350-1393: L_260 *)
Definition tr_260 (v : tvars) : tprog :=
  let* ia := tr_last (t_ia v) (t_icon v) (t_nact v) in
  let nact := (t_nact v - 1)%Z in
  let v := u_nact nact (u_ia ia v) in
  if (m <? t_mcon v)%Z then tgoto T320 v else
  let* temp := LOOP n (fun i temp => $temp + sdirn#i * !(Z_ i (nact + 1))%Z) zero in
  LOOP_ n (fun i => at1 sdirn i -~ $temp * !(Z_ i (nact + 1))%Z) ;;
  tgoto T340 v.

(** cobyla.c 1395-1400: L_320 *)
Definition tr_320 (v : tvars) : tprog :=
  let* temp := $one / zdota#(t_nact v) in
  LOOP_ n (fun i => at1 sdirn i <~ $temp * !(Z_ i (t_nact v))) ;;
  tgoto T340 v.

(** cobyla.c 1408-1424: DD and the step to the boundary of the trust region; [None] if DD <= 0 *)
Definition tr_stpful : prog (option N) :=
  let* (dd, sd, ss) := LOOP n (fun i '(dd, sd, ss) =>
    let* d := dx#i in
    let* s := sdirn#i in
    $(if nle (nmul tiny rho) (nabs d) then nsub dd (nmul d d) else dd, nadd sd (nmul s d), nadd ss (nmul s s)))
    (nmul rho rho, zero, zero) in
  if nle dd zero then $None
  else
    let temp := nsqrt (nmul ss dd) in
    let temp := if nle (nmul tiny temp) (nabs sd) then nsqrt (nadd (nmul ss dd) (nmul sd sd)) else temp in
    $(Some (ndiv dd (nadd temp sd))).

(** cobyla.c 1439-1450: RESMAX at DXNEW *)
Definition tr_resmax (ia : iarr) (nact : Z) : prog N :=
  LOOP nact (fun k resmax =>
    let* kk := iget m ia k in
    let* temp := b#kk in
    let* temp := LOOP n (fun i temp => $temp - !(A i kk) * dxnew#i) temp in
    $(bmax resmax temp)) zero.

(** cobyla.c 1452-1476: the new Lagrange multipliers, from K = NACT to 1 (once if NACT is 0) *)
Definition tr_vmultd (v : tvars) : prog unit :=
  loop 1 (Z.max (t_nact v) 1) (fun t _ =>
    let k := (t_nact v + 1 - t)%Z in
    let* (zdotw, zdwabs) := tr_zdot k in
    let zdotw := if negligible zdotw zdwabs then zero else zdotw in
    at1 vmultd k <~ $zdotw / zdota#k ;;
    if (k <? 2)%Z then $tt
    else
      let* kk := iget m (t_ia v) k in
      LOOP_ n (fun i => at1 dxnew i -~ vmultd#k * !(A i kk))) tt ;;
  if (m <? t_mcon v)%Z then
    let* c := vmultd#(t_nact v) in
    if nlt c zero then at1 vmultd (t_nact v) <~ $zero else $tt
  else $tt.

(** cobyla.c 1482-1498: the new constraint residuals *)
Definition tr_residuals (v : tvars) (resmax : N) : prog unit :=
  loop (t_nact v + 1) (t_mcon v) (fun k _ =>
    let* kk := iget m (t_ia v) k in
    let* sum := $resmax - b#kk in
    let* sumabs := $resmax + eabs (b#kk) in
    let* (sum, sumabs) := LOOP n (fun i '(sum, sumabs) =>
      let* temp := !(A i kk) * dxnew#i in
      $(nadd sum temp, nadd sumabs (nabs temp))) (sum, sumabs) in
    at1 vmultd k <~ $(if negligible sum sumabs then zero else sum)) tt.

(** cobyla.c 1402-1527: L_340 *)
Definition tr_340 (v : tvars) : tprog :=
  let mcon := t_mcon v in
  let* r := tr_stpful in
  match r with
  | None => tgoto T490 v
  | Some stpful =>
      let acca := nadd stpful (nmul Op1 (t_resmax v)) in
      let accb := nadd stpful (nmul Op2 (t_resmax v)) in
      if ((mcon =? m)%Z && (nle acca stpful || nle accb acca))%bool then tgoto T480 v else
      let step := if (mcon =? m)%Z then bmin stpful (t_resmax v) else stpful in
      LOOP_ n (fun i => at1 dxnew i <~ dx#i + $step * sdirn#i) ;;
      let* resmax := if (mcon =? m)%Z then tr_resmax (t_ia v) (t_nact v) else $(t_resmax v) in
      tr_vmultd v ;;
      LOOP_ n (fun i => at1 dxnew i <~ dx#i + $step * sdirn#i) ;;
      tr_residuals v resmax ;;
      (* Calculate the fraction of the step from DX to DXNEW that will be taken. *)
      let* (ratio, icon) := LOOP mcon (fun k '(ratio, icon) =>
        let* d := vmultd#k in
        if nlt d zero then
          let* temp := vmultc#k / (vmultc#k - $d) in
          $(if nlt temp ratio then (temp, k) else (ratio, icon))
        else $(ratio, icon)) (one, 0%Z) in
      (* Update DX, VMULTC and RESMAX. *)
      let temp := nsub one ratio in
      LOOP_ n (fun i => at1 dx i <~ $temp * dx#i + $ratio * dxnew#i) ;;
      LOOP_ mcon (fun k =>
        let* tempb := $temp * vmultc#k + $ratio * vmultd#k in
        at1 vmultc k <~ $(bmax zero tempb)) ;;
      let resold := t_resmax v in
      let resmax := if (mcon =? m)%Z then nadd resold (nmul ratio (nsub resmax resold)) else resmax in
      let v := u_resmax resmax (u_icon icon v) in
      if (0 <? icon)%Z then tgoto T70 v
      else if neq step stpful then $(inr 1%Z)
      else tgoto T480 v
  end.

(** cobyla.c 1528-1533: L_480 *)
Definition tr_480 (v : tvars) : tprog :=
  let mcon := (m + 1)%Z in
  let* ia := iput m (t_ia v) mcon mcon in
  at1 vmultc mcon <~ $zero ;;
  tgoto T60 (u_mcon mcon (u_icon mcon (u_ia ia v))).

Definition tr_step (l : tlabel * tvars) : tprog :=
  let v := snd l in
  match fst l with
  | T60 => tgoto T70 (u_optold zero (u_icount 0 v))
  | T70 => tr_70 v
  | T210 kk => tr_210 kk v
  | T260 => tr_260 v
  | T320 => tr_320 v
  | T340 => tr_340 v
  | T480 => tr_480 v
  | T490 => if (t_mcon v =? m)%Z then tgoto T480 v else $(inr 0%Z)
  end.

Definition trstlp (fuel : nat) : prog Z :=
  let* l := tr_init in
  machine fuel tr_step l.
End Trstlp.

(** ** The main loop

    cobyla.c 365-379: the variables that are used after a label *)
Record cvars := mkcv {
  c_parmu : N; c_parsig : N; c_prerec : N; c_prerem : N; c_rho : N; c_f : N; c_resmax : N;
  c_ibrnch : Z; c_iflag : Z; c_ifull : Z; c_jdrop : Z; c_nfvals : Z; c_status : cstatus
}.
Definition p_parmu (a : N) (v : cvars) : cvars :=
  mkcv a (c_parsig v) (c_prerec v) (c_prerem v) (c_rho v) (c_f v) (c_resmax v) (c_ibrnch v) (c_iflag v) (c_ifull v) (c_jdrop v) (c_nfvals v) (c_status v).
Definition p_parsig (a : N) (v : cvars) : cvars :=
  mkcv (c_parmu v) a (c_prerec v) (c_prerem v) (c_rho v) (c_f v) (c_resmax v) (c_ibrnch v) (c_iflag v) (c_ifull v) (c_jdrop v) (c_nfvals v) (c_status v).
Definition p_prerec (a : N) (v : cvars) : cvars :=
  mkcv (c_parmu v) (c_parsig v) a (c_prerem v) (c_rho v) (c_f v) (c_resmax v) (c_ibrnch v) (c_iflag v) (c_ifull v) (c_jdrop v) (c_nfvals v) (c_status v).
Definition p_prerem (a : N) (v : cvars) : cvars :=
  mkcv (c_parmu v) (c_parsig v) (c_prerec v) a (c_rho v) (c_f v) (c_resmax v) (c_ibrnch v) (c_iflag v) (c_ifull v) (c_jdrop v) (c_nfvals v) (c_status v).
Definition p_rho (a : N) (v : cvars) : cvars :=
  mkcv (c_parmu v) (c_parsig v) (c_prerec v) (c_prerem v) a (c_f v) (c_resmax v) (c_ibrnch v) (c_iflag v) (c_ifull v) (c_jdrop v) (c_nfvals v) (c_status v).
Definition p_f (a : N) (v : cvars) : cvars :=
  mkcv (c_parmu v) (c_parsig v) (c_prerec v) (c_prerem v) (c_rho v) a (c_resmax v) (c_ibrnch v) (c_iflag v) (c_ifull v) (c_jdrop v) (c_nfvals v) (c_status v).
Definition p_resmax (a : N) (v : cvars) : cvars :=
  mkcv (c_parmu v) (c_parsig v) (c_prerec v) (c_prerem v) (c_rho v) (c_f v) a (c_ibrnch v) (c_iflag v) (c_ifull v) (c_jdrop v) (c_nfvals v) (c_status v).
Definition p_ibrnch (a : Z) (v : cvars) : cvars :=
  mkcv (c_parmu v) (c_parsig v) (c_prerec v) (c_prerem v) (c_rho v) (c_f v) (c_resmax v) a (c_iflag v) (c_ifull v) (c_jdrop v) (c_nfvals v) (c_status v).
Definition p_iflag (a : Z) (v : cvars) : cvars :=
  mkcv (c_parmu v) (c_parsig v) (c_prerec v) (c_prerem v) (c_rho v) (c_f v) (c_resmax v) (c_ibrnch v) a (c_ifull v) (c_jdrop v) (c_nfvals v) (c_status v).
Definition p_ifull (a : Z) (v : cvars) : cvars :=
  mkcv (c_parmu v) (c_parsig v) (c_prerec v) (c_prerem v) (c_rho v) (c_f v) (c_resmax v) (c_ibrnch v) (c_iflag v) a (c_jdrop v) (c_nfvals v) (c_status v).
Definition p_jdrop (a : Z) (v : cvars) : cvars :=
  mkcv (c_parmu v) (c_parsig v) (c_prerec v) (c_prerem v) (c_rho v) (c_f v) (c_resmax v) (c_ibrnch v) (c_iflag v) (c_ifull v) a (c_nfvals v) (c_status v).
Definition p_nfvals (a : Z) (v : cvars) : cvars :=
  mkcv (c_parmu v) (c_parsig v) (c_prerec v) (c_prerem v) (c_rho v) (c_f v) (c_resmax v) (c_ibrnch v) (c_iflag v) (c_ifull v) (c_jdrop v) a (c_status v).
Definition p_status (a : cstatus) (v : cvars) : cvars :=
  mkcv (c_parmu v) (c_parsig v) (c_prerec v) (c_prerem v) (c_rho v) (c_f v) (c_resmax v) (c_ibrnch v) (c_iflag v) (c_ifull v) (c_jdrop v) (c_nfvals v) a.

(** The labels; [Ceval] is the call of calcfc, line 548, or its request, line 534; [Cnew] is line 554;
    [Cend] is what follows the closing brace of line 982 *)
Inductive clabel := Ccall | Ceval | Cnew | C140 | C370 | C440 | C550 | C600 | Cend.

Section Main.
Variables (n m x : Z) (rhobeg rhoend : N) (maxfun : Z).
Variables (con sim simi datmat a vsig veta sigbar dx w : Z).
(** The address of the constraints given by the caller of cobyla_iterate; [None] in cobyla_optimize *)
Variable c : option Z.
Let np := (n + 1)%Z.
Let mp := (m + 1)%Z.
Let mpp := (m + 2)%Z.
Let SIM := at2 sim n.
Let SIMI := at2 simi n.
Let DATMAT := at2 datmat mpp.
Let A := at2 a n.
Context {B : Type}.
Notation cprog := (prog (clabel * cvars + B)).
Definition cgoto (l : clabel) (v : cvars) : cprog := $(inl (l, v)).
Definition cfail (st : cstatus) (v : cvars) : cprog := cgoto C600 (p_status st v).

(** cobyla.c 486-502: the initial values *)
Definition co_start (v : cvars) : prog cvars :=
  let rho := rhobeg in
  let temp := ndiv one rho in
  LOOP_ n (fun i =>
    SIM i np <~ x#i ;;
    LOOP_ n (fun j =>
      SIM i j <~ $zero ;;
      SIMI i j <~ $zero) ;;
    SIM i i <~ $rho ;;
    SIMI i i <~ $temp) ;;
  $(p_iflag 0 (p_rho rho (p_parmu zero (p_jdrop np (p_ibrnch 0 v))))).

(** cobyla.c 527-533: call_calcfc *)
Definition co_call (v : cvars) : cprog :=
  if ((maxfun <=? c_nfvals v) && (0 <? c_nfvals v))%Z%bool then cfail CB_TOO_MANY_EVALUATIONS v
  else cgoto Ceval v.

(** cobyla.c 556-572: the worst constraint *)
Definition co_resmax : prog N :=
  loop 0 (m - 1) (fun k resmax =>
    let* temp :=
      match c with
      | Some c => let* temp := !(c + k)%Z in (con + k)%Z <~ $temp ;; - $temp
      | None => - !(con + k)%Z
      end in
    $(if nlt resmax temp then temp else resmax)) zero.

(** cobyla.c 590-618: the vertices of the initial simplex *)
Definition co_initial (v : cvars) : cprog :=
  let jdrop := c_jdrop v in
  (if (jdrop <=? n)%Z then
     If !(DATMAT mp np) <=? $(c_f v) Then at1 x jdrop <~ !(SIM jdrop np)
     Else
       (SIM jdrop np <~ x#jdrop ;;
        LOOP_ mpp (fun k =>
          DATMAT k jdrop <~ !(DATMAT k np) ;;
          DATMAT k np <~ con#k) ;;
        LOOP_ jdrop (fun k =>
          SIM jdrop k <~ $(nopp (c_rho v)) ;;
          let* temp := loop k jdrop (fun i temp => $temp - !(SIMI i k)) zero in
          SIMI jdrop k <~ $temp))
   else $tt) ;;
  if (c_nfvals v <=? n)%Z then
    let jdrop := c_nfvals v in
    at1 x jdrop +~ $(c_rho v) ;;
    cgoto Ccall (p_jdrop jdrop v)
  else cgoto C140 (p_ibrnch 1 v).

(** cobyla.c 554-618: new_eval *)
Definition co_new (v : cvars) : cprog :=
  let v := p_nfvals (c_nfvals v + 1) v in
  let* resmax := co_resmax in
  let v := p_resmax resmax v in
  at1 con mp <~ $(c_f v) ;;
  at1 con mpp <~ $resmax ;;
  if (c_ibrnch v =? 1)%Z then cgoto C440 v else
  LOOP_ mpp (fun k => DATMAT k (c_jdrop v) <~ con#k) ;;
  if (np <? c_nfvals v)%Z then cgoto C140 (p_ibrnch 1 v) else co_initial v.

(** cobyla.c 620-632: the optimal vertex *)
Definition co_best (parmu : N) : prog Z :=
  let* phimin := !(DATMAT mp np) + $parmu * !(DATMAT mpp np) in
  let* (nbest, _) := LOOP n (fun j '(nbest, phimin) =>
    let* temp := !(DATMAT mp j) + $parmu * !(DATMAT mpp j) in
    if nlt temp phimin then $(j, temp)
    else if (neq temp phimin && neq parmu zero)%bool then
      (If !(DATMAT mpp j) <? !(DATMAT mpp nbest) Then $(j, phimin) Else $(nbest, phimin))
    else $(nbest, phimin)) (np, phimin) in
  $nbest.

(** cobyla.c 634-653: the switch of the best vertex into pole position *)
Definition co_pole (nbest : Z) : prog unit :=
  if (nbest <=? n)%Z then
    LOOP_ mpp (fun i =>
      let* temp := !(DATMAT i np) in
      DATMAT i np <~ !(DATMAT i nbest) ;;
      DATMAT i nbest <~ $temp) ;;
    LOOP_ n (fun i =>
      let* temp := !(SIM i nbest) in
      SIM i nbest <~ $zero ;;
      SIM i np +~ $temp ;;
      let* tempa := LOOP n (fun k tempa =>
        SIM i k -~ $temp ;;
        $tempa - !(SIMI k i)) zero in
      SIMI nbest i <~ $tempa)
  else $tt.

(** cobyla.c 657-667: the error of SIMI as the inverse of SIM *)
Definition co_error : prog N :=
  LOOP n (fun i error =>
    LOOP n (fun j error =>
      let* temp := LOOP n (fun k temp => $temp + !(SIMI i k) * !(SIM k j)) (if (i =? j)%Z then nopp one else zero) in
      $(bmax error (nabs temp))) error) zero.

(** cobyla.c 677-693: the linear approximations *)
Definition co_linear : prog unit :=
  LOOP_ mp (fun k =>
    at1 con k <~ - !(DATMAT k np) ;;
    LOOP_ n (fun j => at1 w j <~ !(DATMAT k j) + con#k) ;;
    LOOP_ n (fun i =>
      let* temp := LOOP n (fun j temp => $temp + w#j * !(SIMI j i)) zero in
      A i k <~ $(if (k =? mp)%Z then nopp temp else temp))).

(** cobyla.c 695-710: SIGMA and ETA; yields [iflag] *)
Definition co_sigma (parsig pareta : N) : prog Z :=
  LOOP n (fun j iflag =>
    let* (wsig, weta) := LOOP n (fun i '(wsig, weta) =>
      let* wsig := $wsig + !(SIMI j i) * !(SIMI j i) in
      let* weta := $weta + !(SIM i j) * !(SIM i j) in
      $(wsig, weta)) (zero, zero) in
    at1 vsig j <~ $one / $(nsqrt wsig) ;;
    at1 veta j <~ $(nsqrt weta) ;;
    If (vsig#j <? $parsig) || (veta#j >? $pareta) Then $0%Z Else $iflag) 1%Z.

(** cobyla.c 715-730: the vertex to drop *)
Definition co_drop (pareta : N) : prog Z :=
  let* (jdrop, temp) := LOOP n (fun j '(jdrop, temp) =>
    let* e := veta#j in
    $(if nlt temp e then (j, e) else (jdrop, temp))) (0%Z, pareta) in
  if (jdrop =? 0)%Z then
    let* (jdrop, _) := LOOP n (fun j '(jdrop, temp) =>
      let* e := vsig#j in
      $(if nlt e temp then (j, e) else (jdrop, temp))) (jdrop, temp) in
    $jdrop
  else $jdrop.

(** cobyla.c 758-778, 898-917: the update of SIM and SIMI when the vertex JDROP becomes X(0)+DX *)
Definition co_replace (jdrop : Z) : prog unit :=
  let* temp := LOOP n (fun i temp =>
    SIM i jdrop <~ dx#i ;;
    $temp + !(SIMI jdrop i) * dx#i) zero in
  LOOP_ n (fun i => SIMI jdrop i <~ !(SIMI jdrop i) / $temp) ;;
  LOOP_ n (fun j =>
    if (j =? jdrop)%Z then $tt
    else
      let* temp := LOOP n (fun i temp => $temp + !(SIMI j i) * dx#i) zero in
      LOOP_ n (fun i => SIMI j i -~ $temp * !(SIMI jdrop i))).

(** cobyla.c 732-779: the step to a new vertex that improves the simplex.  Simplification: the assignments DX(i) *= dxsign and
    X(j) = SIM(j,np) + DX(j) are made in loops of their own, before and after the update of SIM and SIMI. *)
Definition co_vertex (v : cvars) (jdrop : Z) : cprog :=
  let* temp := $(nmul half (c_rho v)) * vsig#jdrop in
  LOOP_ n (fun i => at1 dx i <~ $temp * !(SIMI jdrop i)) ;;
  let* (cvmaxp, cvmaxm, sum) := LOOP mp (fun k '(cvmaxp, cvmaxm, _) =>
    let* sum := LOOP n (fun i sum => $sum + !(A i k) * dx#i) zero in
    if (k <? mp)%Z then
      let* temp := !(DATMAT k np) in
      $(bmax cvmaxp (nsub (nopp sum) temp), bmax cvmaxm (nsub sum temp), sum)
    else $(cvmaxp, cvmaxm, sum)) (zero, zero, zero) in
  let dxsign := if nlt (nadd sum sum) (nmul (c_parmu v) (nsub cvmaxp cvmaxm)) then nopp one else one in
  LOOP_ n (fun i => at1 dx i <~ dx#i * $dxsign) ;;
  co_replace jdrop ;;
  LOOP_ n (fun j => at1 x j <~ !(SIM j np) + dx#j) ;;
  cgoto Ccall (p_jdrop jdrop v).

(** cobyla.c 620-779: L_140 *)
Definition co_140 (v : cvars) : cprog :=
  let* nbest := co_best (c_parmu v) in
  co_pole nbest ;;
  let* error := co_error in
  if nlt tenth error then cfail CB_ROUNDING_ERRORS v else
  co_linear ;;
  let parsig := nmul (nQ 1 4) (c_rho v) in
  let pareta := nmul (nQ 21 10) (c_rho v) in
  let* iflag := co_sigma parsig pareta in
  let v := p_iflag iflag (p_parsig parsig v) in
  if ((c_ibrnch v =? 1) || (iflag =? 1))%Z%bool then cgoto C370 v else
  let* jdrop := co_drop pareta in
  co_vertex v jdrop.

(** cobyla.c 829-836: does the new PARMU alter the optimal vertex *)
Definition co_altered (parmu : N) : prog bool :=
  let* phi := !(DATMAT mp np) + $parmu * !(DATMAT mpp np) in
  let* r := loopx 1 n (fun j _ =>
    let* temp := !(DATMAT mp j) + $parmu * !(DATMAT mpp j) in
    if nlt temp phi then $(inr tt)
    else if (neq temp phi && neq parmu zero)%bool then
      (If !(DATMAT mpp j) <? !(DATMAT mpp np) Then $(inr tt) Else $(inl tt))
    else $(inl tt)) tt in
  match r with inl _ => $false | inr _ => $true end.

(** cobyla.c 781-846: L_370 *)
Definition co_370 (fuel : nat) (v : cvars) : cprog :=
  let zdota := (w + n * n)%Z in
  let vmc := (zdota + n)%Z in
  let sdirn := (vmc + mp)%Z in
  let dxnew := (sdirn + n)%Z in
  let vmd := (dxnew + n)%Z in
  let* ifull := trstlp n m a con (c_rho v) dx w zdota vmc sdirn dxnew vmd fuel in
  let v := p_ifull ifull v in
  let* short :=
    if (ifull =? 0)%Z then
      let* temp := LOOP n (fun i temp => $temp + dx#i * dx#i) zero in
      $(nlt temp (nmul (nmul (nQ 1 4) (c_rho v)) (c_rho v)))
    else $false in
  if short then cgoto C550 (p_ibrnch 1 v) else
  (* Predict the change to F and the new maximum constraint violation *)
  at1 con mp <~ $zero ;;
  let* (resnew, sum) := LOOP mp (fun k '(resnew, _) =>
    let* sum := con#k in
    let* sum := LOOP n (fun i sum => $sum - !(A i k) * dx#i) sum in
    $(if (k <? mp)%Z then bmax resnew sum else resnew, sum)) (zero, zero) in
  let* prerec := !(DATMAT mpp np) - $resnew in
  let barmu := if nlt zero prerec then ndiv sum prerec else zero in
  let v := p_prerec prerec v in
  let grow := nlt (c_parmu v) (nmul (nQ 3 2) barmu) in
  let parmu := if grow then nmul two barmu else c_parmu v in
  let v := p_parmu parmu v in
  let* altered := if grow then co_altered parmu else $false in
  if altered then cgoto C140 v else
  let v := p_prerem (nsub (nmul parmu prerec) sum) v in
  LOOP_ n (fun i => at1 x i <~ !(SIM i np) + dx#i) ;;
  cgoto Ccall (p_ibrnch 1 v).

(** cobyla.c 856-895: the index of the vertex that is to be replaced, 0 for none *)
Definition co_choose (v : cvars) (trured : N) : prog Z :=
  let ratio := if nle trured zero then one else zero in
  let* (jdrop, _) := LOOP n (fun j '(jdrop, ratio) =>
    let* temp := LOOP n (fun i temp => $temp + !(SIMI j i) * dx#i) zero in
    let temp := nabs temp in
    at1 sigbar j <~ $temp * vsig#j ;;
    $(if nlt ratio temp then (j, temp) else (jdrop, ratio))) (0%Z, ratio) in
  (* Calculate the value of ell. *)
  let* (l, _) := LOOP n (fun j '(l, edgmax) =>
    If (sigbar#j >=? $(c_parsig v)) || (sigbar#j >=? vsig#j) Then
      (let* temp := veta#j in
       let* temp :=
         if nlt zero trured then
           esqrt (LOOP n (fun i temp =>
             let* tempb := dx#i - !(SIM i j) in
             $(nadd temp (nmul tempb tempb))) zero)
         else $temp in
       $(if nlt edgmax temp then (j, temp) else (l, edgmax)))
    Else $(l, edgmax)) (0%Z, nmul (nQ 11 10) (c_rho v)) in
  $(if (0 <? l)%Z then l else jdrop).

(** cobyla.c 847-923: L_440 *)
Definition co_440 (v : cvars) : cprog :=
  let parmu := c_parmu v in
  let f := c_f v in
  let* fpole := !(DATMAT mp np) in
  let* rpole := !(DATMAT mpp np) in
  let vmold := nadd fpole (nmul parmu rpole) in
  let vmnew := nadd f (nmul parmu (c_resmax v)) in
  let same := (neq parmu zero && neq f fpole)%bool in
  let v := if same then p_prerem (c_prerec v) v else v in
  let trured := if same then nsub rpole (c_resmax v) else nsub vmold vmnew in
  let* jdrop := co_choose v trured in
  let v := p_jdrop jdrop v in
  if (jdrop =? 0)%Z then cgoto C550 v else
  co_replace jdrop ;;
  LOOP_ mpp (fun k => DATMAT k jdrop <~ con#k) ;;
  if (nlt zero trured && nle (nmul tenth (c_prerem v)) trured)%bool then cgoto C140 v else cgoto C550 v.

(** cobyla.c 934-958: PARMU for the new RHO *)
Definition co_parmu (parmu : N) : prog N :=
  let* (denom, cmin, cmax) := LOOP mp (fun k '(denom, _, _) =>
    let* c0 := !(DATMAT k np) in
    let* (cmin, cmax) := LOOP n (fun i '(cmin, cmax) =>
      let* temp := !(DATMAT k i) in
      $(bmin cmin temp, bmax cmax temp)) (c0, c0) in
    if ((k <=? m)%Z && nlt cmin (nmul half cmax))%bool then
      let temp := nsub (bmax cmax zero) cmin in
      $(if nle denom zero then temp else bmin denom temp, cmin, cmax)
    else $(denom, cmin, cmax)) (zero, zero, zero) in
  $(if neq denom zero then zero
    else if nlt (nsub cmax cmin) (nmul parmu denom) then ndiv (nsub cmax cmin) denom
    else parmu).

(** cobyla.c 924-975: L_550 *)
Definition co_550 (v : cvars) : cprog :=
  if (c_iflag v =? 0)%Z then cgoto C140 (p_ibrnch 0 v)
  else if nlt rhoend (c_rho v) then
    let rho := nmul half (c_rho v) in
    let rho := if nle rho (nmul (nQ 3 2) rhoend) then rhoend else rho in
    let v := p_rho rho v in
    let* parmu := if nlt zero (c_parmu v) then co_parmu (c_parmu v) else $(c_parmu v) in
    cgoto C140 (p_parmu parmu v)
  else
    let v := p_status CB_SUCCESS v in
    if (c_ifull v =? 1)%Z then cgoto Cend v else cgoto C600 v.

(** cobyla.c 976-982: L_600 *)
Definition co_600 (v : cvars) : cprog :=
  LOOP_ n (fun i => at1 x i <~ !(SIM i np)) ;;
  let* f := !(DATMAT mp np) in
  let* resmax := !(DATMAT mpp np) in
  cgoto Cend (p_f f (p_resmax resmax v)).

(** The code of a label.  [ev] is the evaluation of the functions, [fin] what is done at the end. *)
Definition co_step (ev : cvars -> cprog) (fin : cvars -> prog B) (fuel : nat) (l : clabel * cvars) : cprog :=
  let v := snd l in
  match fst l with
  | Ccall => co_call v
  | Ceval => ev v
  | Cnew => co_new v
  | C140 => co_140 v
  | C370 => co_370 fuel v
  | C440 => co_440 v
  | C550 => co_550 v
  | C600 => co_600 v
  | Cend => let* r := fin v in $(inr r)
  end.
End Main.

(** cobyla.c 236-248, 448-459: the partition of the workspace at address [w] *)
Definition o_sim (n m w : Z) : Z := (w + (m + 2))%Z.
Definition o_simi (n m w : Z) : Z := (o_sim n m w + n * (n + 1))%Z.
Definition o_datmat (n m w : Z) : Z := (o_simi n m w + n * n)%Z.
Definition o_a (n m w : Z) : Z := (o_datmat n m w + (m + 2) * (n + 1))%Z.
Definition o_vsig (n m w : Z) : Z := (o_a n m w + (m + 1) * n)%Z.
Definition o_veta (n m w : Z) : Z := (o_vsig n m w + n)%Z.
Definition o_sigbar (n m w : Z) : Z := (o_veta n m w + n)%Z.
Definition o_dx (n m w : Z) : Z := (o_sigbar n m w + n)%Z.
Definition o_w (n m w : Z) : Z := (o_dx n m w + n)%Z.

(** cobyla.c 221, cobyla.h 148: the size of the workspace *)
Definition cb_size (n m : Z) : Z := (n * (3 * n + 2 * m + 11) + 4 * m + 6)%Z.

(** The machine with the arrays in the workspace *)
Definition cb_run {B} (n m x : Z) (rhoend : N) (maxfun w : Z) (c : option Z)
  (ev : cvars -> prog (clabel * cvars + B)) (fin : cvars -> prog B) (fi fuel : nat) : clabel * cvars -> prog B :=
  machine fuel (co_step n m x rhoend maxfun w (o_sim n m w) (o_simi n m w) (o_datmat n m w) (o_a n m w) (o_vsig n m w)
    (o_veta n m w) (o_sigbar n m w) (o_dx n m w) (o_w n m w) c ev fin fi).
Definition cb_begin (n m x : Z) (rhobeg : N) (w : Z) (v : cvars) : prog cvars :=
  co_start n x rhobeg (o_sim n m w) (o_simi n m w) v.

(** The variables at the start, or all zero in a new context; PARSIG, PREREC, PREREM, F, RESMAX and IFULL are set before they
    are used (IFULL is saved in the context before it is set; here it keeps its value) *)
Definition cv0 : cvars := mkcv zero zero zero zero zero zero zero 0 0 0 0 0 CB_ITERATE.

(** ** cobyla.c 343-1021: cobyla_optimize *)
Section Optimize.
(** [fn] and [cn] yield the objective function and the constraints, they may depend on the previous calls *)
Variables (n m : Z) (maximize : bool) (fn : list (list N * N) -> list N -> N) (cn : list (list N * N) -> list N -> Z -> N).
Variables (x : Z) (scl : option Z) (rhobeg rhoend : N) (maxfun work : Z).

(** A call of calcfc: the variables are read, the constraints are stored in CON *)
Definition calcfc (xs : Z) : prog N :=
  let* p := readn (Z.to_nat n) xs in
  let* h := (fun s => Ret (evs s) s) in
  loop 0 (m - 1) (fun k _ => (work + k)%Z <~ $(cn h p k)) tt ;;
  fun s => Ret (fn h p) (mkmst (mm s) ((p, fn h p) :: evs s)).

(** cobyla.c 548-552 *)
Definition cb_call (scl : option Z) (v : cvars) : prog (clabel * cvars + (cstatus * Z)) :=
  let w := o_w n m work in
  let* xs := match scl with None => $x | Some scl => scale w n scl x ;; $w end in
  let* f := calcfc xs in
  $(inl (Cnew, p_f (if maximize then nopp f else f) v)).

(** cobyla.c 983-988, 1013-1018 *)
Definition cb_end (scl : option Z) (v : cvars) : prog (cstatus * Z) :=
  (match scl with None => $tt | Some scl => scale x n scl x end) ;;
  work <~ $(if maximize then nopp (c_f v) else c_f v) ;;
  (work + 1)%Z <~ $(c_resmax v) ;;
  $(c_status v, c_nfvals v).

Definition cb_optimize (scl : option Z) (fi fuel : nat) : prog (cstatus * Z) :=
  let* v := cb_begin n m x rhobeg work cv0 in
  cb_run n m x rhoend maxfun work None (cb_call scl) (cb_end scl) fi fuel (Ccall, v).

(** The result is the status and, if the arguments are accepted, the number of evaluations stored in iact[0] *)
Definition cobyla_optimize (fi fuel : nat) : prog (cstatus * option Z) :=
  let run scl := let* r := cb_optimize scl fi fuel in $(fst r, Some (snd r)) in
  if (n <? 1)%Z then $(CB_BAD_NVARS, None)
  else if (m <? 0)%Z then $(CB_BAD_NCONS, None)
  else if (nle rhoend zero || nlt rhobeg rhoend)%bool then $(CB_BAD_RHO_RANGE, None)
  else
    match scl with
    | None => run None
    | Some scl =>
        (* cobyla.c 431-446: the same code as in bobyqa.c *)
        let* r := opt_check_scl n scl in
        match r with
        | None => $(CB_BAD_SCALING, None)
        | Some false => run None
        | Some true =>
            loop 0 (n - 1) (fun i _ => (x + i)%Z <~ !(x + i)%Z / !(scl + i)%Z) tt ;;
            run (Some scl)
        end
    end.
End Optimize.

(** cobyla.c 131-139: cobyla *)
Definition cobyla (n m : Z) (fn : list (list N * N) -> list N -> N) (cn : list (list N * N) -> list N -> Z -> N) (x : Z)
  (rhobeg rhoend : N) (maxfun work : Z) (fi fuel : nat) : prog (cstatus * option Z) :=
  cobyla_optimize n m false fn cn x None rhobeg rhoend maxfun work fi fuel.

(** ** The reverse communication version

    cobyla.c 175-201: cobyla_context; the address of the workspace instead of the ones of its parts *)
Record ccontext := mkcc {
  q_n : Z; q_m : Z; q_rhobeg : N; q_rhoend : N; q_maxfun : Z; q_w : Z; q_v : cvars
}.
Definition q_status (q : ccontext) : cstatus := c_status (q_v q).
Definition q_nevals (q : ccontext) : Z := c_nfvals (q_v q).
Definition q_set (q : ccontext) (v : cvars) : ccontext :=
  mkcc (q_n q) (q_m q) (q_rhobeg q) (q_rhoend q) (q_maxfun q) (q_w q) v.

(** cobyla.c 203-251: cobyla_create.  [a] is the address of the workspace allocated by malloc, [None] if it fails; the
    result is [None] for NULL.  The errors and errno are not modelled. *)
Definition cobyla_create (n m : Z) (rhobeg rhoend : N) (maxfun : Z) (a : option Z) : prog (option ccontext) :=
  if ((n <? 1)%Z || (m <? 0)%Z || nlt rhobeg rhoend || nle rhoend zero || (maxfun <? 1)%Z)%bool then $None
  else
    match a with
    | None => $None
    | Some a =>
        loop 0 (cb_size n m - 1) (fun i _ => (a + i)%Z <~ $zero) tt ;;
        $(Some (mkcc n m rhobeg rhoend maxfun a cv0))
    end.

(** cobyla.c 261-311: cobyla_restart and the queries; [None] for NULL *)
Definition cobyla_restart (q : ccontext) : ccontext := q_set q (p_nfvals 0 (p_status CB_ITERATE (q_v q))).
Definition cobyla_get_status (q : option ccontext) : cstatus := match q with None => CB_BAD_ADDRESS | Some q => q_status q end.
Definition cobyla_get_nevals (q : option ccontext) : Z := match q with None => (-1)%Z | Some q => q_nevals q end.
Definition cobyla_get_rho (q : option ccontext) : N := match q with None => onemin | Some q => c_rho (q_v q) end.
Definition cobyla_get_last_f (q : option ccontext) : N := match q with None => onemin | Some q => c_f (q_v q) end.

(** cobyla.c 534-543: the request of the values *)
Definition cb_request (v : cvars) : prog (clabel * cvars + cvars) :=
  match c_status v with
  | CB_INITIAL_ITERATE => $(inl (Cnew, p_status CB_ITERATE v))
  | _ => $(inr (p_status CB_ITERATE v))
  end.

(** cobyla.c 343-1021: cobyla_iterate for a context that is not NULL.  [c] is the address of the constraints, [None] for
    NULL. *)
Definition cobyla_iterate (q : ccontext) (f : N) (x c : option Z) (fi fuel : nat) : prog ccontext :=
  let bad := q_set q (p_status CB_BAD_ADDRESS (q_v q)) in
  match x, (match c with Some c => Some c | None => if (0 <? q_m q)%Z then None else Some 0%Z end) with
  | Some x, Some c =>
      if (match q_status q with CB_ITERATE => false | _ => true end || (q_nevals q <? 0)%Z)%bool then
        $(q_set q (p_status CB_CORRUPTED (q_v q)))
      else
        let run := cb_run (q_n q) (q_m q) x (q_rhoend q) (q_maxfun q) (q_w q) (Some c) cb_request (fun v => $v) fi fuel in
        let v := p_f f (q_v q) in
        if (q_nevals q =? 0)%Z then
          let* v := cb_begin (q_n q) (q_m q) x (q_rhobeg q) (q_w q)
                      (p_status CB_INITIAL_ITERATE (p_prerec zero (p_prerem zero (p_parsig zero v)))) in
          let* v := run (Ccall, v) in
          $(q_set q v)
        else
          let* v := run (Cnew, v) in
          $(q_set q v)
  | _, _ => $bad
  end.
End Cobyla.
