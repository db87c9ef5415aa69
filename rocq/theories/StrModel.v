(** * Strings: src/utils.c [opk_copy_string], the names and descriptions of the optimizers

    A character array is a list of cells: [Some c] is a byte, [None] a byte that was never written.  The length of the
    list is the size of the array.  [None] as a result is undefined behaviour: an access outside an array or the use of
    a byte that was never written.  Arrays given to [memcpy], [strcpy] and [strcat] do not overlap. *)
From Coq Require Import String Ascii.
From Coq Require Import List ZArith Bool Arith.
From Verif Require Import Num Base VecModel VmModel CgModel.
Import ListNotations.
Local Open Scope string_scope.
Local Open Scope nat_scope.
Local Open Scope list_scope.
Local Notation length := List.length.

Notation cell := (option Z).
Notation array := (list cell).

(** The bytes of a string literal, without its terminator. *)
Definition bytes (s : string) : list Z := map (fun c => Z.of_nat (nat_of_ascii c)) (list_ascii_of_string s).

(** The array of a string: its bytes and the terminator. *)
Definition cstring (s : list Z) : array := map Some s ++ [Some 0%Z].

(** ** The C library *)

(** strlen *)
Fixpoint strlen (m : array) : option nat :=
  match m with
  | Some c :: m => if (c =? 0)%Z then Some 0 else option_map S (strlen m)
  | _ => None
  end.
(** dst[i] = c *)
Definition put (dst : array) (i : nat) (c : Z) : option array :=
  if i <? length dst then Some (firstn i dst ++ Some c :: skipn (S i) dst) else None.
(** memcpy(dst + off, src, k) *)
Definition memcpy (dst : array) (off : nat) (src : array) (k : nat) : option array :=
  if (k <=? length src) && (off + k <=? length dst)
  then Some (firstn off dst ++ firstn k src ++ skipn (off + k) dst) else None.
(** strcpy(dst, src), also sprintf(dst, ...) whose output is [src] *)
Definition strcpy (dst src : array) : option array :=
  do n <- strlen src; memcpy dst 0 src (n + 1).
(** strcat(dst, src) *)
Definition strcat (dst src : array) : option array :=
  do off <- strlen dst; do n <- strlen src; memcpy dst off src (n + 1).
(** The output of %ld for a non-negative value; [fuel] is the number of bits of the value, which has fewer digits. *)
Fixpoint dec (fuel : nat) (m : Z) : list Z :=
  match fuel with
  | O => []
  | S fuel => if (m <? 10)%Z then [(48 + m)%Z] else dec fuel (m / 10) ++ [(48 + m mod 10)%Z]
  end.
Definition decimal (m : Z) : list Z := dec (S (Z.to_nat (Z.log2 m))) m.

(** ** utils.c 37-58 [opk_copy_string]: the new contents of [dst] (if not NULL) and the returned value *)
Definition copy_string (dst : option array) (size : nat) (src : option array) : option (option array * nat) :=
  do length <- match src with
               | None => Some 0
               | Some m => do c <- nth_error m 0; do c <- c; if (c =? 0)%Z then Some 0 else strlen m
               end;
  do dst <- match dst with
            | None => Some None
            | Some d =>
              option_map Some
                (if length <? size then
                   if 0 <? length then do m <- src; memcpy d 0 m (length + 1) else put d 0 0%Z
                 else
                   do d <- if 1 <? size then do m <- src; memcpy d 0 m (size - 1) else Some d;
                   if 0 <? size then put d (size - 1) 0%Z else Some d)
            end;
  Some (dst, length + 1).

(** ** nlcg.c *)

Definition strcat_lit (str : array) (s : string) : option array := strcat str (cstring (bytes s)).

(** nlcg.c 600-627: the names of the rules *)
Definition rule_name (r : rule) : string :=
  match r with
  | FLETCHER_REEVES => "Fletcher & Reeves"
  | HESTENES_STIEFEL => "Hestenes & Stiefel"
  | POLAK_RIBIERE_POLYAK => "Polak, Ribière & Polyak"
  | FLETCHER => "Fletcher conjugate descent"
  | LIU_STOREY => "Liu & Storey"
  | DAI_YUAN => "Dai & Yuan"
  | PERRY_SHANNO => "Perry & Shanno"
  | HAGER_ZHANG => "Hager & Zhang"
  end.

(** nlcg.c 588-592 [opk_get_nlcg_name] *)
Definition nlcg_name (buf : option array) (size : nat) : option (option array * nat) :=
  copy_string buf size (Some (cstring (bytes "NLCG"))).

(** nlcg.c 595-641 [opk_get_nlcg_description]; [flags] is None if the optimizer is NULL *)
Definition nlcg_description (buf : option array) (size : nat) (flags : option Z) : option (option array * nat) :=
  let str := repeat (None : cell) 80 in
  match flags with
  | None => Some (buf, 0)
  | Some flags =>
    if match buf with None => 0 <? size | Some _ => false end then Some (buf, 0)
    else
      match rule_of flags with
      | None => Some (buf, Z.to_nat (status_code CORRUPTED_WORKSPACE))
      | Some r =>
        do str <- strcpy str (cstring (bytes (rule_name r)));
        do str <- strcat_lit str " updates";
        let and := has_flag flags NLCG_POWELL in
        do str <- if and then strcat_lit str " with Powell restarts" else Some str;
        do str <- if has_flag flags NLCG_SHANNO_PHUA then
                    do str <- strcat_lit str (if and then " and" else " with");
                    strcat_lit str " Shanno & Phua step size"
                  else Some str;
        copy_string buf size (Some str)
      end
  end.

(** ** vmlmb.c *)

(** vmlmb.c 750-759 [opk_get_vmlmb_method_name]: the default case cannot happen here *)
Definition vmlmb_method_name (m : vmethod) : array :=
  cstring (bytes (match m with LBFGS => "VMLM/L-BFGS" | VMLMB => "VMLMB" | BLMVM => "BLMVM" end)).

(** vmlmb.c 761-785 [opk_get_vmlmb_description]: the default case cannot happen here, [m] is positive *)
Definition vmlmb_description (buf : option array) (size : nat) (method : vmethod) (m : Z) : option (option array * nat) :=
  let str := repeat (None : cell) 80 in
  let head := bytes "variable metric method with " ++ decimal m ++ bytes " memorized step(s)" in
  do str <- match method with
            | LBFGS => strcpy str (cstring head)
            | VMLMB | BLMVM => strcpy str (cstring (head ++ bytes " and bounds"))
            end;
  copy_string buf size (Some str).
