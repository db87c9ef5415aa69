(** * Properties of the string functions: C08 and C31 *)
From Coq Require Import String Ascii.
From Coq Require Import List ZArith Bool Arith Lia.
From Verif Require Import Num Base VecModel OptSpace VmModel CgModel StrModel StrProofs.
Import ListNotations.
Local Open Scope string_scope.
Local Open Scope nat_scope.
Local Open Scope list_scope.
Local Notation length := List.length.

(** ** Specification *)

(** [src] is a pointer to a string whose characters are [s]: an array which starts with [s] and a zero byte.  NULL
    stands for the empty string. *)
Definition points_to (src : option array) (s : list Z) : Prop :=
  match src with
  | None => s = []
  | Some m => ~ In 0%Z s /\ exists rest, m = map Some s ++ Some 0%Z :: rest
  end.

(** The buffer [b'] is the buffer [b] where the string [s] has been copied, or its longest prefix such that the
    prefix and the terminator fit in [size] bytes; no other byte has changed. *)
Definition received (b b' : array) (size : nat) (s : list Z) : Prop :=
  length b' = length b /\
  (forall i, size <= i -> nth_error b' i = nth_error b i) /\
  (0 < size -> exists k, k <= length s /\ (k = length s \/ k + 1 = size) /\ k < size /\
     (forall i, i < k -> nth_error b' i = option_map Some (nth_error s i)) /\
     nth_error b' k = Some (Some 0%Z) /\
     (forall i, k < i -> nth_error b' i = nth_error b i)).

Lemma holds_points m s : points_to (Some m) s <-> holds m s.
Proof.
  unfold points_to, holds. rewrite Forall_forall. split; intros [H1 H2]; split; auto.
  - intros c Hc ->. auto.
  - intros Hc. exact (H1 _ Hc eq_refl).
Qed.

Lemma nth_skipn {A} (l : list A) : forall i j, nth_error (skipn i l) j = nth_error l (i + j).
Proof. induction l as [|a l IH]; intros [|i] j; cbn; auto. destruct j; reflexivity. Qed.

Lemma received_copied b size s : size <= length b -> received b (copied b size s) size s.
Proof.
  intros Hb. destruct size as [|size]; cbn [copied].
  { repeat split; auto; lia. }
  set (k := Nat.min size (length s)). assert (Hk : k <= size /\ k <= length s /\ (k = length s \/ k + 1 = S size)) by (unfold k; lia).
  clearbody k. destruct Hk as (Hk1 & Hk2 & Hk3).
  assert (HLk : length (map (@Some Z) (firstn k s)) = k) by (rewrite map_length, firstn_length; lia).
  assert (HA : forall i, k < i -> nth_error (map Some (firstn k s) ++ Some 0%Z :: skipn (k + 1) b) i = nth_error b i).
  { intros i Hi. rewrite nth_error_app2, HLk by lia. replace (i - k) with (S (i - k - 1)) by lia. cbn [nth_error].
    rewrite nth_skipn. f_equal. lia. }
  split; [|split].
  - rewrite app_length, HLk. cbn [length]. rewrite skipn_length. lia.
  - intros i Hi. apply HA. lia.
  - intros _. exists k. split; [exact Hk2|]. split; [exact Hk3|]. split; [lia|]. split; [|split].
    + intros i Hi. rewrite nth_error_app1 by lia. rewrite nth_error_map. f_equal.
      rewrite <- (firstn_skipn k s) at 2. rewrite nth_error_app1; [reflexivity|]. rewrite firstn_length. lia.
    + rewrite nth_error_app2, HLk, Nat.sub_diag by lia. reflexivity.
    + exact HA.
Qed.

(** ** C08: opk_copy_string *)

Theorem C08_copy : forall (b : array) (size : nat) (src : option array) (s : list Z),
  points_to src s -> size <= length b ->
  exists b', copy_string (Some b) size src = Some (Some b', length s + 1) /\ received b b' size s.
Proof.
  intros b size src s Hs Hb. exists (copied b size s). split; [|now apply received_copied].
  apply copy_string_src; [|exact Hb]. destruct src as [m|]; [right|left; auto].
  exists m. split; [reflexivity|]. now apply holds_points.
Qed.
Print Assumptions C08_copy.

Theorem C08_null_buffer : forall (size : nat) (src : option array) (s : list Z),
  points_to src s -> copy_string None size src = Some (None, length s + 1).
Proof.
  intros size src s Hs. apply copy_string_null. destruct src as [m|]; [right|left; auto].
  exists m. split; [reflexivity|]. now apply holds_points.
Qed.
Print Assumptions C08_null_buffer.

(** The buffer of 4 bytes receives "abc" from "abcde", the buffer of 8 bytes receives everything. *)
Example C08_example :
  points_to (Some (cstring (bytes "abcde"))) (bytes "abcde") /\
  copy_string (Some (repeat (Some 7%Z) 5)) 4 (Some (cstring (bytes "abcde")))
    = Some (Some [Some 97%Z; Some 98%Z; Some 99%Z; Some 0%Z; Some 7%Z], 6) /\
  copy_string (Some (repeat None 8)) 8 (Some (cstring (bytes "abcde")))
    = Some (Some (cstring (bytes "abcde") ++ [None; None]), 6).
Proof. repeat split; try reflexivity. - vm_compute. intuition congruence. - now exists []. Qed.

(** ** C31: descriptions *)

(** The documented text. *)
Definition nlcg_text (r : rule) (powell shanno_phua : bool) : list Z :=
  bytes (rule_name r) ++ bytes " updates" ++ bytes (if powell then " with Powell restarts" else "") ++
  bytes (if shanno_phua then (if powell then " and" else " with") else "") ++
  bytes (if shanno_phua then " Shanno & Phua step size" else "").

(** The combinations whose text does not fit in the local array of 80 bytes. *)
Definition too_long (r : rule) (powell shanno_phua : bool) : bool :=
  powell && shanno_phua && match r with POLAK_RIBIERE_POLYAK | FLETCHER => true | _ => false end.

Lemma bytes_holds s : existsb (Z.eqb 0) (bytes s) = false -> holds (cstring (bytes s)) (bytes s).
Proof.
  intros H. apply holds_cstring. rewrite Forall_forall. intros c Hc ->.
  assert (existsb (Z.eqb 0) (bytes s) = true) by (apply existsb_exists; exists 0%Z; auto). congruence.
Qed.

Ltac cat H :=
  match goal with
  | |- context [strcat_lit ?d ?t] =>
    let d' := fresh "d" in let E := fresh "E" in let H' := fresh "H" in let L := fresh "L" in
    match type of H with
    | holds d ?s /\ _ =>
      first
      [ destruct (strcat_holds d s (cstring (bytes t)) (bytes t) (proj1 H) (bytes_holds t eq_refl)) as (d' & E & H' & L);
        [rewrite (proj2 H); vm_compute; lia|]; unfold strcat_lit at 1; rewrite E; rewrite (proj2 H) in L; cbv iota beta;
        clear H; pose proof (conj H' L) as H; clear H' L
      | unfold strcat_lit at 1;
        rewrite (strcat_overflow d s (cstring (bytes t)) (bytes t) (proj1 H) (bytes_holds t eq_refl));
          [|rewrite (proj2 H); vm_compute; lia]; cbv iota beta ]
    end
  end.

(** The description is the documented text, cut to the size of the buffer; this fails only for two of the rules when
    both flags are set. *)
Theorem C31_nlcg_partial : forall (flags : Z) (r : rule) (buf : array) (size : nat),
  let powell := has_flag flags NLCG_POWELL in
  let shanno_phua := has_flag flags NLCG_SHANNO_PHUA in
  rule_of flags = Some r -> size <= length buf ->
  too_long r powell shanno_phua = false ->
  exists buf', nlcg_description (Some buf) size (Some flags)
    = Some (Some buf', length (nlcg_text r powell shanno_phua) + 1)
    /\ received buf buf' size (nlcg_text r powell shanno_phua).
Proof.
  intros flags r buf size p q Hr Hb Ht. unfold nlcg_description. rewrite Hr. fold p q. clearbody p q.
  assert (HS : exists d, (do str <- strcpy (repeat None 80) (cstring (bytes (rule_name r)));
     do str <- strcat_lit str " updates";
     do str <- if p then strcat_lit str " with Powell restarts" else Some str;
     if q then do str <- strcat_lit str (if p then " and" else " with"); strcat_lit str " Shanno & Phua step size" else Some str)
     = Some d /\ holds d (nlcg_text r p q)).
  { destruct (strcpy_holds (repeat None 80) (cstring (bytes (rule_name r))) (bytes (rule_name r))) as (d & E & H & L).
    { apply bytes_holds. now destruct r. }
    { rewrite repeat_length. destruct r; vm_compute; lia. }
    rewrite E. rewrite repeat_length in L. pose proof (conj H L) as HH. clear H L E.
    destruct r, p, q; try discriminate Ht; repeat cat HH; (eexists; split; [reflexivity|]);
      apply proj1 in HH; cbn [rule_name] in HH; unfold nlcg_text; cbn [rule_name]; rewrite ?app_nil_r; rewrite <- ?app_assoc in HH; exact HH. }
  destruct HS as (d & E & Hd).
  destruct (strcpy (repeat None 80) (cstring (bytes (rule_name r)))) as [d1|]; [|discriminate].
  destruct (strcat_lit d1 " updates") as [d2|]; [|discriminate].
  destruct (if p then strcat_lit d2 " with Powell restarts" else Some d2) as [d3|]; [|discriminate].
  rewrite E. apply C08_copy; [now apply holds_points | exact Hb].
Qed.
Print Assumptions C31_nlcg_partial.

(** The two other combinations write outside the local array, whatever the buffer of the caller. *)
Theorem C31_nlcg_overflow : forall (flags : Z) (r : rule) (buf : option array) (size : nat),
  rule_of flags = Some r -> too_long r (has_flag flags NLCG_POWELL) (has_flag flags NLCG_SHANNO_PHUA) = true ->
  buf <> None \/ size = 0 ->
  nlcg_description buf size (Some flags) = None.
Proof.
  intros flags r buf size Hr Ht Hb. unfold nlcg_description.
  replace (match buf with None => 0 <? size | Some _ => false end) with false
    by (destruct buf; [reflexivity | destruct Hb as [Hb| ->]; [congruence | reflexivity]]).
  rewrite Hr. set (p := has_flag flags NLCG_POWELL) in *. set (q := has_flag flags NLCG_SHANNO_PHUA) in *. clearbody p q.
  destruct (strcpy_holds (repeat None 80) (cstring (bytes (rule_name r))) (bytes (rule_name r))) as (d & E & H & L).
  { apply bytes_holds. now destruct r. }
  { rewrite repeat_length. destruct r; vm_compute; lia. }
  rewrite E. rewrite repeat_length in L. pose proof (conj H L) as HH. clear H L E.
  destruct r, p, q; try discriminate Ht; repeat cat HH; reflexivity.
Qed.
Print Assumptions C31_nlcg_overflow.

(** The claim is false for the default options: the flags of a new optimizer, which are those documented as the
    default, give an overflow. *)
Theorem C31_refuted : exists flags : Z,
  (forall N : Num, flags = q_flags (@cg_default_options N)) /\
  rule_of flags = Some POLAK_RIBIERE_POLYAK /\
  forall (buf : array) (size : nat), size <= length buf -> nlcg_description (Some buf) size (Some flags) = None.
Proof.
  exists NLCG_DEFAULT. split; [reflexivity|]. split; [reflexivity|]. intros buf size _.
  apply (C31_nlcg_overflow NLCG_DEFAULT POLAK_RIBIERE_POLYAK); [reflexivity | reflexivity | left; discriminate].
Qed.
Print Assumptions C31_refuted.

(** A number of memorized steps of the type long prints with at most 19 digits. *)
Theorem C31_vmlmb : forall (method : vmethod) (m : Z) (buf : array) (size : nat),
  (1 <= m < 2 ^ 63)%Z -> size <= length buf ->
  exists (digits : list Z) (buf' : array),
    let text := bytes "variable metric method with " ++ digits ++ bytes " memorized step(s)" ++
                (match method with LBFGS => [] | _ => bytes " and bounds" end) in
    Forall (fun c => 48 <= c <= 57)%Z digits /\ fold_left (fun v c => 10 * v + (c - 48))%Z digits 0%Z = m /\
    vmlmb_description (Some buf) size method m = Some (Some buf', length text + 1) /\ received buf buf' size text.
Proof.
  intros method m buf size Hm Hb. exists (decimal m).
  set (tail := match method with LBFGS => [] | _ => bytes " and bounds" end).
  set (text := bytes "variable metric method with " ++ decimal m ++ bytes " memorized step(s)" ++ tail).
  assert (HF : Forall (fun c => 48 <= c <= 57)%Z (decimal m)) by (apply dec_digits; lia).
  assert (HL : length (decimal m) <= 19).
  { apply dec_length; [|lia]. split; [lia|]. change (Z.of_nat 19) with 19%Z. lia. }
  assert (HT : length text < 80).
  { unfold text, tail. rewrite !app_length.
    replace (length (bytes "variable metric method with ")) with 28 by reflexivity.
    replace (length (bytes " memorized step(s)")) with 18 by reflexivity.
    destruct method; try (replace (length (bytes " and bounds")) with 11 by reflexivity); cbn [length]; lia. }
  assert (HN : Forall (fun c => c <> 0%Z) text).
  { unfold text, tail. rewrite !Forall_app. assert (HB : forall s, existsb (Z.eqb 0) (bytes s) = false -> Forall (fun c => c <> 0%Z) (bytes s)).
    { intros s Hs. exact (proj1 (bytes_holds s Hs)). }
    split; [now apply HB|]. split; [|split].
    - eapply Forall_impl; [|exact HF]. cbn. intros. lia.
    - now apply HB.
    - destruct method; [constructor | now apply HB | now apply HB]. }
  destruct (strcpy_holds (repeat None 80) (cstring text) text) as (d & E & Hd & _);
    [now apply holds_cstring | rewrite repeat_length; exact HT |].
  destruct (C08_copy buf size (Some d) text) as (buf' & Ec & Hr); [now apply holds_points | exact Hb |].
  exists buf'. cbv zeta. split; [exact HF|]. split; [apply decimal_value; lia|]. split; [|exact Hr].
  unfold vmlmb_description.
  replace (match method with LBFGS => _ | _ => _ end) with (strcpy (repeat None 80) (cstring text)).
  - rewrite E. exact Ec.
  - unfold text, tail. destruct method; rewrite ?app_nil_r, <- ?app_assoc; reflexivity.
Qed.
Print Assumptions C31_vmlmb.

(** Names: "NLCG", "VMLM/L-BFGS", ... are cut in the same way. *)
Theorem C31_nlcg_name : forall (buf : array) (size : nat), size <= length buf ->
  exists buf', nlcg_name (Some buf) size = Some (Some buf', 5) /\ received buf buf' size (bytes "NLCG").
Proof.
  intros buf size Hb. apply (C08_copy buf size (Some (cstring (bytes "NLCG"))) (bytes "NLCG")); [|exact Hb].
  apply holds_points. now apply bytes_holds.
Qed.
Print Assumptions C31_nlcg_name.

(** NULL optimizers and NULL buffers of positive size are refused without any effect. *)
Theorem C31_nlcg_null : forall (buf : option array) (size : nat) (flags : option Z),
  flags = None \/ (buf = None /\ 0 < size) -> nlcg_description buf size flags = Some (buf, 0).
Proof.
  intros buf size [flags|] H; [|reflexivity]. destruct H as [H|[-> H]]; [discriminate|]. unfold nlcg_description.
  destruct (Nat.ltb_spec 0 size); [reflexivity | lia].
Qed.
Print Assumptions C31_nlcg_null.

Example C31_example :
  nlcg_description (Some (repeat None 20)) 12 (Some 263%Z)
    = Some (Some (cstring (bytes "Perry & Sha") ++ repeat None 8), 44) /\
  vmlmb_description (Some (repeat None 70)) 70 VMLMB 105
    = Some (Some (cstring (bytes "variable metric method with 105 memorized step(s) and bounds") ++ repeat None 9), 61) /\
  too_long PERRY_SHANNO (has_flag 263 NLCG_POWELL) (has_flag 263 NLCG_SHANNO_PHUA) = false /\
  (1 <= 105 < 2 ^ 63)%Z.
Proof. repeat split; vm_compute; congruence. Qed.
