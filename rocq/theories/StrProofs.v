(** * Strings: proofs *)
From Coq Require Import String Ascii.
From Coq Require Import List ZArith Bool Arith Lia.
From Verif Require Import Num Base VecModel VmModel CgModel StrModel.
Import ListNotations.
Local Open Scope nat_scope.
Local Open Scope list_scope.

(** An array holding the string [s]. *)
Definition holds (m : array) (s : list Z) : Prop :=
  Forall (fun c => c <> 0%Z) s /\ exists rest, m = map Some s ++ Some 0%Z :: rest.

Lemma holds_cstring s : Forall (fun c => c <> 0%Z) s -> holds (cstring s) s.
Proof. intros H; split; [exact H | now exists []]. Qed.

Lemma strlen_holds m s : holds m s -> strlen m = Some (length s).
Proof.
  intros [Hs [rest ->]]. induction s as [|c s IH]; [reflexivity|]. inversion Hs; subst. cbn.
  destruct (Z.eqb_spec c 0); [congruence|]. rewrite IH by assumption. reflexivity.
Qed.

Lemma firstn_holds m s k : holds m s -> k <= length s -> firstn k m = map Some (firstn k s).
Proof.
  intros [_ [rest ->]] Hk. rewrite firstn_app, map_length, firstn_map.
  replace (k - length s) with 0 by lia. now rewrite app_nil_r.
Qed.
Lemma firstn_holds1 m s : holds m s -> firstn (length s + 1) m = map Some s ++ [Some 0%Z].
Proof.
  intros [_ [rest ->]]. rewrite firstn_app, map_length. rewrite firstn_all2 by (rewrite map_length; lia).
  replace (length s + 1 - length s) with 1 by lia. reflexivity.
Qed.
Lemma length_holds m s : holds m s -> length s < length m.
Proof. intros [_ [rest ->]]. rewrite app_length, map_length. cbn. lia. Qed.

(** What [opk_copy_string] leaves in the destination. *)
Definition copied (b : array) (size : nat) (s : list Z) : array :=
  match size with
  | 0 => b
  | S size' => let k := Nat.min size' (length s) in map Some (firstn k s) ++ Some 0%Z :: skipn (k + 1) b
  end.

Lemma skipn_app_at {A} (l1 l2 : list A) k : length l1 <= k -> skipn k (l1 ++ l2) = skipn (k - length l1) l2.
Proof. intros. rewrite skipn_app, skipn_all2 by lia. reflexivity. Qed.

Lemma skipn_skipn' {A} (l : list A) : forall i j, skipn i (skipn j l) = skipn (i + j) l.
Proof.
  induction l as [|a l IH]; intros i j; [now rewrite !skipn_nil|]. destruct j as [|j].
  - now rewrite Nat.add_0_r.
  - rewrite Nat.add_succ_r. cbn [skipn]. apply IH.
Qed.

Lemma copy_string_src b size src s :
  (src = None /\ s = []) \/ (exists m, src = Some m /\ holds m s) ->
  size <= length b ->
  copy_string (Some b) size src = Some (Some (copied b size s), length s + 1).
Proof.
  intros Hsrc Hb. unfold copy_string.
  assert (HL : match src with
               | None => Some 0
               | Some m => do c <- nth_error m 0; do c <- c; if (c =? 0)%Z then Some 0 else strlen m
               end = Some (length s)).
  { destruct Hsrc as [[-> ->]|(m & -> & Hm)]; [reflexivity|].
    pose proof (strlen_holds m s Hm) as HS. destruct Hm as [Hz [rest ->]]. destruct s as [|c s]; [reflexivity|].
    inversion Hz; subst. cbn [map app nth_error]. destruct (Z.eqb_spec c 0); [congruence|]. exact HS. }
  rewrite HL. cbn [option_map].
  destruct (Nat.ltb_spec (length s) size) as [H1|H1].
  - destruct size as [|size]; [lia|]. cbn [copied]. rewrite Nat.min_r by lia.
    destruct (Nat.ltb_spec 0 (length s)) as [H2|H2].
    + destruct Hsrc as [[-> ->]|(m & -> & Hm)]; [cbn in H2; lia|]. unfold memcpy.
      pose proof (length_holds _ _ Hm). destruct (Nat.leb_spec (length s + 1) (length m)); [|lia].
      destruct (Nat.leb_spec (0 + (length s + 1)) (length b)); [|lia]. cbn [andb firstn app option_map].
      rewrite (firstn_holds1 m s Hm), firstn_all, <- app_assoc. reflexivity.
    + assert (s = []) by (destruct s; [reflexivity | cbn in H2; lia]); subst s. cbn. unfold put.
      destruct (Nat.ltb_spec 0 (length b)); [|lia]. reflexivity.
  - destruct (Nat.ltb_spec 1 size) as [H2|H2].
    + destruct Hsrc as [[-> ->]|(m & -> & Hm)]; [cbn in H1; lia|]. unfold memcpy at 1.
      pose proof (length_holds _ _ Hm). destruct (Nat.leb_spec (size - 1) (length m)); [|lia].
      destruct (Nat.leb_spec (0 + (size - 1)) (length b)); [|lia]. cbn [andb firstn app].
      destruct (Nat.ltb_spec 0 size); [|lia]. unfold put.
      rewrite (firstn_holds m s) by (assumption || lia).
      assert (HLk : length (map (@Some Z) (firstn (size - 1) s)) = size - 1).
      { rewrite map_length, firstn_length. lia. }
      rewrite app_length, HLk, skipn_length. destruct (Nat.ltb_spec (size - 1) (size - 1 + (length b - (0 + (size - 1))))); [|lia].
      cbn [option_map]. do 3 f_equal. destruct size as [|size]; [lia|]. cbn [copied]. rewrite Nat.min_l by lia.
      replace (S size - 1) with size in * by lia.
      rewrite firstn_app, HLk, Nat.sub_diag, firstn_O, app_nil_r, firstn_all2 by lia.
      do 2 f_equal. rewrite skipn_app_at by lia. rewrite HLk, skipn_skipn'. f_equal. lia.
    + destruct size as [|[|size]]; [| |lia].
      * reflexivity.
      * cbn. unfold put. destruct (Nat.ltb_spec 0 (length b)); [|lia]. reflexivity.
Qed.

Lemma copy_string_null size src s :
  (src = None /\ s = []) \/ (exists m, src = Some m /\ holds m s) ->
  copy_string None size src = Some (None, length s + 1).
Proof.
  intros Hsrc. unfold copy_string.
  destruct Hsrc as [[-> ->]|(m & -> & Hm)]; [reflexivity|].
  pose proof (strlen_holds m s Hm) as HS. destruct Hm as [Hz [rest ->]]. destruct s as [|c s]; [reflexivity|].
  inversion Hz; subst. cbn [map app nth_error]. destruct (Z.eqb_spec c 0); [congruence|].
  cbn [map app] in HS. rewrite HS. reflexivity.
Qed.

(** ** strcpy and strcat *)

Lemma strcpy_holds d m s : holds m s -> length s < length d ->
  exists d', strcpy d m = Some d' /\ holds d' s /\ length d' = length d.
Proof.
  intros Hm Hd. unfold strcpy. rewrite (strlen_holds m s Hm). unfold memcpy.
  pose proof (length_holds _ _ Hm). destruct (Nat.leb_spec (length s + 1) (length m)); [|lia].
  destruct (Nat.leb_spec (0 + (length s + 1)) (length d)); [|lia]. cbn [andb firstn app].
  eexists; split; [reflexivity|]. rewrite (firstn_holds1 m s Hm), <- app_assoc. split.
  - split; [apply Hm | now eexists].
  - rewrite !app_length, map_length, skipn_length. cbn. lia.
Qed.
Lemma strcat_holds d s m t : holds d s -> holds m t -> length s + length t < length d ->
  exists d', strcat d m = Some d' /\ holds d' (s ++ t) /\ length d' = length d.
Proof.
  intros Hd Hm HL. unfold strcat. rewrite (strlen_holds d s Hd), (strlen_holds m t Hm). unfold memcpy.
  pose proof (length_holds _ _ Hm). destruct (Nat.leb_spec (length t + 1) (length m)); [|lia].
  destruct (Nat.leb_spec (length s + (length t + 1)) (length d)); [|lia]. cbn [andb].
  eexists; split; [reflexivity|]. rewrite (firstn_holds1 m t Hm), (firstn_holds d s) by (assumption || lia).
  rewrite firstn_all. split.
  - split; [apply Forall_app; split; [apply Hd | apply Hm]|]. eexists. rewrite map_app, <- !app_assoc. reflexivity.
  - rewrite !app_length, !map_length, skipn_length. cbn. lia.
Qed.
Lemma strcat_overflow d s m t : holds d s -> holds m t -> length d <= length s + length t -> strcat d m = None.
Proof.
  intros Hd Hm HL. unfold strcat. rewrite (strlen_holds d s Hd), (strlen_holds m t Hm). unfold memcpy.
  destruct (Nat.leb_spec (length s + (length t + 1)) (length d)); [lia|]. now rewrite andb_false_r.
Qed.

(** ** Decimal numbers *)

Lemma dec_length k : forall fuel m, (0 <= m < 10 ^ Z.of_nat k)%Z -> 0 < k -> length (dec fuel m) <= k.
Proof.
  induction k as [|k IH]; intros fuel m Hm Hk; [lia|]. destruct fuel as [|fuel]; [cbn; lia|]. cbn [dec].
  destruct (Z.ltb_spec m 10); [cbn; lia|]. rewrite app_length. cbn.
  assert (0 < k). { destruct k; [|lia]. cbn in Hm. lia. }
  assert (length (dec fuel (m / 10)) <= k); [|lia]. apply IH; [|assumption].
  rewrite Nat2Z.inj_succ, Z.pow_succ_r in Hm by lia.
  split; [apply Z.div_pos; lia | apply Z.div_lt_upper_bound; lia].
Qed.

(** The value of a string of digits. *)
Definition value (l : list Z) : Z := fold_left (fun v c => 10 * v + (c - 48))%Z l 0%Z.

Lemma decimal_value m : (1 <= m)%Z -> value (decimal m) = m.
Proof.
  intros Hm. unfold decimal. pose proof (Z.log2_spec m ltac:(lia)). pose proof (Z.log2_nonneg m).
  destruct (Z.eq_dec m 1) as [->|]; [reflexivity|].
  assert (HB : forall fuel m, (0 <= m < 2 * 2 ^ Z.of_nat fuel)%Z -> value (dec (S fuel) m) = m).
  { clear. induction fuel as [|fuel IH]; intros m Hm.
    - cbn in Hm. assert (m = 0 \/ m = 1)%Z as [->| ->] by lia; reflexivity.
    - remember (S fuel) as f. cbn [dec]. destruct (Z.ltb_spec m 10); [unfold value; cbn [fold_left]; lia|].
      unfold value. rewrite fold_left_app. cbn [fold_left]. subst f. fold (value (dec (S fuel) (m / 10))).
      rewrite IH.
      + pose proof (Z.div_mod m 10). lia.
      + rewrite Nat2Z.inj_succ, Z.pow_succ_r in Hm by lia. split; [apply Z.div_pos; lia | apply Z.div_lt_upper_bound; lia]. }
  apply HB. rewrite Z2Nat.id by lia. rewrite <- Z.pow_succ_r by lia. lia.
Qed.
Lemma dec_digits : forall fuel m, (0 <= m)%Z -> Forall (fun c => 48 <= c <= 57)%Z (dec fuel m).
Proof.
  induction fuel as [|fuel IH]; intros m Hm; [constructor|]. cbn [dec]. destruct (Z.ltb_spec m 10).
  - repeat constructor; lia.
  - apply Forall_app; split; [apply IH; apply Z.div_pos; lia|]. pose proof (Z.mod_pos_bound m 10). repeat constructor; lia.
Qed.
