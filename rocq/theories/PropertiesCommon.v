(** C47-C49: alignment, flag sets and GUIDs of include/common.h. *)

From Coq Require Import ZArith List Bool Lia.
Import ListNotations.
From Verif Require Import CppInt CommonModel CommonSpec CommonProofs.
Open Scope Z_scope.

(** *** C47: rounding to a power-of-two unit; sizes have 64 bits *)

(** Rounding up gives the least multiple that is at least the size, whenever some
    multiple at least the size can be represented. *)
Theorem C47_round_up : forall s k m, 0 <= k < 64 -> 0 <= s ->
  (2 ^ k | m) -> s <= m < 2 ^ 64 ->
  (2 ^ k | alignf s (2 ^ k)) /\ s <= alignf s (2 ^ k) <= m.
Proof. exact align_up_least. Qed.
Print Assumptions C47_round_up.

Example C47_round_up_case : alignf 4097 (2 ^ 12) = 8192 /\ alignf 8192 (2 ^ 12) = 8192.
Proof. split; reflexivity. Qed.

(** Past the last representable multiple the result is 0. *)
Theorem C47_round_up_wraps : forall s k, 0 <= k < 64 ->
  2 ^ 64 - 2 ^ k < s < 2 ^ 64 -> alignf s (2 ^ k) = 0.
Proof. exact align_up_wraps. Qed.
Print Assumptions C47_round_up_wraps.

Theorem C47_round_down : forall s k, 0 <= k < 64 -> 0 <= s < 2 ^ 64 ->
  (2 ^ k | align s (2 ^ k)) /\ align s (2 ^ k) <= s
  /\ forall m, (2 ^ k | m) -> m <= s -> m <= align s (2 ^ k).
Proof. exact align_down_greatest. Qed.
Print Assumptions C47_round_down.

Example C47_round_down_case : align 4097 (2 ^ 12) = 4096.
Proof. reflexivity. Qed.

Theorem C47_test : forall s k, 0 <= k < 64 -> 0 <= s < 2 ^ 64 ->
  (is_aligned s (2 ^ k) = true <-> (2 ^ k | s)).
Proof. exact is_aligned_iff. Qed.
Print Assumptions C47_test.

(** Doubling gives the first of [s], [2s], [4s], ... that is at least the target
    (an empty size counts as 1). *)
Theorem C47_doubling : forall s a, 0 <= s < 2 ^ 64 -> 0 <= a <= 2 ^ 63 ->
  exists j, 0 <= j /\ alignd s a = Some (Z.max 1 s * 2 ^ j)
            /\ a <= Z.max 1 s * 2 ^ j
            /\ forall i, 0 <= i < j -> Z.max 1 s * 2 ^ i < a.
Proof. exact alignd_spec. Qed.
Print Assumptions C47_doubling.

Example C47_doubling_case : alignd 6 100 = Some 192.
Proof. reflexivity. Qed.

(** Above the last power of two the doubling never ends. *)
Theorem C47_doubling_refuted : exists a, 0 <= a < 2 ^ 64 /\ forall fuel, double_until fuel 1 a = None.
Proof. exact doubling_endless. Qed.
Print Assumptions C47_doubling_refuted.

(** *** C48: flag sets are sets of bits *)

Theorem C48_add : forall t v f fs b, in_range t v -> Forall (in_range t) (f :: fs) ->
  in_range t (enum_add v f fs)
  /\ (has_bit t (enum_add v f fs) b
      <-> has_bit t v b \/ exists g, In g (f :: fs) /\ has_bit t g b).
Proof. exact enum_add_spec. Qed.
Print Assumptions C48_add.

Theorem C48_remove : forall t v f fs b, in_range t v ->
  in_range t (enum_remove t v f fs)
  /\ (has_bit t (enum_remove t v f fs) b
      <-> has_bit t v b /\ ~ exists g, In g (f :: fs) /\ has_bit t g b).
Proof. intros t v f fs b H. split; [apply remove_range; assumption|apply enum_remove_spec]. Qed.
Print Assumptions C48_remove.

(** Testing asks for a common member. *)
Theorem C48_has : forall t v f fs, in_range t v -> Forall (in_range t) (f :: fs) ->
  (enum_has t v f fs = true <->
   exists b, has_bit t v b /\ exists g, In g (f :: fs) /\ has_bit t g b).
Proof. exact enum_has_spec. Qed.
Print Assumptions C48_has.

Theorem C48_has_only : forall t v f fs, in_range t v -> Forall (in_range t) (f :: fs) ->
  (enum_has_only t v f fs = true <->
   (exists b, has_bit t v b) /\
   forall b, has_bit t v b -> exists g, In g (f :: fs) /\ has_bit t g b).
Proof. exact enum_has_only_spec. Qed.
Print Assumptions C48_has_only.

(** Two values with the same members are the same value. *)
Theorem C48_extensional : forall t u v, in_range t u -> in_range t v ->
  (forall b, has_bit t u b <-> has_bit t v b) -> u = v.
Proof. exact has_bit_ext. Qed.
Print Assumptions C48_extensional.

Theorem C48_match : forall t v f, in_range t v -> in_range t f ->
  (bit_match_flag t v f = true <-> forall b, has_bit t f b -> has_bit t v b).
Proof. exact match_spec. Qed.
Print Assumptions C48_match.

Theorem C48_has_one : forall t v f, in_range t v -> in_range t f ->
  (bit_has_flag t v [f] = true <-> exists b, has_bit t v b /\ has_bit t f b).
Proof. exact has_one_spec. Qed.
Print Assumptions C48_has_one.

Example C48_case :
  enum_add 1 4 [2] = 7 /\ enum_remove I32 7 4 [1] = 2 /\ enum_has I32 2 4 [1] = false
  /\ enum_has U8 130 128 [] = true /\ enum_has_only U8 130 128 [2; 4] = true
  /\ bit_match_flag I8 (-1) (-128) = true.
Proof. repeat split; reflexivity. Qed.

(** The free function with several flags combines them with exclusive or: a flag
    named twice is not found. *)
Theorem C48_has_many_refuted : exists t v f,
  in_range t v /\ in_range t f /\ bit_has_flag t v [f; f] = false
  /\ exists b, has_bit t v b /\ has_bit t f b.
Proof. exact has_many_refuted. Qed.
Print Assumptions C48_has_many_refuted.

(** [bit_and] of plain integers is not the intersection. *)
Theorem C48_and_int_refuted : exists t u v b,
  in_range t u /\ in_range t v /\ has_bit t (bit_and_int t [u; v]) b
  /\ ~ has_bit t u b /\ ~ has_bit t v b.
Proof. exact and_int_refuted. Qed.
Print Assumptions C48_and_int_refuted.

(** Listing the flags of a set gives its members, one by one, from the lowest. *)
Theorem C48_list : forall t v, is_signed t = true -> in_range t v -> 0 <= v \/ bits t < 32 ->
  exists bs, enum_flags t v = Some (map (fun b => wrap t (2 ^ b)) bs)
             /\ ascending 0 bs /\ forall b, In b bs <-> has_bit t v b.
Proof. exact enum_flags_spec. Qed.
Print Assumptions C48_list.

Example C48_list_case : enum_flags I32 21 = Some [1; 4; 16] /\ enum_flags I8 (-64) = Some [64; -128].
Proof. split; reflexivity. Qed.

(** With the top bit of a 32 or 64 bit enumeration the listing overflows. *)
Theorem C48_list_refuted : forall t v, t = I32 \/ t = I64 -> in_range t v -> v < 0 ->
  enum_flags t v = None.
Proof. exact enum_flags_negative. Qed.
Print Assumptions C48_list_refuted.

(** *** C49: GUID parsing *)

(** Accepted are exactly the strings that begin with the 8-4-4-4-12 form, and the
    result is the sixteen bytes it denotes. *)
Theorem C49_accepts : forall s bs,
  guid_parse s = GOk bs <-> exists u rest, s = u ++ rest /\ guid_form u bs.
Proof. exact guid_accepts. Qed.
Print Assumptions C49_accepts.

Theorem C49_sixteen_bytes : forall s bs, guid_parse s = GOk bs ->
  length bs = 16%nat /\ Forall (fun b => 0 <= b < 256) bs.
Proof. exact guid_sixteen. Qed.
Print Assumptions C49_sixteen_bytes.

(** An accepted string's bytes are determined by its first 36 characters. *)
Theorem C49_first_36 : forall u rest rest' bs, length u = 36%nat ->
  guid_parse (u ++ rest) = GOk bs -> guid_parse (u ++ rest') = GOk bs.
Proof. exact guid_first_36. Qed.
Print Assumptions C49_first_36.

(** "01234567-89aB-cDef-0011-223344556677" *)
Definition sample_guid : list Z :=
  [48;49;50;51;52;53;54;55; 45; 56;57;97;66; 45; 99;68;101;102; 45; 48;48;49;49; 45;
   50;50;51;51;52;52;53;53;54;54;55;55].
Example C49_case : guid_parse sample_guid
  = GOk [1;35;69;103;137;171;205;239;0;17;34;51;68;85;102;119].
Proof. vm_compute. reflexivity. Qed.

(** Not exactly the form: anything may follow it. *)
Theorem C49_exact_refuted : exists s bs, guid_parse s = GOk bs /\ length s <> 36%nat.
Proof. exact guid_trailing. Qed.
Print Assumptions C49_exact_refuted.

(** Hexadecimal digits in the places of the dashes write past the sixteen bytes. *)
Theorem C49_in_bounds_refuted : exists s, length s = 36%nat /\
  Forall (fun c => exists d, hex c d) s /\ guid_parse s = GUndef.
Proof. exact guid_overflow. Qed.
Print Assumptions C49_in_bounds_refuted.

(** A string of an even number of digits, too short, is read past its end. *)
Theorem C49_short_refuted : exists s, guid_parse s = GUndef /\ (length s < 36)%nat
  /\ Forall (fun c => c <> 0) s.
Proof. exact guid_short. Qed.
Print Assumptions C49_short_refuted.

(** With a dash at each of the four places the parser is always defined. *)
Theorem C49_defined_partial : forall s,
  (36 <= length s)%nat ->
  nth_error s 8 = Some 45 -> nth_error s 13 = Some 45 ->
  nth_error s 18 = Some 45 -> nth_error s 23 = Some 45 -> guid_parse s <> GUndef.
Proof. exact guid_defined. Qed.
Print Assumptions C49_defined_partial.
