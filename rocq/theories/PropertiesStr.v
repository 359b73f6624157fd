(** C45: searching in strings; C46: comparing strings; C59: keys of several values; C60: character classes. *)

From Coq Require Import ZArith List Bool Lia.
Import ListNotations.
From Verif Require Import CppInt StrModel StrSpec StrProofs.
Open Scope Z_scope.

(** Searching a string gives its first occurrence. *)
Theorem C45_find : forall s p, first_occurrence (fun a b => a = b) p s (strstr s p).
Proof. exact strstr_first. Qed.
Print Assumptions C45_find.

Example C45_find_case : strstr [97; 97; 98; 97; 97; 99] [97; 97; 99] = Some 3%nat /\ strstr [97; 97] [97; 97; 97] = None /\ strstr [1] [] = Some 0%nat.
Proof. repeat split. Qed.

(** So does searching a character. *)
Theorem C45_find_char : forall s c, match strchr s c with
  | Some i => nth_error s i = Some c /\ forall j, nth_error s j = Some c -> (i <= j)%nat
  | None => ~ In c s
  end.
Proof.
  intros s c. pose proof (strchr_ok s c 0) as H. unfold strchr. destruct (strchr_from plain_eq 0 s c); [|exact H].
  destruct H as (i & -> & E & M). split; [exact E|exact M].
Qed.
Print Assumptions C45_find_char.

(** Without regard to case; missing are texts beyond ASCII, see below. *)
Theorem C45_find_nocase_partial : forall s p, ascii s -> ascii p -> first_occurrence (fun a b => upper a = upper b) p s (stristr s p).
Proof. exact stristr_ascii. Qed.
Print Assumptions C45_find_nocase_partial.

Example C45_find_nocase_case : ascii [120; 65; 98; 67] /\ stristr [120; 65; 98; 67] [97; 66] = Some 1%nat.
Proof. split; [repeat constructor; lia|reflexivity]. Qed.

(** There, a character is taken for the one with the same lowest eight bits. *)
Theorem C45_find_nocase_refuted : forall c k, 0 < c < 127 -> stristr [c + 256 * k] [c] = Some 0%nat.
Proof. exact found_high. Qed.
Print Assumptions C45_find_nocase_refuted.

Example C45_find_nocase_refuted_case : stristr [353] [65] = Some 0%nat /\ proper_text [353].
Proof. split; [reflexivity|repeat constructor; lia]. Qed.

(** Comparing strings gives the lexicographic order of the character codes. *)
Theorem C46_compare : forall s t, proper_text s -> proper_text t -> exists c, strcmp s t = Some c /\ compares Z.lt s t c.
Proof. exact strcmp_ok. Qed.
Print Assumptions C46_compare.

(** Which is a strict order. *)
Theorem C46_order : (forall s : list Z, ~ before Z.lt s s) /\ (forall s t u : list Z, before Z.lt s t -> before Z.lt t u -> before Z.lt s u).
Proof. split; [apply before_irr; lia|apply before_trans; lia]. Qed.
Print Assumptions C46_order.

Example C46_compare_case : strcmp [97; 98] [97; 98; 99] = Some Lt /\ strcmp [98] [97; 98; 99] = Some Gt /\ strcmp [20013] [20013] = Some Eq /\
  proper_text [97; 98; 99] /\ proper_text [20013].
Proof. repeat split; repeat constructor; lia. Qed.

(** Without regard to case: the order of the upper-case texts; missing are texts beyond ASCII. *)
Theorem C46_compare_nocase_partial : forall s t, ascii s -> ascii t -> exists c, stricmp s t = Some c /\ compares Z.lt (map upper s) (map upper t) c.
Proof. exact stricmp_ok. Qed.
Print Assumptions C46_compare_nocase_partial.

Example C46_compare_nocase_case : stricmp [97; 66] [65; 98] = Some Eq /\ stricmp [97; 95] [65; 98] = Some Gt /\ ascii [97; 66] /\ ascii [65; 98].
Proof. repeat split; repeat constructor; lia. Qed.

(** There, different characters compare equal, and some texts are read beyond their end. *)
Theorem C46_compare_nocase_refuted : forall c k, 0 < c < 127 -> stricmp [c + 256 * k] [c] = Some Eq.
Proof. exact equal_high. Qed.
Print Assumptions C46_compare_nocase_refuted.

Theorem C46_overrun_refuted : forall k s, stricmp (256 * k :: s) [] = None.
Proof. exact over_end. Qed.
Print Assumptions C46_overrun_refuted.

Example C46_overrun_case : proper_text [256; 65] /\ stricmp [256; 65] [] = None.
Proof. split; [repeat constructor; lia|reflexivity]. Qed.

(** Testing for a prefix and for equality. *)
Theorem C46_prefix : forall prefix s, proper_text prefix -> (starts_with s prefix = true <-> exists b, s = prefix ++ b).
Proof. exact starts_with_ok. Qed.
Print Assumptions C46_prefix.

Theorem C46_equals : forall s t, proper_text t -> (equals s t = true <-> s = t).
Proof. exact equals_ok. Qed.
Print Assumptions C46_equals.

Example C46_prefix_case : starts_with [97; 98; 99] [97; 98] = true /\ starts_with [97] [97; 98] = false /\ equals [97; 98] [97; 98] = true.
Proof. repeat split. Qed.

(** Keys of several values are ordered by size, then by the first difference; equal exactly when they are the same. *)
Theorem C59_key_order : forall K ltb,
  (forall a b : K, ltb a b = true -> ltb b a = false) -> (forall a b, ltb a b = false -> ltb b a = false -> a = b) ->
  forall a b, Z.of_nat (length a) < 2 ^ 31 -> Z.of_nat (length b) < 2 ^ 31 ->
  exists d, multikey_cmp K ltb a b = Some d /\
    (d < 0 <-> key_before (fun x y => ltb x y = true) a b) /\ (d > 0 <-> key_before (fun x y => ltb x y = true) b a) /\ (d = 0 <-> a = b).
Proof. exact multikey_ok. Qed.
Print Assumptions C59_key_order.

(** The order is a strict one. *)
Theorem C59_key_strict : forall K (lt : K -> K -> Prop), (forall a, ~ lt a a) -> (forall a b c, lt a b -> lt b c -> lt a c) ->
  (forall a, ~ key_before lt a a) /\ (forall a b c, key_before lt a b -> key_before lt b c -> key_before lt a c).
Proof.
  intros K lt I T. unfold key_before. split.
  - intros a [H|[_ H]]; [lia|exact (before_irr lt I a H)].
  - intros a b c [H1|[H1 B1]] [H2|[H2 B2]]; try (left; lia). right. split; [lia|]. exact (before_trans lt T a b c B1 B2).
Qed.
Print Assumptions C59_key_strict.

Example C59_key_case : multikey_cmp Z Z.ltb [1; 2; 3] [4; 5] = Some 1 /\ multikey_cmp Z Z.ltb [1; 2] [1; 3] = Some (-1) /\ multikey_cmp Z Z.ltb [7] [7] = Some 0.
Proof. repeat split. Qed.

(** The digits of a radix, for ASCII characters. *)
Theorem C60_digit_partial : forall c radix, 0 < c < 127 -> 2 <= radix <= 16 ->
  (is_digit_of c radix = true <->
   (48 <= c <= 57 /\ c - 48 < radix) \/ (97 <= c <= 102 /\ c - 87 < radix) \/ (65 <= c <= 70 /\ c - 55 < radix)).
Proof. exact digit_ascii. Qed.
Print Assumptions C60_digit_partial.

Example C60_digit_case : is_digit_of 55 8 = true /\ is_digit_of 56 8 = false /\ is_digit_of 102 16 = true /\ is_digit_of 103 16 = false.
Proof. repeat split. Qed.

(** Beyond ASCII any character with the lowest eight bits of a digit is one, although it is not a digit otherwise. *)
Theorem C60_digit_refuted : forall c k, 48 <= c <= 57 -> 1 <= k <= 2 ^ 23 -> is_digit_of (c + 256 * k) 10 = true /\ is_digit (c + 256 * k) = false.
Proof.
  intros c k H K. split.
  - unfold is_digit_of. rewrite high_digit. apply (digit_ascii c 10); lia.
  - unfold is_digit, within. rewrite wrap_id by (unfold in_range; change (tmin U64) with 0; change (tmax U64) with (2 ^ 64 - 1); lia).
    rewrite (proj2 (Z.ltb_ge _ _)) by lia. reflexivity.
Qed.
Print Assumptions C60_digit_refuted.

Example C60_digit_refuted_case : is_digit_of 305 10 = true /\ digit_value 305 = 1.
Proof. split; reflexivity. Qed.
