(** C11-C14, C61 and C62: numeric literals. *)

From Coq Require Import ZArith List Bool.
Import ListNotations.
From Verif Require Import CppInt LitModel LitSpec LitProofs.
Open Scope Z_scope.

(** C11: an integer literal with any suffix, whatever precedes and follows it, has its mathematical value and the first type of the
    ladder that can represent it, or is reported as overflow when it is at least 2^64. *)
Theorem C11_integer : forall f op ds s u l suf rest before,
  opening f op -> proper f ds -> spelled (base f) ds s -> suffix u l suf -> ends_here rest ->
  (exists t, first_fit (value (base f) ds) (ladder f u l) t
     /\ parse_numeric before (op ++ s ++ suf ++ rest) = Integer t (value (base f) ds) (length (op ++ s ++ suf)))
  \/ (2 ^ 64 <= value (base f) ds /\ parse_numeric before (op ++ s ++ suf ++ rest) = Overflow).
Proof.
  intros. eapply (nonnegative_ok f op ds s s u l suf rest before None []); eauto using No_sign, plain_quoted. discriminate.
Qed.
Print Assumptions C11_integer.

(** 0xFFFFFFFFL; is 2^32 - 1 of type uint64; 2^64 written in decimal overflows. *)
Example C11_case :
  parse_numeric None ([48; 120] ++ [70; 70; 70; 70; 70; 70; 70; 70] ++ [76] ++ [59]) = Integer U64 4294967295 11
  /\ parse_numeric (Some 32) [49; 56; 52; 52; 54; 55; 52; 52; 48; 55; 51; 55; 48; 57; 53; 53; 49; 54; 49; 54] = Overflow
  /\ spelled 16 (repeat 15 8) [70; 70; 70; 70; 70; 70; 70; 70].
Proof. split; [| split]; try (vm_compute; reflexivity). exact eight_fs. Qed.

(** C12, part: quotes after decimal digits change neither the type nor the value. *)
Theorem C12_separators_partial : forall f op ds s s' u l suf rest before,
  opening f op -> proper f ds -> spelled (base f) ds s -> quoted decimal_digit s s' -> suffix u l suf -> ends_here rest ->
  same_meaning (parse_numeric before (op ++ s' ++ suf ++ rest)) (parse_numeric before (op ++ s ++ suf ++ rest)).
Proof. exact separators_neutral. Qed.
Print Assumptions C12_separators_partial.

(** 1'000'000 *)
Example C12_case : quoted decimal_digit [49; 48; 48; 48; 48; 48; 48] [49; 39; 48; 48; 48; 39; 48; 48; 48]
  /\ parse_numeric None [49; 39; 48; 48; 48; 39; 48; 48; 48] = Integer I32 1000000 9.
Proof. split; [exact million | vm_compute; reflexivity]. Qed.

(** C12 does not hold for quotes between any digits: a quote after a hexadecimal letter is a format error. *)
Theorem C12_separators_refuted : exists ds s s',
  proper Hexadecimal ds /\ spelled 16 ds s /\ quoted any_digit s s'
  /\ (exists t v p, forall before, parse_numeric before ([48; 120] ++ s) = Integer t v p)
  /\ (forall before, parse_numeric before ([48; 120] ++ s') = Format_error).
Proof. exact separator_after_letter. Qed.
Print Assumptions C12_separators_refuted.

(** C13, part: a decimal literal with a minus sign denotes the negated value of its digits, in the first signed type that can
    represent it, when it is at least -2^63 and neither it nor a number made of its first digits is 2^31 or 2^63. *)
Theorem C13_negative_partial : forall ds s l suf rest before,
  proper Decimal ds -> spelled 10 ds s -> suffix false l suf -> ends_here rest ->
  value 10 ds <= 2 ^ 63 -> (forall k, 0 <= k -> value 10 ds / 10 ^ k <> 2 ^ 31 /\ value 10 ds / 10 ^ k <> 2 ^ 63) ->
  exists t, first_fit (- value 10 ds) (if l then [I64] else [I32; I64]) t
    /\ parse_numeric before (45 :: s ++ suf ++ rest) = Integer t (- value 10 ds) (length (45 :: s ++ suf)).
Proof. intros. eapply negative_ok; eauto using plain_quoted. Qed.
Print Assumptions C13_negative_partial.

(** -2147483649 *)
Example C13_case : value 10 [2; 1; 4; 7; 4; 8; 3; 6; 4; 9] <= 2 ^ 63
  /\ (forall k, 0 <= k -> value 10 [2; 1; 4; 7; 4; 8; 3; 6; 4; 9] / 10 ^ k <> 2 ^ 31
                        /\ value 10 [2; 1; 4; 7; 4; 8; 3; 6; 4; 9] / 10 ^ k <> 2 ^ 63)
  /\ parse_numeric None [45; 50; 49; 52; 55; 52; 56; 51; 54; 52; 57] = Integer I64 (-2147483649) 11.
Proof. exact negative_case. Qed.

(** C13 does not hold for all of them: reading -2147483648, the least 32 bit integer, and -21474836480 overflows a signed
    integer, which is undefined behaviour in C++. *)
Theorem C13_negative_refuted : forall before,
  parse_numeric before [45; 50; 49; 52; 55; 52; 56; 51; 54; 52; 56] = Undefined
  /\ parse_numeric before [45; 50; 49; 52; 55; 52; 56; 51; 54; 52; 56; 48] = Undefined
  /\ value 10 [2; 1; 4; 7; 4; 8; 3; 6; 4; 8] = 2 ^ 31.
Proof. exact least_undefined. Qed.
Print Assumptions C13_negative_refuted.

(** C14: after an accepted literal the scanner has read an optional sign and all the characters that may be part of a literal, up to
    the first one that may not. *)
Theorem C14_scan : forall before s pos, accepted (parse_numeric before s) = Some pos ->
  exists neg sg body rest, s = sg ++ body ++ rest /\ sign_text neg sg /\ Forall literal_char body /\ ends_here rest
    /\ pos = length (sg ++ body).
Proof. exact scan_exact. Qed.
Print Assumptions C14_scan.

(** C14: what follows the literal does not change what is read. *)
Theorem C14_local : forall before neg sg body rest,
  sign_text neg sg -> body <> [] -> Forall literal_char body -> ends_here rest ->
  parse_numeric before (sg ++ body ++ rest) = parse_numeric before (sg ++ body).
Proof. exact parse_local. Qed.
Print Assumptions C14_local.

(** 12+3 *)
Example C14_case : accepted (parse_numeric None [49; 50; 43; 51]) = Some 2%nat /\ ends_here [43; 51] /\ Forall literal_char [49; 50].
Proof.
  split; [vm_compute; reflexivity | exact twelve_plus].
Qed.

(** C61, part: digits without F, not starting with zero, and H denote their hexadecimal value. *)
Theorem C61_hex_suffix_partial : forall ds s h rest before,
  spelled 16 ds s -> (exists c r, s = c :: r /\ c <> 48) -> Forall (fun c => c <> 70 /\ c <> 102) s -> h = 72 \/ h = 104 -> ends_here rest ->
  (exists t, first_fit (value 16 ds) [U32; U64] t
     /\ parse_numeric before (s ++ h :: rest) = Integer t (value 16 ds) (S (length s)))
  \/ (2 ^ 64 <= value 16 ds /\ parse_numeric before (s ++ h :: rest) = Overflow).
Proof. exact hex_suffix_ok. Qed.
Print Assumptions C61_hex_suffix_partial.

(** 12AH *)
Example C61_case : spelled 16 [1; 2; 10] [49; 50; 65] /\ parse_numeric None [49; 50; 65; 72] = Integer U32 298 4.
Proof.
  split; [exact one_two_a | vm_compute; reflexivity].
Qed.

(** C61 does not hold: 123e+10 stops at the sign with an error and 10F0H is rejected, both examples of the parser's own documentation;
    so is 0FFH, a hexadecimal literal with a leading zero. *)
Theorem C61_documented_refuted : forall before,
  parse_numeric before [49; 50; 51; 101; 43; 49; 48] = Format_error
  /\ parse_numeric before [49; 48; 70; 48; 72] = Format_error
  /\ parse_numeric before [48; 70; 70; 72] = Format_error.
Proof. exact documented_rejected. Qed.
Print Assumptions C61_documented_refuted.

(** C62, part: a text accepted as an integer is an optional sign, prefix characters, digits of one of the radixes with quotes among them
    and suffix letters; without a minus sign its value is that of the digits. *)
Theorem C62_form_partial : forall before s t v pos, parse_numeric before s = Integer t v pos ->
  exists neg sg pre digs suf rest r ds,
    s = sg ++ pre ++ digs ++ suf ++ rest /\ pos = length (sg ++ pre ++ digs ++ suf) /\ sign_text neg sg
    /\ Forall prefix_char pre /\ In r [2; 8; 10; 16] /\ spelled r ds (unquoted digs) /\ Forall suffix_char suf /\ ends_here rest
    /\ (neg <> Some true -> v = value r ds).
Proof. exact integer_form. Qed.
Print Assumptions C62_form_partial.

Example C62_case : parse_numeric None [49; 50; 85; 32] = Integer U32 12 3.
Proof. vm_compute. reflexivity. Qed.

(** C62 does not hold: 0x and 0b without digits are accepted as zero and 00x1F as hexadecimal. *)
Theorem C62_malformed_refuted : forall before,
  parse_numeric before [48; 120] = Integer U32 0 2 /\ parse_numeric before [48; 98] = Integer I32 0 2
  /\ parse_numeric before [48; 48; 120; 49; 70] = Integer U32 31 5.
Proof. exact malformed_accepted. Qed.
Print Assumptions C62_malformed_refuted.
