(** The properties of the tokeniser. *)

From Coq Require Import String Ascii ZArith List Bool Lia.
Import ListNotations.
From Verif Require Import CppInt StrModel LitModel LitSpec TokModel TokSpec TokProofs TokText TokRefute TokExamples TokFlag.
Open Scope Z_scope.

(** C15, part: between quotes, the source form of a string, whatever precedes and follows, is read as one token with that string, and
    reading goes on just after the closing quote. Missing: the escapes for the zero character and the form feed. *)
Theorem C15_string_partial : forall r ws src str rest, pending r = None -> remaining r = ws ++ 34 :: src ++ 34 :: rest -> Forall white ws ->
  denotes (fun e => e <> 48 /\ e <> 102) src str ->
  gives r (Token (One Value) (position r + length ws) (S (S (length src))) (String str true))
    (Reader (source r) (position r + length ws + S (S (length src))) (Some (One Value)) None).
Proof. exact string_ok. Qed.
Print Assumptions C15_string_partial.

Example C15_case : denotes (fun e => e <> 48 /\ e <> 102) (codes "a\n\""") [97; 10; 34]
  /\ reads (codes """a\n\"""" x") [Token (One Value) 0 7 (String [97; 10; 34] true); Token (One Name) 8 1 No_data].
Proof. split; [exact escapes_denote | exists 20%nat, 10%nat; vm_compute; reflexivity]. Qed.

(** C15 does not hold with all the escapes: the one for the form feed gives the letter f. *)
Theorem C15_refuted : ~ forall r ws src str rest, pending r = None -> remaining r = ws ++ 34 :: src ++ 34 :: rest -> Forall white ws ->
  denotes (fun _ => True) src str ->
  gives r (Token (One Value) (position r + length ws) (S (S (length src))) (String str true))
    (Reader (source r) (position r + length ws + S (S (length src))) (Some (One Value)) None).
Proof. exact string_wrong. Qed.
Print Assumptions C15_refuted.

(** Nor for the zero character: the string of three characters is cut after the first. *)
Theorem C15_zero_refuted : denotes (fun _ => True) (codes "a\0b") [97; 0; 98]
  /\ forall more, next (20 + more) (start_reader (codes """a\0b"""))
       = Next (Reader (codes """a\0b""") 6 (Some (One Value)) None) (Token (One Value) 0 6 (String [97] true)).
Proof. split; [exact zero_denotes | exact zero_read]. Qed.
Print Assumptions C15_zero_refuted.

(** C16, part: a verbatim string without quotes in it is read as it is. Missing: quotes, which are doubled in the source. *)
Theorem C16_verbatim_partial : forall r ws str rest, pending r = None -> remaining r = ws ++ 64 :: 34 :: doubled str ++ 34 :: rest ->
  Forall white ws -> ~ In 34 str -> ~ In 0 str -> front rest <> 34 ->
  gives r (Token (One Value) (position r + length ws) (S (S (S (length (doubled str))))) (String str true))
    (Reader (source r) (position r + length ws + S (S (S (length (doubled str))))) (Some (One Value)) None).
Proof. exact verbatim_ok. Qed.
Print Assumptions C16_verbatim_partial.

Example C16_case : reads (codes "@""a\b"";") [Token (One Value) 0 6 (String [97; 92; 98] true); Token (One Semicolon) 6 1 No_data].
Proof. exists 20%nat, 10%nat. vm_compute. reflexivity. Qed.

(** C16 does not hold: a doubled quote ends the string with an error. *)
Theorem C16_refuted : ~ forall r ws str rest, pending r = None -> remaining r = ws ++ 64 :: 34 :: doubled str ++ 34 :: rest ->
  Forall white ws -> ~ In 0 str -> match rest with 34 :: _ => False | _ => True end ->
  gives r (Token (One Value) (position r + length ws) (S (S (S (length (doubled str))))) (String str true))
    (Reader (source r) (position r + length ws + S (S (S (length (doubled str))))) (Some (One Value)) None).
Proof. exact verbatim_wrong. Qed.
Print Assumptions C16_refuted.

(** C17, part: tokenising a text ends exactly when it does not meet, as its next token, a character literal whose closing quote is
    missing on the line. *)
Theorem C17_terminates_partial : forall s, (exists ts, reads s ts) <-> (forall ts r, after (start_reader s) ts r -> ~ stuck r).
Proof. exact terminates_iff. Qed.
Print Assumptions C17_terminates_partial.

(** So it ends for every text without single quotes, whatever its strings, comments, names and unknown characters. *)
Theorem C17_plain_partial : forall s, ~ In 39 s -> exists ts, reads s ts.
Proof. exact terminates_plain. Qed.
Print Assumptions C17_plain_partial.

(** And the text is never read outside of its characters and the zero after them. *)
Theorem C17_bounds : forall calls fuel s, read_all fuel calls (start_reader s) <> Out_of_bounds.
Proof. intros calls fuel s. exact (never_outside calls fuel (start_reader s)). Qed.
Print Assumptions C17_bounds.

Example C17_case : (exists ts, reads (codes "'a'+'\n'") ts) /\ ~ In 39 (codes "x = 1; // y").
Proof. split; [eexists; exact quotes_read | vm_compute; intuition discriminate]. Qed.

(** C17 does not hold: a quote, the letter a, a line feed. *)
Theorem C17_refuted : ~ forall s, exists ts, reads s ts.
Proof. exact terminates_wrong. Qed.
Print Assumptions C17_refuted.

(** C18, part: the token after a name or a literal, when it starts with a sign, is an operator and not a signed literal. *)
Theorem C18_sign_partial : forall s ts i t1 t2, reads s ts -> nth_error ts i = Some t1 -> nth_error ts (S i) = Some t2 -> operand t1 ->
  (nth (token_start t2) s 0 = 45 -> minus_values (token_value t2))
  /\ (nth (token_start t2) s 0 = 43 -> plus_values (token_value t2)).
Proof. exact sign_after_operand. Qed.
Print Assumptions C18_sign_partial.

Example C18_case : reads (codes "1-2")
  [Token (One Value) 0 1 (Number (Integer I32 1 1)); Token (Any [Sub; Minus]) 1 1 No_data; Token (One Value) 2 1 (Number (Integer I32 2 1))].
Proof. exact minus_read. Qed.

(** C18 does not hold for operands that end with a bracket: the tokens of [)-1] are a bracket and the literal -1. *)
Theorem C18_refuted : ~ forall s ts i t1 t2, reads s ts -> nth_error ts i = Some t1 -> nth_error ts (S i) = Some t2 ->
  operand t1 \/ token_value t1 = One Right_bracket \/ token_value t1 = One Right_square ->
  nth (token_start t2) s 0 = 45 -> minus_values (token_value t2).
Proof. exact sign_wrong. Qed.
Print Assumptions C18_refuted.

(** C63: the tokens of a text are in its order, do not overlap and have only whitespace between them, so that no character is lost;
    only [>>] counts twice. *)
Theorem C63_spans : forall s ts, reads s ts -> spans s 0 ts.
Proof. exact reads_spans. Qed.
Print Assumptions C63_spans.

Example C63_case : reads shift_text shift_tokens.
Proof. exact shift_read. Qed.

(** C64: a text written as words, symbols, integer, string and character literals and comments, with whitespace between them,
    is read as the tokens of these lexemes, at their positions and with their values. *)
Theorem C64_text_read : forall s ts, written true 0 s ts -> reads s ts.
Proof. exact text_read. Qed.
Print Assumptions C64_text_read.

Example C64_case : written true 0 (codes "x >> 12") shift_tokens.
Proof. exact shift_written. Qed.

(** C65: where symbols fit, the longest one is read. *)
Theorem C65_symbol : forall r ws u w0 v0, pending r = None -> remaining r = ws ++ u -> Forall white ws ->
  is_symbol w0 v0 -> prefix_of w0 u -> ~ comment_start u -> ~ signed_number u ->
  exists w v r', is_symbol w v /\ prefix_of w u /\ (forall w' v', is_symbol w' v' -> prefix_of w' u -> (length w' <= length w)%nat)
    /\ gives r (Token v (position r + length ws) (length w) No_data) r'
    /\ source r' = source r /\ position r' = (position r + length ws + length w)%nat.
Proof. exact longest_symbol. Qed.
Print Assumptions C65_symbol.

Example C65_case : is_symbol (codes ">") (Any [Greater; Right_angle]) /\ prefix_of (codes ">") (codes ">>=1")
  /\ reads (codes ">>=1") [Token (One Right_shift_assign) 0 3 No_data; Token (One Value) 3 1 (Number (Integer I32 1 1))].
Proof. split; [vm_compute; tauto | split; [eexists; reflexivity | exists 20%nat, 10%nat; vm_compute; reflexivity]]. Qed.

(** A word is read whole and is a keyword only when the whole of it is one. *)
Theorem C65_word : forall r ws w rest v, pending r = None -> remaining r = ws ++ w ++ rest -> Forall white ws -> is_a_word w ->
  match rest with [] => True | c :: _ => ~ word_char c end -> word_value w v ->
  gives r (Token v (position r + length ws) (length w) No_data)
    (Reader (source r) (position r + length ws + length w) (Some v) None).
Proof. exact whole_words. Qed.
Print Assumptions C65_word.

Example C65_word_case : word_value (codes "if") (One (Keyword (codes "if"))) /\ word_value (codes "iff") (One Name)
  /\ reads (codes "if iff") [Token (One (Keyword (codes "if"))) 0 2 No_data; Token (One Name) 3 3 No_data].
Proof. split; [apply Word_reserved; vm_compute; tauto | split; [exact iff_name | exists 20%nat, 10%nat; vm_compute; reflexivity]]. Qed.

(** *** C86 *)

(** A string literal is read as one token, and without the error mark exactly if it is closed and
    all its escapes are known. *)
Theorem C86_string_flag : forall r ws body, pending r = None -> remaining r = ws ++ 34 :: body -> Forall white ws ->
  exists n str good,
    gives r (Token (One Value) (position r + length ws) n (String str good))
      (Reader (source r) (position r + length ws + n) (Some (One Value)) None) /\
    (good = true <-> closed_string body).
Proof. exact string_flagged. Qed.
Print Assumptions C86_string_flag.

Example C86_string_case : closed_string (codes "a\n"" x") /\ ~ closed_string (codes "a\q"" x") /\ ~ closed_string (codes "abc").
Proof.
  assert (C : closed_string (codes "a\n"" x")).
  { exists (codes "a\n"), [97; 10], (codes " x"). split; [|reflexivity].
    apply Denotes_plain; try discriminate. apply Denotes_escape; [cbn; tauto | exact I | constructor]. }
  split; [exact C|]. split.
  - change (~ closed_string (97 :: 92 :: 113 :: codes """ x")). rewrite closed_plain by discriminate.
    apply not_closed_escape. exact (escape_listed 113).
  - change (~ closed_string [97; 98; 99]). rewrite !closed_plain by discriminate.
    intros (src & str & rest & _ & E). destruct src; discriminate E.
Qed.

(** A verbatim string without the error mark is closed. *)
Theorem C86_verbatim_flag : forall r ws body, pending r = None -> remaining r = ws ++ 64 :: 34 :: body -> Forall white ws ->
  exists n str good,
    gives r (Token (One Value) (position r + length ws) n (String str good))
      (Reader (source r) (position r + length ws + n) (Some (One Value)) None) /\
    (good = true -> exists str' rest, body = str' ++ 34 :: rest /\ ~ In 34 str' /\ ~ In 0 str').
Proof. exact verbatim_flagged. Qed.
Print Assumptions C86_verbatim_flag.

Example C86_verbatim_case : reads (codes "@""ab") [Token (One Value) 0 4 (String [97; 98] false)].
Proof. exists 20%nat, 10%nat. vm_compute. reflexivity. Qed.

(** A closed character literal is read as one token, and without the error mark exactly if it is
    one character or one known escape. *)
Theorem C86_char_flag : forall r ws src rest, pending r = None -> remaining r = ws ++ 39 :: src ++ 39 :: rest -> Forall white ws ->
  char_body src ->
  exists c good,
    gives r (Token (One Value) (position r + length ws) (S (S (length src))) (Char c good))
      (Reader (source r) (position r + length ws + S (S (length src))) (Some (One Value)) None) /\
    (good = true <-> one_char src).
Proof. exact char_flagged. Qed.
Print Assumptions C86_char_flag.

Example C86_char_case : char_body (codes "ab") /\ ~ one_char (codes "ab") /\ one_char (codes "\t").
Proof.
  split; [apply Char_plain; try discriminate; [intros [X | [X | X]]; discriminate X|];
          apply Char_plain; try discriminate; [intros [X | [X | X]]; discriminate X | constructor]|].
  split.
  - intros [(c & E & _) | (e & c & E & _)]; discriminate E.
  - right. exists 116, 9. split; [reflexivity | cbn; tauto].
Qed.
