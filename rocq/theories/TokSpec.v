(** What tokenising a source text means, independently of the loops of the tokeniser. *)

From Coq Require Import String Ascii ZArith List Bool.
Import ListNotations.
From Verif Require Import CppInt StrModel LitModel LitSpec TokModel.
Open Scope Z_scope.

(** Tokenising a text ends and gives these tokens. *)
Definition reads (s : list Z) (ts : list token) : Prop :=
  exists fuel calls, read_all fuel calls (start_reader s) = Tokens ts.

(** The call of [next] on this reader returns this token and leaves the reader at this position. *)
Definition gives (r : reader) (t : token) (r' : reader) : Prop :=
  exists least, forall fuel, (least <= fuel)%nat -> next fuel r = Next r' t.

(** The text from the position of a reader. *)
Definition remaining (r : reader) : list Z := skipn (position r) (source r).

(** ** Characters *)

Definition white (c : Z) : Prop := c = 32 \/ c = 9 \/ c = 13 \/ c = 10.
Definition line_end (c : Z) : Prop := c = 13 \/ c = 10 \/ c = 0.
Definition name_start (c : Z) : Prop := 65 <= c <= 90 \/ 97 <= c <= 122 \/ c = 95.

(** The text ends or goes on with a whitespace. *)
Definition at_boundary (s : list Z) : Prop := match s with [] => True | c :: _ => white c end.

(** ** Character literals: the text after an opening quote in which the closing one is missing on the line *)

Inductive unclosed : list Z -> Prop :=
| Unclosed_end : unclosed []
| Unclosed_line : forall c s, line_end c -> unclosed (c :: s)
| Unclosed_plain : forall c s, c <> 39 -> c <> 92 -> unclosed s -> unclosed (c :: s)
| Unclosed_escape : forall d s, d <> 0 -> unclosed s -> unclosed (92 :: d :: s).

(** ** String literals: the text between the quotes and the string it denotes *)

(** The escapes of the language: the letter and the character. *)
Definition escapes : list (Z * Z) :=
  [(110, 10); (114, 13); (116, 9); (98, 8); (97, 7); (48, 0); (92, 92); (34, 34); (39, 39); (118, 11); (63, 63); (102, 12)].

(** [denotes ok src str]: only the escapes allowed by [ok] are used. *)
Inductive denotes (ok : Z -> Prop) : list Z -> list Z -> Prop :=
| Denotes_nil : denotes ok [] []
| Denotes_plain : forall c src str, c <> 34 -> c <> 92 -> c <> 0 -> denotes ok src str -> denotes ok (c :: src) (c :: str)
| Denotes_escape : forall e c src str, In (e, c) escapes -> ok e -> denotes ok src str -> denotes ok (92 :: e :: src) (c :: str).

(** The text after an opening quote: a string is closed, with known escapes only. *)
Definition closed_string (s : list Z) : Prop :=
  exists src str rest, denotes (fun _ => True) src str /\ s = src ++ 34 :: rest.

(** ** Character literals: the text between the quotes *)

(** Any number of characters and escapes, known or not, on one line. *)
Inductive char_body : list Z -> Prop :=
| Char_nil : char_body []
| Char_plain : forall c s, c <> 39 -> c <> 92 -> ~ line_end c -> char_body s -> char_body (c :: s)
| Char_escape : forall d s, d <> 0 -> char_body s -> char_body (92 :: d :: s).

(** Exactly one character or known escape. *)
Definition one_char (s : list Z) : Prop :=
  (exists c, s = [c] /\ c <> 39 /\ c <> 92 /\ ~ line_end c) \/
  (exists e c, s = [92; e] /\ In (e, c) escapes).

(** The text of a verbatim string: quotes are doubled. *)
Fixpoint doubled (s : list Z) : list Z :=
  match s with
  | [] => []
  | c :: r => if c =? 34 then 34 :: 34 :: doubled r else c :: doubled r
  end.

(** ** Words *)

Fixpoint codes (s : string) : list Z :=
  match s with EmptyString => [] | String.String a r => Z.of_nat (nat_of_ascii a) :: codes r end.

(** The words that are always keywords. *)
Definition reserved : list string :=
  ["abstract"; "as"; "base"; "bool"; "break"; "byte"; "case"; "catch"; "char"; "checked"; "class"; "const"; "continue"; "decimal";
   "default"; "delegate"; "do"; "double"; "else"; "enum"; "event"; "explicit"; "extern"; "false"; "finally"; "fixed"; "float"; "for";
   "foreach"; "from"; "goto"; "if"; "implicit"; "import"; "in"; "int"; "interface"; "internal"; "is"; "lock"; "long"; "namespace";
   "new"; "null"; "object"; "operator"; "out"; "override"; "params"; "private"; "protected"; "public"; "readonly"; "ref"; "return";
   "sbyte"; "sealed"; "short"; "sizeof"; "stackalloc"; "static"; "string"; "struct"; "switch"; "this"; "throw"; "true"; "try";
   "typedef"; "typeof"; "uint"; "ulong"; "unchecked"; "unsafe"; "ushort"; "using"; "var"; "virtual"; "void"; "volatile"; "while"]%string.

(** The words that are keywords or names, whichever the grammar needs. *)
Definition contextual : list string := ["add"; "get"; "global"; "remove"; "set"; "where"]%string.

(** The value of a word. *)
Inductive word_value (w : list Z) : value -> Prop :=
| Word_reserved : In w (map codes reserved) -> word_value w (One (Keyword w))
| Word_contextual : In w (map codes contextual) -> word_value w (Any [Keyword w; Name])
| Word_name : ~ In w (map codes reserved) -> ~ In w (map codes contextual) -> word_value w (One Name).

(** A whole word. *)
Definition is_a_word (w : list Z) : Prop :=
  match w with [] => False | c :: r => name_start c /\ Forall word_char r end.

(** ** Symbols *)

Definition symbols : list (string * value) :=
  [("(", One Left_bracket); (")", One Right_bracket); ("[", One Left_square); ("]", One Right_square); ("{", One Left_brace);
   ("}", One Right_brace); (".", One Member_point); ("...", One Three_dots); (";", One Semicolon); (",", One Comma_mark);
   ("?", One Question_mark); ("??", One Null_coalescing); ("??=", One Null_coalescing_assign);
   (":", Any [Question_colon; Base_mark]); ("::", One Double_colon); ("$", One Dollar);
   ("<", Any [Less; Left_angle]); ("<=", One Less_equal); ("<<", One Left_shift); ("<<=", One Left_shift_assign);
   (">", Any [Greater; Right_angle]); (">=", One Greater_equal); (">>", Any [Right_shift; Right_angle]);
   (">>=", One Right_shift_assign);
   ("+", Any [Add; Positive]); ("++", Any [Left_increment; Right_increment]); ("+=", One Add_assign);
   ("-", Any [Sub; Minus]); ("--", Any [Left_decrement; Right_decrement]); ("-=", One Sub_assign);
   ("*", One Mul); ("*=", One Mul_assign); ("/", One Div); ("/=", One Div_assign); ("%", One Mod); ("%=", One Mod_assign);
   ("&", One Bit_and); ("&&", One Logic_and); ("&=", One Bit_and_assign);
   ("|", One Bit_or); ("||", One Logic_or); ("|=", One Bit_or_assign);
   ("~", One Bit_not); ("^", One Bit_xor); ("^=", One Bit_xor_assign); ("!", One Logic_not); ("!=", One Not_equal);
   ("=", One Assign); ("==", One Equal)]%string.

Definition is_symbol (w : list Z) (v : value) : Prop := In (w, v) (map (fun p => (codes (fst p), snd p)) symbols).

Definition prefix_of (w s : list Z) : Prop := exists rest, s = w ++ rest.

(** A text that starts a comment. *)
Definition comment_start (s : list Z) : Prop := prefix_of [47; 47] s \/ prefix_of [47; 42] s.

(** A sign followed by a digit or a point. *)
Definition signed_number (s : list Z) : Prop :=
  exists c d r, s = c :: d :: r /\ (c = 43 \/ c = 45) /\ (48 <= d <= 57 \/ d = 46).

(** ** Lexemes: a text, the value of its token and its data *)

Inductive lexeme : list Z -> value -> datum -> Prop :=
| Lex_word : forall w v, is_a_word w -> word_value w v -> lexeme w v No_data
| Lex_symbol : forall w v, is_symbol w v -> lexeme w v No_data
| Lex_integer : forall f op ds s u l suf t, opening f op -> proper f ds -> spelled (base f) ds s -> suffix u l suf ->
    first_fit (LitSpec.value (base f) ds) (ladder f u l) t ->
    lexeme (op ++ s ++ suf) (One Value) (Number (Integer t (LitSpec.value (base f) ds) (length (op ++ s ++ suf))))
| Lex_string : forall src str, denotes (fun e => e <> 48 /\ e <> 102) src str ->
    lexeme (34 :: src ++ [34]) (One Value) (String str true)
| Lex_char : forall c, c <> 39 -> c <> 92 -> ~ line_end c -> lexeme [39; c; 39] (One Value) (Char c true)
| Lex_line_comment : forall s, Forall (fun c => ~ line_end c) s -> lexeme (47 :: 47 :: s) (One Comment) No_data
| Lex_block_comment : forall s, ~ In 0 s -> (forall a b, s ++ [42; 47] = a ++ 42 :: 47 :: b -> b = []) ->
    lexeme (47 :: 42 :: s ++ [42; 47]) (One Comment) No_data
| Lex_char_escape : forall e c, In (e, c) escapes -> e <> 102 -> lexeme [39; 92; e; 39] (One Value) (Char c true)
| Lex_at_name : forall w, is_a_word w -> lexeme (64 :: w) (One Name) No_data.

(** The tokens of a lexeme at a position: for [>>] a second one follows, see cs_token_reader.cpp 304-309. *)
Definition lexeme_tokens (p : nat) (w : list Z) (v : value) (d : datum) : list token :=
  Token v p (length w) d
  :: match v with
     | Any (Right_shift :: _) => [Token (Any [Empty; Right_angle]) p (length w) No_data]
     | _ => []
     end.

(** A text written as lexemes, each one after whitespace, and its tokens; [p] is the position where it starts. Whitespace may be
    missing before the first lexeme only. *)
Inductive written : bool -> nat -> list Z -> list token -> Prop :=
| Written_end : forall first p ws, Forall white ws -> written first p ws []
| Written_lexeme : forall (first : bool) p ws w v d s ts,
    Forall white ws -> (first = false -> ws <> []) -> lexeme w v d ->
    (forall a, w = 47 :: 47 :: a -> match s with [] => True | c :: _ => line_end c end) ->
    written false (p + length ws + length w) s ts ->
    written first p (ws ++ w ++ s) (lexeme_tokens (p + length ws) w v d ++ ts).

(** ** Where the tokens are *)

Definition blank (s : list Z) (p q : nat) : Prop := forall k, (p <= k < q)%nat -> white (nth k s 0).

(** Between the tokens there is only whitespace, and after the last one too, up to the end of the text or a zero character.
    A comment that is not closed counts one character beyond the text. *)
Inductive spans (s : list Z) : nat -> list token -> Prop :=
| Spans_end : forall p q, (p <= q)%nat -> blank s p q -> (length s <= q)%nat \/ nth q s 0 = 0 -> spans s p []
| Spans_token : forall p t ts,
    (p <= token_start t)%nat -> blank s p (token_start t) -> (token_start t < length s)%nat ->
    ~ white (nth (token_start t) s 0) -> nth (token_start t) s 0 <> 0 -> (1 <= token_length t)%nat ->
    ((token_start t + token_length t <= length s)%nat
     \/ (token_value t = One Comment /\ token_data t = Bad /\ (token_start t + token_length t = S (length s))%nat)) ->
    spans s (token_start t + token_length t) ts -> spans s p (t :: ts)
| Spans_twin : forall p t u ts,
    token_value t = Any [Right_shift; Right_angle] -> token_value u = Any [Empty; Right_angle] ->
    token_start u = token_start t -> token_length u = token_length t -> prefix_of [62; 62] (skipn (token_start t) s) ->
    spans s p (t :: ts) -> spans s p (t :: u :: ts).

(** The text of a token. *)
Definition token_text (s : list Z) (t : token) : list Z := firstn (token_length t) (skipn (token_start t) s).

(** A token that ends an operand: a name or a literal. *)
Definition operand (t : token) : Prop := token_value t = One Name \/ token_value t = One Value.

(** Calls of [next] that give these tokens, from one reader to another. *)
Inductive after : reader -> list token -> reader -> Prop :=
| After_none : forall r, after r [] r
| After_more : forall r t r' ts r'', gives r t r' -> after r' ts r'' -> after r (t :: ts) r''.

(** The next token is a character literal whose closing quote is missing on its line. *)
Definition stuck (r : reader) : Prop :=
  exists ws u, pending r = None /\ remaining r = ws ++ 39 :: u /\ Forall white ws /\ unclosed u.

(** The tokens a minus and a plus sign may start when they are not the sign of a literal. *)
Definition minus_values (v : value) : Prop :=
  v = Any [Sub; Minus] \/ v = Any [Left_decrement; Right_decrement] \/ v = One Sub_assign.
Definition plus_values (v : value) : Prop :=
  v = Any [Add; Positive] \/ v = Any [Left_increment; Right_increment] \/ v = One Add_assign.
