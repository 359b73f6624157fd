(** Model of the tokeniser: modules/compile/token_reader.cpp and modules/lang_cs/cs_token_reader.cpp.

    Every loop of the code is a step function that is repeated a number of times ([repeat_step]); a loop that does not end within
    the given number of steps has no result.  Characters are integers, see StrModel.v.

    The source text is the list of the characters up to its length; reading at the end gives zero (__string.h 463-466).
    The comparison with keywords reads the raw buffer (__token_reader.h 71-75), which is assumed to be zero-terminated. *)

From Coq Require Import ZArith List Bool.
Import ListNotations.
From Verif Require Import CppInt StrModel LitModel.
Open Scope Z_scope.

(** ** Tokens *)

(** [cs_token_value_t], modules/lang_cs/__cs_token_type.h 10-120.  The value [k_x] of a keyword is represented by its
    spelling. *)
Inductive kind :=
| Keyword (w : text) | Name | Value | Comment
| Empty                                                             (* empty *)
| Add | Sub | Mul | Div | Mod                                       (* + - * / % *)
| Add_assign | Sub_assign | Mul_assign | Div_assign | Mod_assign
| Left_increment | Left_decrement | Right_increment | Right_decrement
| Minus | Positive
| Left_shift | Right_shift | Left_shift_assign | Right_shift_assign
| Bit_and | Bit_or | Bit_not | Bit_xor
| Bit_and_assign | Bit_or_assign | Bit_xor_assign
| Assign | Null_coalescing | Null_coalescing_assign
| Greater | Greater_equal | Less | Less_equal | Equal | Not_equal
| Logic_and | Logic_or | Logic_not
| Member_point | Question_mark | Question_colon | Comma_mark | Double_colon
| Left_bracket | Right_bracket | Left_square | Right_square | Left_angle | Right_angle | Left_brace | Right_brace
| Semicolon | Base_mark | Dollar | Three_dots.

(** [token_t::value] and [token_data_t::possible_values]: one value ([__Nw]), several possible ones ([__Nws], whose value is
    [__unknown__]) or [__default__], for unknown text (cs_token_reader.cpp 19-27, 516). *)
Inductive value := One (k : kind) | Any (ks : list kind) | No_value.

(** The data of a token and whether its error is set, token_reader.cpp 48-104.  A string is handed over as a zero-terminated
    string. *)
Inductive datum :=
| No_data
| Number (l : literal)
| String (s : text) (good : bool)
| Char (c : char) (good : bool)
| Bad.

(** [token_t]: where its text starts, its length and its data. *)
Record token := Token { token_value : value; token_start : nat; token_length : nat; token_data : datum }.

(** ** Loops *)

Fixpoint repeat_step {A B : Type} (step : A -> A + B) (n : nat) (a : A) : option B :=
  match n with
  | O => None
  | S m => match step a with inl b => repeat_step step m b | inr r => Some r end
  end.

(** The state of a loop is the number of characters read and the text from the current position. *)
Definition spot := (nat * text)%type.
Definition advance (p : spot) : spot := match p with (n, s) => (S n, tl s) end.
Definition at_spot (p : spot) : char := front (snd p).

(** [__skip_whitespace], token_reader.cpp 37-49. *)
Definition whitespace_step (p : spot) : spot + (spot * bool) :=
  let c := at_spot p in
  if c =? 0 then inr (p, false)
  else if is_whitespace c then inl (advance p)
  else inr (p, true).

(** [is_lineend], __string.h 164-167, string.cpp 13-23. *)
Definition is_lineend (c : char) : bool := within c && ((c =? 13) || (c =? 10) || (c =? 0)).

(** [__read_line_comment], token_reader.cpp 116-127. *)
Definition line_comment_step (p : spot) : spot + (spot * datum) :=
  let c := at_spot p in
  if c =? 0 then inr (p, No_data)
  else if is_lineend c then inr (p, No_data)
  else inl (advance p).

(** [__read_multiline_comment], token_reader.cpp 130-143. *)
Definition block_comment_step (p : spot) : spot + (spot * datum) :=
  let c := at_spot p in
  let q := advance p in
  if c =? 0 then inr (q, Bad)
  else if (c =? 42) && (at_spot q =? 47) then inr (advance q, No_data)
  else inl q.

(** [__read_name], token_reader.cpp 174-182. *)
Definition name_step (p : spot) : spot + (spot * datum) :=
  if is_word (at_spot p) then inl (advance p) else inr (p, No_data).

(** [__read_unknown], token_reader.cpp 185-201. *)
Definition unknown_step (first : char) (p : spot) : spot + (spot * datum) :=
  let c := at_spot p in
  if c =? 0 then inr (p, Bad)
  else if negb (c =? first) && negb (is_word c) then inr (p, Bad)
  else inl (advance p).

(** [__try_escape_char], token_reader.cpp 204-262. *)
Definition escape_char (c : char) : option char :=
  if c =? 110 then Some 10            (* n *)
  else if c =? 114 then Some 13       (* r *)
  else if c =? 116 then Some 9        (* t *)
  else if c =? 98 then Some 8         (* b *)
  else if c =? 97 then Some 7         (* a *)
  else if c =? 48 then Some 0         (* 0 *)
  else if c =? 92 then Some 92        (* \ *)
  else if c =? 34 then Some 34        (* double quote *)
  else if c =? 39 then Some 39        (* ' *)
  else if c =? 118 then Some 11       (* v *)
  else if c =? 63 then Some 63        (* ? *)
  else if c =? 102 then Some 102      (* f *)
  else None.

(** [__new_string], token_reader.cpp 107-112: the string is copied up to its first zero. *)
Fixpoint until_zero (s : text) : text :=
  match s with
  | [] => []
  | c :: r => if c =? 0 then [] else c :: until_zero r
  end.

(** [__read_string], token_reader.cpp 265-314: the characters read so far, last first, and whether there was no error. *)
Definition string_end (p : spot) (acc : text) (good : bool) : spot * datum := (p, String (until_zero (rev acc)) good).

Definition string_step (st : spot * text * bool) : (spot * text * bool) + (spot * datum) :=
  match st with
  | (p, acc, good) =>
    let c := at_spot p in
    if c =? 92 then
      let q := advance p in
      let d := at_spot q in
      if d =? 0 then inr (string_end q acc false)
      else match escape_char d with
           | Some e => inl (advance q, e :: acc, good)
           | None => inl (advance q, acc, false)
           end
    else if c =? 34 then inr (string_end (advance p) acc good)
    else if c =? 0 then inr (string_end p acc false)
    else inl (advance p, c :: acc, good)
  end.

(** [__read_multiline_string], token_reader.cpp 317-352: after a doubled quote the case falls through. *)
Definition verbatim_step (st : spot * text * bool) : (spot * text * bool) + (spot * datum) :=
  match st with
  | (p, acc, good) =>
    let c := at_spot p in
    if c =? 34 then
      let q := advance p in
      if at_spot q =? 34 then inr (string_end (advance q) (34 :: acc) false)
      else inr (string_end q acc good)
    else if c =? 0 then inr (string_end p acc false)
    else inl (advance p, c :: acc, good)
  end.

(** [__read_char], token_reader.cpp 355-416: the character, the number of characters and whether there was no error.
    The line ends and the end of the text leave the [switch], not the loop. *)
Definition char_end (p : spot) (c : char) (count : nat) (good : bool) : spot * datum :=
  (p, Char c (good && Nat.eqb count 1)).

Definition char_step (st : spot * char * nat * bool) : (spot * char * nat * bool) + (spot * datum) :=
  match st with
  | (p, ret, count, good) =>
    let c := at_spot p in
    if c =? 39 then inr (char_end (advance p) ret count good)
    else if c =? 92 then
      let q := advance p in
      let d := at_spot q in
      if d =? 0 then inr (char_end q ret count false)
      else match escape_char d with
           | Some e => inl (advance q, e, S count, good)
           | None => inl (advance q, ret, S count, false)
           end
    else if (c =? 13) || (c =? 10) || (c =? 0) then inl (p, ret, count, false)
    else inl (advance p, c, S count, good)
  end.

(** [__read_number], token_reader.cpp 146-171, with [try_parse_numeric], numeric.cpp 739-757: the parser moves the position
    whether it fails or not. [None] when the character before the buffer is read. *)
Definition number_end (before : option char) (s : text) : option nat :=
  match read_prefix no_props 0 s with
  | (p, start, rest) =>
    let prev := match start with O => before | S k => Some (nth k s 0) end in
    match continue_read p None prev start rest with
    | None => None
    | Some (_, _, pos) => Some pos
    end
  end.

(** ** The tokens of the language *)

(** The characters that start a name or a number, modules/lang_cs/utils.h 41-56, utils.cpp 11-21. *)
Definition is_name_prefix (c : char) : bool :=
  within c && (((97 <=? c) && (c <=? 122)) || ((65 <=? c) && (c <=? 90)) || (c =? 95)).
Definition is_numeric_prefix (c : char) : bool := within c && (((48 <=? c) && (c <=? 57)) || (c =? 46)).

(** The keywords, cs_token_reader.cpp 70-209, in the order of the comparisons; those that are possibly names are marked.
    The [switch] over the first letter selects those that start with it. *)
Definition keywords : list (text * bool) := [
  ([97; 98; 115; 116; 114; 97; 99; 116], false);  (* abstract *)
  ([97; 115], false);  (* as *)
  ([97; 100; 100], true);  (* add *)
  ([98; 97; 115; 101], false);  (* base *)
  ([98; 114; 101; 97; 107], false);  (* break *)
  ([98; 121; 116; 101], false);  (* byte *)
  ([98; 111; 111; 108], false);  (* bool *)
  ([99; 97; 115; 101], false);  (* case *)
  ([99; 97; 116; 99; 104], false);  (* catch *)
  ([99; 104; 97; 114], false);  (* char *)
  ([99; 104; 101; 99; 107; 101; 100], false);  (* checked *)
  ([99; 108; 97; 115; 115], false);  (* class *)
  ([99; 111; 110; 115; 116], false);  (* const *)
  ([99; 111; 110; 116; 105; 110; 117; 101], false);  (* continue *)
  ([100; 101; 99; 105; 109; 97; 108], false);  (* decimal *)
  ([100; 101; 102; 97; 117; 108; 116], false);  (* default *)
  ([100; 101; 108; 101; 103; 97; 116; 101], false);  (* delegate *)
  ([100; 111], false);  (* do *)
  ([100; 111; 117; 98; 108; 101], false);  (* double *)
  ([101; 108; 115; 101], false);  (* else *)
  ([101; 110; 117; 109], false);  (* enum *)
  ([101; 118; 101; 110; 116], false);  (* event *)
  ([101; 120; 112; 108; 105; 99; 105; 116], false);  (* explicit *)
  ([101; 120; 116; 101; 114; 110], false);  (* extern *)
  ([102; 97; 108; 115; 101], false);  (* false *)
  ([102; 105; 110; 97; 108; 108; 121], false);  (* finally *)
  ([102; 105; 120; 101; 100], false);  (* fixed *)
  ([102; 108; 111; 97; 116], false);  (* float *)
  ([102; 111; 114], false);  (* for *)
  ([102; 111; 114; 101; 97; 99; 104], false);  (* foreach *)
  ([102; 114; 111; 109], false);  (* from *)
  ([103; 111; 116; 111], false);  (* goto *)
  ([103; 101; 116], true);  (* get *)
  ([103; 108; 111; 98; 97; 108], true);  (* global *)
  ([105; 102], false);  (* if *)
  ([105; 109; 112; 108; 105; 99; 105; 116], false);  (* implicit *)
  ([105; 110], false);  (* in *)
  ([105; 110; 116], false);  (* int *)
  ([105; 110; 116; 101; 114; 102; 97; 99; 101], false);  (* interface *)
  ([105; 110; 116; 101; 114; 110; 97; 108], false);  (* internal *)
  ([105; 115], false);  (* is *)
  ([105; 109; 112; 111; 114; 116], false);  (* import *)
  ([108; 111; 99; 107], false);  (* lock *)
  ([108; 111; 110; 103], false);  (* long *)
  ([110; 97; 109; 101; 115; 112; 97; 99; 101], false);  (* namespace *)
  ([110; 101; 119], false);  (* new *)
  ([110; 117; 108; 108], false);  (* null *)
  ([111; 98; 106; 101; 99; 116], false);  (* object *)
  ([111; 112; 101; 114; 97; 116; 111; 114], false);  (* operator *)
  ([111; 117; 116], false);  (* out *)
  ([111; 118; 101; 114; 114; 105; 100; 101], false);  (* override *)
  ([112; 97; 114; 97; 109; 115], false);  (* params *)
  ([112; 114; 105; 118; 97; 116; 101], false);  (* private *)
  ([112; 114; 111; 116; 101; 99; 116; 101; 100], false);  (* protected *)
  ([112; 117; 98; 108; 105; 99], false);  (* public *)
  ([114; 101; 97; 100; 111; 110; 108; 121], false);  (* readonly *)
  ([114; 101; 102], false);  (* ref *)
  ([114; 101; 116; 117; 114; 110], false);  (* return *)
  ([114; 101; 109; 111; 118; 101], true);  (* remove *)
  ([115; 98; 121; 116; 101], false);  (* sbyte *)
  ([115; 101; 97; 108; 101; 100], false);  (* sealed *)
  ([115; 104; 111; 114; 116], false);  (* short *)
  ([115; 105; 122; 101; 111; 102], false);  (* sizeof *)
  ([115; 116; 97; 99; 107; 97; 108; 108; 111; 99], false);  (* stackalloc *)
  ([115; 116; 97; 116; 105; 99], false);  (* static *)
  ([115; 116; 114; 105; 110; 103], false);  (* string *)
  ([115; 116; 114; 117; 99; 116], false);  (* struct *)
  ([115; 119; 105; 116; 99; 104], false);  (* switch *)
  ([115; 101; 116], true);  (* set *)
  ([116; 104; 105; 115], false);  (* this *)
  ([116; 104; 114; 111; 119], false);  (* throw *)
  ([116; 114; 117; 101], false);  (* true *)
  ([116; 114; 121], false);  (* try *)
  ([116; 121; 112; 101; 111; 102], false);  (* typeof *)
  ([116; 121; 112; 101; 100; 101; 102], false);  (* typedef *)
  ([117; 105; 110; 116], false);  (* uint *)
  ([117; 108; 111; 110; 103], false);  (* ulong *)
  ([117; 110; 99; 104; 101; 99; 107; 101; 100], false);  (* unchecked *)
  ([117; 110; 115; 97; 102; 101], false);  (* unsafe *)
  ([117; 115; 104; 111; 114; 116], false);  (* ushort *)
  ([117; 115; 105; 110; 103], false);  (* using *)
  ([118; 105; 114; 116; 117; 97; 108], false);  (* virtual *)
  ([118; 111; 105; 100], false);  (* void *)
  ([118; 111; 108; 97; 116; 105; 108; 101], false);  (* volatile *)
  ([118; 97; 114], false);  (* var *)
  ([119; 104; 105; 108; 101], false);  (* while *)
  ([119; 104; 101; 114; 101], true)  (* where *)
].

(** [__equals_keyword], __token_reader.h 71-75; [s] starts with the first letter of the word. *)
Definition equals_keyword (s w : text) : bool := starts_with s w && negb (is_word (nth (length w) s 0)).

(** [__Eqk] and [__Eqks], cs_token_reader.cpp 29-49. *)
Fixpoint find_keyword (s : text) (ws : list (text * bool)) : option (text * bool) :=
  match ws with
  | [] => None
  | (w, b) :: r => if equals_keyword s w then Some (w, b) else find_keyword s r
  end.

(** The symbols, cs_token_reader.cpp 211-503, by their first character; [s] is the text after it. The number of characters
    after the first one and the value. The cases of signs before numbers, comments, strings and characters are in [read_token]. *)
Definition symbol (c : char) (s : text) : option (nat * value) :=
  let d := nth 0 s 0 in
  let e := nth 1 s 0 in
  if c =? 40 then Some (0%nat, One Left_bracket)                                             (* opening bracket *)
  else if c =? 41 then Some (0%nat, One Right_bracket)                                       (* closing bracket *)
  else if c =? 91 then Some (0%nat, One Left_square)
  else if c =? 93 then Some (0%nat, One Right_square)
  else if c =? 123 then Some (0%nat, One Left_brace)
  else if c =? 125 then Some (0%nat, One Right_brace)
  else if c =? 46 then                                                                       (* . *)
    if (d =? 46) && (e =? 46) then Some (2%nat, One Three_dots) else Some (0%nat, One Member_point)
  else if c =? 59 then Some (0%nat, One Semicolon)
  else if c =? 44 then Some (0%nat, One Comma_mark)
  else if c =? 63 then                                                                       (* ? *)
    if d =? 63 then if e =? 61 then Some (2%nat, One Null_coalescing_assign) else Some (1%nat, One Null_coalescing)
    else Some (0%nat, One Question_mark)
  else if c =? 58 then                                                                       (* : *)
    if d =? 58 then Some (1%nat, One Double_colon) else Some (0%nat, Any [Question_colon; Base_mark])
  else if c =? 36 then Some (0%nat, One Dollar)
  else if c =? 60 then                                                                       (* < *)
    if d =? 60 then if e =? 61 then Some (2%nat, One Left_shift_assign) else Some (1%nat, One Left_shift)
    else if d =? 61 then Some (1%nat, One Less_equal)
    else Some (0%nat, Any [Less; Left_angle])
  else if c =? 62 then                                                                       (* > *)
    if d =? 62 then if e =? 61 then Some (2%nat, One Right_shift_assign) else Some (1%nat, Any [Right_shift; Right_angle])
    else if d =? 61 then Some (1%nat, One Greater_equal)
    else Some (0%nat, Any [Greater; Right_angle])
  else if c =? 43 then                                                                       (* + *)
    if d =? 43 then Some (1%nat, Any [Left_increment; Right_increment])
    else if d =? 61 then Some (1%nat, One Add_assign)
    else Some (0%nat, Any [Add; Positive])
  else if c =? 45 then                                                                       (* - *)
    if d =? 45 then Some (1%nat, Any [Left_decrement; Right_decrement])
    else if d =? 61 then Some (1%nat, One Sub_assign)
    else Some (0%nat, Any [Sub; Minus])
  else if c =? 42 then if d =? 61 then Some (1%nat, One Mul_assign) else Some (0%nat, One Mul)
  else if c =? 47 then if d =? 61 then Some (1%nat, One Div_assign) else Some (0%nat, One Div)
  else if c =? 37 then if d =? 61 then Some (1%nat, One Mod_assign) else Some (0%nat, One Mod)
  else if c =? 38 then                                                                       (* & *)
    if d =? 38 then Some (1%nat, One Logic_and)
    else if d =? 61 then Some (1%nat, One Bit_and_assign)
    else Some (0%nat, One Bit_and)
  else if c =? 124 then                                                                      (* | *)
    if d =? 124 then Some (1%nat, One Logic_or)
    else if d =? 61 then Some (1%nat, One Bit_or_assign)
    else Some (0%nat, One Bit_or)
  else if c =? 126 then Some (0%nat, One Bit_not)
  else if c =? 94 then if d =? 61 then Some (1%nat, One Bit_xor_assign) else Some (0%nat, One Bit_xor)
  else if c =? 33 then if d =? 61 then Some (1%nat, One Not_equal) else Some (0%nat, One Logic_not)
  else if c =? 61 then if d =? 61 then Some (1%nat, One Equal) else Some (0%nat, One Assign)
  else None.

(** [__last_value() != name && ... != cvalue], cs_token_reader.cpp 330-331, 352-353; [None] before the first token. *)
Definition sign_allowed (last : option value) : bool :=
  match last with
  | Some (One Name) | Some (One Value) => false
  | _ => true
  end.

(** What one call reads: the value, the number of characters and the data. *)
Inductive reading := Read (v : value) (n : nat) (d : datum) | Loops | Outside.

Definition read_loop (v : value) (o : option (spot * datum)) : reading :=
  match o with Some ((n, _), d) => Read v n d | None => Loops end.

Definition read_number (before : option char) (s : text) : reading :=
  match number_end before s with
  | Some n => Read (One Value) n (Number (parse_numeric before s))
  | None => Outside
  end.

(** [next], cs_token_reader.cpp 54-517, for a text [c :: s] that starts with neither a whitespace nor a zero; [before] is the
    character before it. *)
Definition read_token (fuel : nat) (before : option char) (last : option value) (c : char) (s : text) : reading :=
  match find_keyword (c :: s) keywords with
  | Some (w, false) => Read (One (Keyword w)) (length w) No_data
  | Some (w, true) => Read (Any [Keyword w; Name]) (length w) No_data
  | None =>
    let d := nth 0 s 0 in
    if ((c =? 43) || (c =? 45)) && is_numeric_prefix d && sign_allowed last then read_number before (c :: s)
    else if (c =? 47) && (d =? 47) then read_loop (One Comment) (repeat_step line_comment_step fuel (2%nat, tl s))
    else if (c =? 47) && (d =? 42) then read_loop (One Comment) (repeat_step block_comment_step fuel (2%nat, tl s))
    else match symbol c s with
    | Some (n, v) => Read v (S n) No_data
    | None =>
      if c =? 34 then read_loop (One Value) (repeat_step string_step fuel ((1%nat, s), [], true))
      else if (c =? 64) && (d =? 34) then
        read_loop (One Value) (repeat_step verbatim_step fuel ((2%nat, tl s), [], true))
      else if (c =? 64) && is_name_prefix d then
        read_loop (One Name) (repeat_step name_step fuel (1%nat, s))
      else if c =? 39 then read_loop (One Value) (repeat_step char_step fuel ((1%nat, s), 0, 0%nat, true))
      else if is_numeric_prefix c then read_number before (c :: s)
      else if is_name_prefix c then read_loop (One Name) (repeat_step name_step fuel (1%nat, s))
      else read_loop No_value (repeat_step (unknown_step c) fuel (1%nat, s))
    end
  end.

(** The enumerator: the text, the position, the value of the last token and [__next_token]. *)
Record reader := Reader { source : text; position : nat; last_value : option value; pending : option token }.

Definition start_reader (s : text) : reader := Reader s 0 None None.

(** A call of [next]. *)
Inductive outcome := End_of_text | Next (r : reader) (t : token) | Endless | Out_of_buffer.

(** [next], cs_token_reader.cpp 54-64 and the results of [read_token].  The tokens are kept in a heap whose last element
    gives the last value (token_reader.cpp 23-34), so after [>>] it is that of the second token. *)
Definition next (fuel : nat) (r : reader) : outcome :=
  match pending r with
  | Some t => Next (Reader (source r) (position r) (last_value r) None) t
  | None =>
    let s := skipn (position r) (source r) in
    match repeat_step whitespace_step fuel (0%nat, s) with
    | None => Endless
    | Some (_, false) => End_of_text
    | Some ((n, u), true) =>
      let p0 := (position r + n)%nat in
      match u with
      | [] => End_of_text
      | c :: u' =>
        let before := match p0 with O => None | S k => Some (nth k (source r) 0) end in
        match read_token fuel before (last_value r) c u' with
        | Loops => Endless
        | Outside => Out_of_buffer
        | Read v k d =>
          let second := match v with
                        | Any (Right_shift :: _) => Some (Token (Any [Empty; Right_angle]) p0 k No_data)
                        | _ => None
                        end in
          let lastv := match second with Some t => token_value t | None => v end in
          Next (Reader (source r) (p0 + k) (Some lastv) second) (Token v p0 k d)
        end
      end
    end
  end.

(** All tokens of a text: [next] is called until it returns null, analyze_tree.cpp 3996-4003.  [fuel] bounds the steps
    of each loop and the number of calls. *)
Inductive tokens := Tokens (ts : list token) | Not_finished | Out_of_bounds.

Fixpoint read_all (fuel calls : nat) (r : reader) : tokens :=
  match calls with
  | O => Not_finished
  | S n =>
    match next fuel r with
    | End_of_text => Tokens []
    | Next r' t => match read_all fuel n r' with Tokens ts => Tokens (t :: ts) | o => o end
    | Endless => Not_finished
    | Out_of_buffer => Out_of_bounds
    end
  end.
