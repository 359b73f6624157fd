(** Model of the parser of numeric literals, algorithm/numeric.cpp.

    Literals of floating point type are recognised but their value is left to the floating point parser
    (numeric.cpp 138-246), which is not modelled.  Characters are integers, see StrModel.v. *)

From Coq Require Import ZArith List Bool.
Import ListNotations.
From Verif Require Import CppInt StrModel.
Open Scope Z_scope.

(** ** The properties of the literal collected while reading, numeric.cpp 360-372, 394-408 *)

Inductive float_kind := Double | Float.

Record props := Props {
  unsigned : option bool;          (* __ts: unknown, signed, unsigned *)
  negative : option bool;          (* __tp *)
  long : bool;                     (* __tl: unknown or default, long *)
  floating : option float_kind;    (* __tf *)
  radix : Z;                       (* __radix, 0 when unknown *)
  exponent : bool;                 (* __e is not null *)
  point : bool;                    (* __point is not null *)
  error : bool                     (* __error is format_error *)
}.

(** numeric.cpp 394-406. *)
Definition no_props : props := Props None None false None 0 false false false.

(** [__set_error], numeric.cpp 717-721: only format errors are set. *)
Definition set_error (p : props) : props :=
  Props (unsigned p) (negative p) (long p) (floating p) (radix p) (exponent p) (point p) true.

(** [__set_radix], numeric.cpp 655-661. *)
Definition set_radix (r : Z) (p : props) : props :=
  if 0 <? radix p then set_error p
  else Props (unsigned p) (negative p) (long p) (floating p) r (exponent p) (point p) (error p).

(** [__set_point], numeric.cpp 664-670. *)
Definition set_point (p : props) : props :=
  if point p then set_error p
  else Props (unsigned p) (negative p) (long p) (floating p) (radix p) (exponent p) true (error p).

(** [__set_sign], numeric.cpp 673-679; called with [ts_unsigned] only. *)
Definition set_unsigned (p : props) : props :=
  match unsigned p, floating p with
  | None, None => Props (Some true) (negative p) (long p) (floating p) (radix p) (exponent p) (point p) (error p)
  | _, _ => set_error p
  end.

(** [__set_positive], numeric.cpp 682-688. *)
Definition set_negative (b : bool) (p : props) : props :=
  match negative p with
  | None => Props (unsigned p) (Some b) (long p) (floating p) (radix p) (exponent p) (point p) (error p)
  | Some _ => set_error p
  end.

(** [__set_long], numeric.cpp 691-697. *)
Definition set_long (p : props) : props :=
  if long p then set_error p
  else Props (unsigned p) (negative p) true (floating p) (radix p) (exponent p) (point p) (error p).

(** [__set_float], numeric.cpp 700-706; called with [tf_float] only. *)
Definition set_float (p : props) : props :=
  match floating p, unsigned p with
  | None, None => Props (unsigned p) (negative p) (long p) (Some Float) (radix p) (exponent p) (point p) (error p)
  | _, _ => set_error p
  end.

(** [__set_e], numeric.cpp 709-715. *)
Definition set_e (p : props) : props :=
  if exponent p then set_error p
  else Props (unsigned p) (negative p) (long p) (floating p) (radix p) true (point p) (error p).

(** ** Reading *)

(** [*__p]: the character at the front, zero at the end of the text (__string.h 463-466). *)
Definition front (s : text) : char := hd 0 s.

(** [__do_read_prefix], numeric.cpp 421-464: the position where the digits start and the text from there. *)
Fixpoint read_prefix (p : props) (pos : nat) (s : text) : props * nat * text :=
  match s with
  | [] => (set_error p, pos, s)
  | c :: r =>
    if c =? 45 then read_prefix (set_negative true p) (S pos) r                 (* - *)
    else if c =? 43 then read_prefix (set_negative false p) (S pos) r           (* + *)
    else if c =? 48 then                                                        (* 0 *)
      let d := front r in
      if (d =? 88) || (d =? 120) then (set_radix 16 p, S (S pos), tl r)         (* X x *)
      else if (d =? 66) || (d =? 98) then (set_radix 2 p, S (S pos), tl r)      (* B b *)
      else if d =? 46 then (p, pos, s)                                          (* . *)
      else if d =? 48 then read_prefix p (S pos) r                              (* 0 *)
      else (set_radix 8 p, S pos, r)
    else if c =? 0 then (set_error p, pos, s)
    else (p, pos, s)
  end.

(** Where the digits end: the position and the character before it. *)
Definition ending := (nat * option char)%type.

(** [p_end]: set once. *)
Definition set_end (e : option ending) (pos : nat) (prev : option char) : option ending :=
  match e with None => Some (pos, prev) | Some _ => e end.

(** The end of the loop, numeric.cpp 562-573: the properties, the end of the digits and the position of the scanner;
    [None] when the character before the start of the buffer is read. *)
Definition stop (p : props) (e : option ending) (prev : option char) (pos : nat) : option (props * nat * nat) :=
  match set_end e pos prev with
  | Some (pe, Some c) => Some (if c =? 39 then set_error p else p, pe, pos)
  | _ => None
  end.

(** The word characters that belong to no other case, numeric.cpp 575-578. *)
Definition word (p : props) (e : option ending) : props :=
  match e with Some _ => set_error p | None => p end.

(** [__do_continue_read], numeric.cpp 493-584.  [prev] is the character before the current position, [None] at the start of
    the buffer. *)
Fixpoint continue_read (p : props) (e : option ending) (prev : option char) (pos : nat) (s : text)
  : option (props * nat * nat) :=
  match s with
  | [] => stop p e prev pos
  | c :: r =>
    if c =? 46 then continue_read (set_point p) e (Some c) (S pos) r                              (* . *)
    else if ((c =? 69) || (c =? 101)) && (radix p =? 10) then                                     (* E e *)
      let p1 := set_e p in
      match r with
      | d :: r1 =>
        if (d =? 43) || (d =? 45) then
          match r1 with
          | f :: r2 => if is_digit f then continue_read p1 e (Some f) (S (S (S pos))) r2
                       else continue_read (word (set_error p1) e) e (Some f) (S (S (S pos))) r2
          | [] => stop (word (set_error p1) e) e (Some 0) (S (S (S pos)))
          end
        else continue_read (word (set_error p1) e) e (Some d) (S (S pos)) r1
      | [] => stop (word (set_error p1) e) e (Some 0) (S (S pos))
      end
    else if ((c =? 70) || (c =? 102)) && ((radix p =? 10) || (radix p =? 0)) then                  (* F f *)
      continue_read (set_float p) (set_end e pos prev) (Some c) (S pos) r
    else if (c =? 76) || (c =? 108) then                                                          (* L l *)
      continue_read (set_long p) (set_end e pos prev) (Some c) (S pos) r
    else if (c =? 85) || (c =? 117) then                                                          (* U u *)
      continue_read (set_unsigned p) (set_end e pos prev) (Some c) (S pos) r
    else if (c =? 72) || (c =? 104) then                                                          (* H h *)
      continue_read (set_radix 16 p) (set_end e pos prev) (Some c) (S pos) r
    else if c =? 39 then                                                                          (* ' *)
      match prev with
      | Some b => continue_read (if is_digit b then p else set_error p) e (Some c) (S pos) r
      | None => None
      end
    else if is_word c then continue_read (word p e) e (Some c) (S pos) r
    else stop p e prev pos
  end.

(** [__continue_read], numeric.cpp 467-490, after the loop. *)
Definition complete (p : props) : props :=
  let r := if radix p =? 0 then 10 else radix p in
  let u := match unsigned p with Some b => b | None => r =? 16 end in
  let f := match floating p with
           | Some k => Some k
           | None => if point p || exponent p then Some Double else None
           end in
  let r := match f with Some _ => if r =? 8 then 10 else r | None => r end in
  Props (Some u) (negative p) (long p) f r (exponent p) (point p) (error p).

(** ** Integers *)

(** [__max_value], numeric.cpp 91-104, and the limits, 87-88. *)
Definition max_value (t : ity) (positive : bool) : Z :=
  if is_signed t then if positive then tmax t else tmax t + 1 else tmax t.
Definition prelimit (t : ity) (positive : bool) (radix : Z) : Z := max_value t positive / radix.
Definition prelimit_mod (t : ity) (positive : bool) (radix : Z) : Z := max_value t positive mod radix.

(** The unsigned type of the same size. *)
Definition to_unsigned (t : ity) : ity :=
  match t with I8 | U8 => U8 | I16 | U16 => U16 | I32 | U32 => U32 | I64 | U64 => U64 end.

(** [push], numeric.cpp 107-119.  The comparisons are made with unsigned values; a signed result that does not fit is
    undefined behaviour. *)
Inductive pushed := Pushed (v : Z) | Bad_char | Too_big | Push_undefined.

Definition push (t : ity) (positive : bool) (radix v : Z) (c : char) : pushed :=
  if negb (is_digit_of c radix) then Bad_char
  else
    let n := digit_value c in
    let u := wrap (to_unsigned t) v in
    if (prelimit t positive radix <? u) || ((u =? prelimit t positive radix) && (prelimit_mod t positive radix <? n))
    then Too_big
    else if is_signed t
    then if in_rangeb t (v * radix) && in_rangeb t (v * radix + n) then Pushed (v * radix + n) else Push_undefined
    else Pushed (wrap t (v * radix + n)).

(** [__parser_t::parse], numeric.cpp 262-277: the value or the value and the characters at the overflow. *)
Inductive scanned := All (v : Z) | Rest (v : Z) (s : text) | Scan_format | Scan_undefined.

Fixpoint scan (t : ity) (positive : bool) (radix v : Z) (s : text) : scanned :=
  match s with
  | [] => All v
  | c :: r =>
    if c =? 39 then scan t positive radix v r
    else match push t positive radix v c with
         | Pushed v' => scan t positive radix v' r
         | Too_big => Rest v s
         | Bad_char => Scan_format
         | Push_undefined => Scan_undefined
         end
  end.

(** ** The result *)

Inductive literal :=
| Integer (t : ity) (v : Z) (pos : nat)
| Floating (k : float_kind) (pos : nat)
| Format_error
| Overflow
| Undefined.

(** [__multi_parser_t], numeric.cpp 288-343: the types one after the other, each from where the previous one
    overflowed. *)
Fixpoint parse_types (ts : list ity) (positive : bool) (radix v : Z) (s : text) (pos : nat) : literal :=
  match ts with
  | [] => Overflow
  | t :: r =>
    match scan t positive radix (wrap t v) s with
    | All v' => Integer t v' pos
    | Rest v' s' => parse_types r positive radix v' s' pos
    | Scan_format => Format_error
    | Scan_undefined => Undefined
    end
  end.

(** The types tried, numeric.cpp 613-637. *)
Definition types (p : props) : list ity :=
  match long p, unsigned p with
  | true, Some true => [U64]
  | true, _ => [I64; U64]
  | false, Some true => [U32; U64]
  | false, _ => if radix p =? 10 then [I32; I64; U64] else [I32; U32; I64; U64]
  end.

Definition is_true (o : option bool) : bool := match o with Some true => true | _ => false end.

(** [__parse], numeric.cpp 587-639. *)
Definition parse_digits (p : props) (s : text) (pos : nat) : literal :=
  match floating p with
  | Some k =>
    if negb (radix p =? 10) || is_true (unsigned p)
       || (match k with Float => long p | Double => false end)
    then Format_error else Floating k pos
  | None => parse_types (types p) (negb (is_true (negative p))) (radix p) 0 s pos
  end.

(** [__revise], numeric.cpp 642-648 and [tvalue_t::operator -], common/common.cpp 134-150. *)
Definition revise (p : props) (l : literal) : literal :=
  match l with
  | Integer t v pos =>
    if is_true (negative p)
    then if is_signed t then if in_rangeb t (- v) then Integer t (- v) pos else Undefined
         else Integer t (wrap t (- v)) pos
    else l
  | _ => l
  end.

(** [parse], numeric.cpp 378-391, and [try_parse_numeric], 739-757: [before] is the character before the literal, [None]
    when the buffer starts there.  The position is the number of characters read. *)
Definition parse_numeric (before : option char) (s : text) : literal :=
  match read_prefix no_props 0 s with
  | (p, start, rest) =>
    let prev := match start with O => before | S k => Some (nth k s 0) end in
    match continue_read p None prev start rest with
    | None => Undefined
    | Some (p, stop, pos) =>
      let p := complete p in
      if error p then Format_error
      else revise p (parse_digits p (firstn (stop - start) rest) pos)
    end
  end.
