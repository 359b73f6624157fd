(** What a numeric literal means, independently of the parser. *)

From Coq Require Import ZArith List Bool.
Import ListNotations.
From Verif Require Import CppInt LitModel.
Open Scope Z_scope.

(** ** Digits *)

(** The character [c] denotes the digit [d]. *)
Definition digit_char (d c : Z) : Prop :=
  (0 <= d <= 9 /\ c = 48 + d) \/ (10 <= d <= 15 /\ (c = 65 + (d - 10) \/ c = 97 + (d - 10))).

(** The value of a sequence of digits. *)
Definition value (radix : Z) (ds : list Z) : Z := fold_left (fun a d => a * radix + d) ds 0.

(** The text [s] spells the digits [ds]. *)
Definition spelled (radix : Z) (ds : list Z) (s : list Z) : Prop :=
  Forall2 (fun d c => 0 <= d < radix /\ digit_char d c) ds s.

(** ** The forms of integer literals *)

Inductive form := Decimal | Octal | Hexadecimal | Binary.

Definition base (f : form) : Z :=
  match f with Decimal => 10 | Octal => 8 | Hexadecimal => 16 | Binary => 2 end.

(** The characters before the digits: nothing, or 0x or 0b. *)
Definition opening (f : form) (s : list Z) : Prop :=
  match f with
  | Decimal | Octal => s = []
  | Hexadecimal => s = [48; 120] \/ s = [48; 88]
  | Binary => s = [48; 98] \/ s = [48; 66]
  end.

(** A decimal literal does not start with zero, an octal one does. *)
Definition proper (f : form) (ds : list Z) : Prop :=
  match f with
  | Decimal => exists d r, ds = d :: r /\ d <> 0
  | Octal => exists r, ds = 0 :: r
  | Hexadecimal | Binary => ds <> []
  end.

(** The suffixes: [u] for unsigned, [l] for long, in any order and case. *)
Definition suffix (u l : bool) (s : list Z) : Prop :=
  match u, l with
  | false, false => s = []
  | true, false => exists c, (c = 85 \/ c = 117) /\ s = [c]
  | false, true => exists c, (c = 76 \/ c = 108) /\ s = [c]
  | true, true => exists c d, ((c = 85 \/ c = 117) /\ (d = 76 \/ d = 108)
                               \/ (c = 76 \/ c = 108) /\ (d = 85 \/ d = 117)) /\ s = [c; d]
  end.

(** ** Types *)

(** The types a literal may have, in order of preference. *)
Definition ladder (f : form) (u l : bool) : list ity :=
  match f, u, l with
  | Hexadecimal, _, true => [U64]
  | Hexadecimal, _, false => [U32; U64]
  | _, true, true => [U64]
  | _, false, true => [I64; U64]
  | _, true, false => [U32; U64]
  | Decimal, false, false => [I32; I64; U64]
  | _, false, false => [I32; U32; I64; U64]
  end.

(** The first type that can represent the value. *)
Inductive first_fit (v : Z) : list ity -> ity -> Prop :=
| Here : forall t ts, tmin t <= v <= tmax t -> first_fit v (t :: ts) t
| Later : forall t ts u, ~ (tmin t <= v <= tmax t) -> first_fit v ts u -> first_fit v (t :: ts) u.

(** ** What follows a literal *)

(** A letter, a decimal digit or the underscore. *)
Definition word_char (c : Z) : Prop := 65 <= c <= 90 \/ 97 <= c <= 122 \/ 48 <= c <= 57 \/ c = 95.

(** A character that may be part of a literal. *)
Definition literal_char (c : Z) : Prop := word_char c \/ c = 46 \/ c = 39.

(** The text does not start with such a character. *)
Definition ends_here (s : list Z) : Prop := match s with [] => True | c :: _ => ~ literal_char c end.

(** ** Separators *)

(** The second text is the first one with quotes inserted between some characters; [ok c] says that a quote may stand
    after [c]. *)
Inductive quoted (ok : Z -> Prop) : list Z -> list Z -> Prop :=
| Q_nil : quoted ok [] []
| Q_last : forall c, quoted ok [c] [c]
| Q_cons : forall c d s s', quoted ok (d :: s) s' -> quoted ok (c :: d :: s) (c :: s')
| Q_quote : forall c d s s', ok c -> quoted ok (d :: s) s' -> quoted ok (c :: d :: s) (c :: 39 :: s').

Definition any_digit (c : Z) : Prop := exists d, digit_char d c.
Definition decimal_digit (c : Z) : Prop := 48 <= c <= 57.

(** Two outcomes with the same type and value, or the same error. *)
Inductive same_meaning : literal -> literal -> Prop :=
| Same_integer : forall t v p q, same_meaning (Integer t v p) (Integer t v q)
| Same_floating : forall k p q, same_meaning (Floating k p) (Floating k q)
| Same_format : same_meaning Format_error Format_error
| Same_overflow : same_meaning Overflow Overflow.

(** A sign: none, plus ([Some false]) or minus ([Some true]). *)
Inductive sign_text : option bool -> list Z -> Prop :=
| No_sign : sign_text None []
| Plus : sign_text (Some false) [43]
| Minus : sign_text (Some true) [45].

(** The number of characters of an accepted literal. *)
Definition accepted (l : literal) : option nat :=
  match l with Integer _ _ pos | Floating _ pos => Some pos | _ => None end.

(** A text without its quotes. *)
Definition unquoted (s : list Z) : list Z := filter (fun c => negb (c =? 39)) s.

(** The letters that may follow the digits: L, U and H. *)
Definition suffix_char (c : Z) : Prop := In c [76; 108; 85; 117; 72; 104].

(** The characters before the digits: 0, X and B. *)
Definition prefix_char (c : Z) : Prop := In c [48; 88; 120; 66; 98].
