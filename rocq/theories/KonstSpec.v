(** What the constant fields of a program mean, independent of how the compiler
    finds out. *)

From Coq Require Import ZArith List Bool.
From Coq Require Import Relations.Relation_Operators.
From Verif Require Import CppInt ArithModel ExprModel KonstModel.
Import ListNotations.
Open Scope Z_scope.

(** A number has a value of its type. *)
Definition proper (v : tval) : Prop :=
  match fst v with Vi t => in_range t (snd v) | Vb => snd v = 0 \/ snd v = 1 end.

(** A value of an initialiser that a field of a type can have. *)
Definition fits (t : vty) (v : tval) : Prop :=
  match t with Vi i => in_range i (snd v) | Vb => fst v = Vb end.

(** A field is named in an expression. *)
Fixpoint occurs (f : fid) (e : kexp) : Prop :=
  match e with
  | KNum _ | KNone => False
  | KField g => g = f
  | KBin _ e1 e2 | KCall e1 e2 => occurs f e1 \/ occurs f e2
  | KUn _ e1 | KCast _ e1 => occurs f e1
  | KCond c e1 e2 => occurs f c \/ occurs f e1 \/ occurs f e2
  end.

(** All numbers written in an expression are proper. *)
Fixpoint proper_numbers (e : kexp) : Prop :=
  match e with
  | KNum v => proper v
  | KField _ | KNone => True
  | KBin _ e1 e2 | KCall e1 e2 => proper_numbers e1 /\ proper_numbers e2
  | KUn _ e1 | KCast _ e1 => proper_numbers e1
  | KCond c e1 e2 => proper_numbers c /\ proper_numbers e1 /\ proper_numbers e2
  end.

Section WithProgram.

Variable P : prog.

(** The field [f] is declared in the type [T]. *)
Definition declares (T : ktype) (f : fid) : Prop := In T (ptypes P) /\ In f (kfields T).

(** The value of a constant field, and of an initialiser.  The operators are
    those of the compiler's tables (their meaning is another property); a cast
    to a type converts. *)
Inductive means : fid -> tval -> Prop :=
| means_enum_first T t f r :
    In T (ptypes P) -> kenum T = Some t -> kfields T = f :: r ->
    pinit P f = None -> means f (Vi t, 0)
| means_enum_next T t l1 g f l2 z :
    In T (ptypes P) -> kenum T = Some t -> kfields T = l1 ++ g :: f :: l2 ->
    pinit P f = None -> means g (Vi t, z) -> in_range t (z + 1) -> means f (Vi t, z + 1)
| means_enum_own T t f e v :
    declares T f -> kenum T = Some t -> pinit P f = Some e ->
    value_of e v -> in_range t (snd v) -> means f (Vi t, snd v)
| means_const_default T f :
    declares T f -> kenum T = None -> pinit P f = None -> means f (pvt P f, 0)
| means_const_own T f e v :
    declares T f -> kenum T = None -> pinit P f = Some e ->
    value_of e v -> fits (pvt P f) v -> means f (pvt P f, snd v)
with value_of : kexp -> tval -> Prop :=
| value_num v : value_of (KNum v) v
| value_field f v : pconst P f = true -> means f v -> value_of (KField f) v
| value_bin o e1 e2 v1 v2 v :
    value_of e1 v1 -> value_of e2 v2 -> fold_binary (to_binop o) v1 v2 = Const v ->
    value_of (KBin o e1 e2) v
| value_un o e v1 v :
    value_of e v1 -> fold_unary (to_unop o) v1 = Const v -> value_of (KUn o e) v
| value_cast t e v : value_of e v -> value_of (KCast t e) (t, vcast t (snd v))
| value_true c e1 e2 z v : value_of c (Vb, z) -> z <> 0 -> value_of e1 v -> value_of (KCond c e1 e2) v
| value_false c e1 e2 v : value_of c (Vb, 0) -> value_of e2 v -> value_of (KCond c e1 e2) v.

(** The initialiser of [f] names [g]. *)
Definition mentions (f g : fid) : Prop :=
  exists e, pinit P f = Some e /\ occurs g e.

(** [f] is a field of an enum without initialiser, right behind [g]. *)
Definition follows (f g : fid) : Prop :=
  pinit P f = None /\
  exists T t l1 l2, In T (ptypes P) /\ kenum T = Some t /\ kfields T = l1 ++ g :: f :: l2.

(** The value of [f] is defined by that of [g]. *)
Definition depends (f g : fid) : Prop := mentions f g \/ follows f g.

(** The fields in the order in which the types are walked. *)
Definition in_order : list fid := concat (map kfields (ptypes P)).

Definition earlier (f g : fid) : Prop :=
  exists l1 l2 l3, in_order = l1 ++ f :: l2 ++ g :: l3.

(** A program: no field is declared twice, the fields of an enum are constants of
    its underlying type, fields named are declared, numbers are proper. *)
Record source : Prop := {
  once : NoDup in_order;
  enum_consts : forall T t f, declares T f -> kenum T = Some t ->
      pconst P f = true /\ pvt P f = Vi t;
  named : forall f g, mentions f g -> In g in_order;
  numbers : forall f e, pinit P f = Some e -> proper_numbers e }.

(** The initialisers of a field and of all fields before it in its type name
    only constants that are declared earlier, and likewise are settled. *)
Inductive settled : fid -> Prop :=
| settled_at T f :
    declares T f ->
    (forall l1 c l2, kfields T = l1 ++ c :: l2 -> In f (c :: l2) ->
       forall d, mentions c d -> pconst P d = true /\ earlier d c /\ settled d) ->
    settled f.

(** The initialiser of a field has values of just the type of the field; or it is
    a const field of a class or struct without initialiser. *)
Definition exact (f : fid) : Prop :=
  (exists e, pinit P f = Some e /\ forall v, value_of e v -> fst v = pvt P f)
  \/ (pinit P f = None /\ exists T, declares T f /\ kenum T = None).

(** Each constant that an initialiser needs is settled and earlier, or exact;
    the const fields of classes and structs are exact. *)
Definition orderly : Prop :=
  (forall f g, pconst P f = true -> clos_trans _ mentions f g -> pconst P g = true ->
     settled g /\ earlier g f \/ exact g) /\
  (forall T f, declares T f -> kenum T = None -> pconst P f = true -> exact f).

(** The fields of ulong enums are not given negative numbers. *)
Definition no_negative_ulong : Prop :=
  forall T f e v, declares T f -> kenum T = Some U64 -> pinit P f = Some e ->
    value_of e v -> 0 <= snd v.

(** The initialisers of constants name constants only: fields of enums or with an
    initialiser of their own. *)
Definition names_constants : Prop :=
  forall f g, pconst P f = true -> mentions f g ->
    pconst P g = true /\
    (pinit P g <> None \/ exists T t, declares T g /\ kenum T = Some t).

End WithProgram.
