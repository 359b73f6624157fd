(** The checks of a member of a type: whether it is declared twice and whether
    its modifiers are allowed.
    modules/compile/ast.cpp 680-1010, 5220-5226; modules/core/core.cpp 1378-1398,
    1421-1428, 3788-3945, 5063-5085, 6206-6219; include/modules/core.h 1515-1650, 4080-4240. *)
From Coq Require Import List Bool Arith Lia.
Import ListNotations.

(* member_type_t, without attributes and the rest that is no member. *)
Inductive kind : Type := Field | Method | Property | Event | Nested | TypeDef.

Definition kind_eqb (a b : kind) : bool :=
  match a, b with
  | Field, Field | Method, Method | Property, Property | Event, Event
  | Nested, Nested | TypeDef, TypeDef => true
  | _, _ => false
  end.

(* access_value_t, core.h 1503-1509; [Unspecified] is __default__. *)
Inductive access : Type :=
| Unspecified | Public | Protected | Private | Internal
| ProtectedOrInternal | ProtectedAndInternal.

Definition access_eqb (a b : access) : bool :=
  match a, b with
  | Unspecified, Unspecified | Public, Public | Protected, Protected
  | Private, Private | Internal, Internal
  | ProtectedOrInternal, ProtectedOrInternal
  | ProtectedAndInternal, ProtectedAndInternal => true
  | _, _ => false
  end.

(* decorate_value_t, core.h 1516-1528. *)
Record decorate : Type := mk_decorate {
  d_access : access;
  d_static : bool; d_sealed : bool; d_override : bool; d_virtual : bool;
  d_abstract : bool; d_new : bool; d_const : bool; d_readonly : bool;
  d_extern : bool
}.

(* A member.  Types are numbers; a parameter is its type and how it is passed
   (ptype).  [m_key] is the name under which the member was put into the list of
   its type: an indexer is put there without a name at commit (ast.cpp 2613-2630)
   and named later (ast.cpp 5354).  [m_accessor]: relation_member is set.
   [m_special]: a constructor or destructor.  Members with an owner type
   (explicit implementations) are left out. *)
Record member : Type := mk_member {
  m_id : nat; m_host : nat; m_in_interface : bool;
  m_kind : kind; m_name : nat; m_key : nat; m_type : nat;
  m_params : list (nat * nat); m_gparams : nat;
  m_dec : decorate;
  m_body : bool;                   (* body of a method *)
  m_get : option bool;             (* get accessor, with a body or not *)
  m_set : option bool;
  m_accessor : bool; m_special : bool
}.

(* A type, as far as it matters here. *)
Record type : Type := mk_type {
  t_id : nat; t_name : nat; t_interface : bool; t_abstract : bool;
  t_members : list member
}.

(* member_t::get_access_value, core.cpp 1378-1398; every member here has a host
   type. *)
Definition access_of (m : member) : access :=
  match d_access (m_dec m) with
  | Unspecified => if m_in_interface m then Public else Private
  | a => a
  end.

(* is_private, core.h 2243-2247; is_same_access_modifier, core.cpp 1421-1428. *)
Definition is_private (m : member) : bool := access_eqb (access_of m) Private.
Definition same_access (m x : member) : bool := access_eqb (access_of m) (access_of x).

(* is_virtual_or_abstract_or_override, core.h 1642-1646. *)
Definition overridable (m : member) : bool :=
  d_virtual (m_dec m) || d_abstract (m_dec m) || d_override (m_dec m).

(* ------------------------------------------------------------------ *)
(** * Members with the same name *)

(* __is_params_equals of methods, core.cpp 3843-3885: how parameters are passed
   is not compared.  Types are compared by identity; parameters of generic types
   are modelled in OverModel. *)
Definition same_types (m x : member) : bool :=
  (length (m_params m) =? length (m_params x)) && (m_gparams m =? m_gparams x) &&
  forallb (fun pq => fst (fst pq) =? fst (snd pq)) (combine (m_params m) (m_params x)).

(* __is_params_equals of properties, core.cpp 3816-3841. *)
Definition same_params (m x : member) : bool :=
  (length (m_params m) =? length (m_params x)) &&
  forallb (fun pq => (fst (fst pq) =? fst (snd pq)) && (snd (fst pq) =? snd (snd pq)))
          (combine (m_params m) (m_params x)).

(* __search_member, core.cpp 3793-3814: nothing is found from the member itself
   on. *)
Fixpoint search_member (m : member) (f : member -> bool) (ms : list member) : option member :=
  match ms with
  | [] => None
  | x :: ms' => if m_id x =? m_id m then None
                else if f x then Some x else search_member m f ms'
  end.

(* The members of a kind that the type keeps under the name. *)
Definition named (m : member) (k : kind) (ms : list member) : list member :=
  filter (fun x => kind_eqb (m_kind x) k && (m_key x =? m_name m)) ms.

Definition any (_ : member) : bool := true.

Definition orelse (a b : option member) : option member :=
  match a with Some x => Some x | None => b end.

(* __general_type_like_base_t::check_duplicate, core.cpp 3887-3945. *)
Definition find_clash (m : member) (ms : list member) : option member :=
  let s k f := search_member m f (named m k ms) in
  orelse (s Field any) (orelse (s Event any) (orelse (s Nested any) (orelse (s TypeDef any)
    match m_kind m with
    | Method => orelse (s Property any) (s Method (same_types m))
    | Property => orelse (s Method any) (s Property (same_params m))
    | _ => orelse (s Method any) (s Property any)
    end))).

(* type_t::check_duplicate with the base types, core.cpp 5063-5085; [chain] is the
   types walked, nearest first. *)
Fixpoint find_inherited (m : member) (chain : list type) : option member :=
  match chain with
  | [] => None
  | t :: ts => orelse (find_clash m (t_members t)) (find_inherited m ts)
  end.

(* The base member, ast.cpp 733-742. *)
Definition base_member (T : type) (chain : list type) (m : member) : option member :=
  match find_inherited m chain with
  | Some x => if m_host x =? t_id T then None else Some x
  | None => None
  end.

(* ------------------------------------------------------------------ *)
(** * The checks *)

(* What is logged; [ModifierNotValid false] is a message made with a null pointer
   instead of the modifier (ast.cpp 893-897). *)
Inductive code : Type :=
| SameAsType | Duplicated
| InterfaceField | InterfaceModifier | InterfaceBody
| VirtualPrivate | VirtualStatic | OverrideNew | NothingToOverride | OverrideSealed
| TypeChanged | AbstractInConcrete | SealedNotOverride
| ModifierNotValid (text : bool)
| ExternNotStatic | ExternBody | AccessChanged
| HidesVirtual | Hides | HidesNothing.

(* The codes from 4000 to 7000 are warnings, __ast.h 445-456. *)
Definition is_warning (c : code) : bool :=
  match c with HidesVirtual | Hides | HidesNothing => true | _ => false end.

(* __check_duplicate, ast.cpp 680-717; [None]: nothing is logged. *)
Definition check_duplicate (T : type) (m : member) : option code :=
  if (m_name m =? t_name T) && negb (kind_eqb (m_kind m) Method && m_special m)
  then Some SameAsType
  else match find_clash m (t_members T) with
       | Some _ => Some Duplicated
       | None => None
       end.

(* Interfaces, ast.cpp 744-803. *)
Definition check_interface (m : member) : option code :=
  let d := m_dec m in
  if kind_eqb (m_kind m) Field then Some InterfaceField
  else if d_virtual d || d_static d || d_abstract d || d_sealed d || d_const d ||
          d_readonly d || d_extern d || negb (access_eqb (d_access d) Unspecified)
  then Some InterfaceModifier
  else if kind_eqb (m_kind m) Method && m_body m then Some InterfaceBody
  else if kind_eqb (m_kind m) Property &&
          (match m_get m with Some true => true | _ => false end ||
           match m_set m with Some true => true | _ => false end)
  then Some InterfaceBody
  else None.

(* The part about override, ast.cpp 824-859. *)
Definition check_override (base : option member) (m : member) : option code :=
  if d_virtual (m_dec m) || d_new (m_dec m) then Some OverrideNew
  else match base with
       | None => Some NothingToOverride
       | Some x =>
           if negb (overridable x) then Some NothingToOverride
           else if d_sealed (m_dec x) then Some OverrideSealed
           else if negb (m_type x =? m_type m) then Some TypeChanged
           else None
       end.

(* Properties, methods and events of other types, ast.cpp 806-907. *)
Definition check_virtual (T : type) (base : option member) (m : member) : option code :=
  let d := m_dec m in
  if overridable m && is_private m then Some VirtualPrivate
  else if overridable m && d_static d then Some VirtualStatic
  else match (if d_override d then check_override base m else None) with
  | Some c => Some c
  | None =>
      if d_abstract d && negb (t_abstract T) then Some AbstractInConcrete
      else if d_sealed d && negb (d_override d) then Some SealedNotOverride
      else if d_readonly d || d_const d then Some (ModifierNotValid true)
      else if d_extern d then
        if negb (kind_eqb (m_kind m) Method) then Some (ModifierNotValid false)
        else if negb (d_static d) then Some ExternNotStatic
        else if m_body m then Some ExternBody
        else None
      else None
  end.

(* Fields and type definitions, ast.cpp 909-937. *)
Definition check_plain (m : member) : option code :=
  let d := m_dec m in
  if d_virtual d || d_abstract d || d_override d || d_extern d || d_sealed d
  then Some (ModifierNotValid true)
  else if kind_eqb (m_kind m) TypeDef && (d_const d || d_readonly d || d_static d)
  then Some (ModifierNotValid true)
  else None.

(* Hiding, ast.cpp 939-983. *)
Definition check_hiding (base : option member) (m : member) : option code :=
  let d := m_dec m in
  match base with
  | None => None
  | Some x =>
      if is_private x then None
      else if negb (is_private m) then
        if kind_eqb (m_kind m) (m_kind x) && overridable x then
          if negb (d_override d) && negb (d_new d) then Some HidesVirtual
          else if negb (same_access m x) then Some AccessChanged
          else None
        else if negb (d_new d) then Some Hides else None
      else if d_new d then Some HidesNothing else None
  end.

(* __check_modifier, ast.cpp 720-985. *)
Definition check_modifier (T : type) (chain : list type) (m : member) : option code :=
  let base := base_member T chain m in
  let first :=
    if t_interface T then check_interface m
    else match m_kind m with
         | Property | Method | Event => check_virtual T base m
         | _ => check_plain m
         end in
  match first with
  | Some c => Some c
  | None => check_hiding base m
  end.

(* __check_member, ast.cpp 988-1008, called for all members but nested types and
   the accessors of properties and events (ast.cpp 5224-5225).  At most one
   message is logged; every error but no warning ends the check with false. *)
Definition check_member (T : type) (chain : list type) (m : member) : option code :=
  if m_accessor m || kind_eqb (m_kind m) Nested then None
  else match check_duplicate T m with
       | Some c => Some c
       | None => check_modifier T chain m
       end.

(* The members defined as variables of their type when it is walked: fields,
   properties and normal methods, with the accessors of properties and events
   (ast.cpp 5007-5008, 5103-5107, 5361-5367). *)
Definition is_defined (m : member) : bool :=
  match m_kind m with
  | Field | Property => true
  | Method => negb (m_special m)
  | _ => false
  end.

(* The members walked before.  They are walked in the order of [t_members]; the
   order of the program only decides which one of two is reported. *)
Fixpoint walked_before (m : member) (ms : list member) : list member :=
  match ms with
  | [] => []
  | x :: ms' => if m_id x =? m_id m then [] else x :: walked_before m ms'
  end.

(* variable_region_t::__check_duplicate, core.cpp 6206-6219: the first variable of
   the name has to be a method, and this one too.  An indexer has the name of all
   indexers by now. *)
Definition check_variable (T : type) (m : member) : bool :=
  is_defined m &&
  match find (fun x => is_defined x && (m_name x =? m_name m)) (walked_before m (t_members T)) with
  | Some x => negb (kind_eqb (m_kind x) Method && kind_eqb (m_kind m) Method)
  | None => false
  end.

(* The member is compiled: no error is logged. *)
Definition accepted (T : type) (chain : list type) (m : member) : bool :=
  negb (check_variable T m) &&
  match check_member T chain m with
  | None => true
  | Some c => is_warning c
  end.
