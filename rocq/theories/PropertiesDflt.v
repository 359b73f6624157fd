(** C137, C138: fields of enums, constants and default constructors. *)
From Coq Require Import List Bool Arith Lia.
From Verif Require Import ModiModel DfltModel DfltSpec DfltProofs DfltExamples.
Import ListNotations.

(** C137.  The fields of an enum that is accepted are public constants of its type. *)
Theorem C137_enum t f : t_kind t = Enum -> snd (walk t) = [] ->
  In f (t_fields (fst (walk t))) -> enum_constant (t_id t) f.
Proof. exact (enum_constants t f). Qed.
Print Assumptions C137_enum.

(** Those enums are accepted whose fields are only names (and values). *)
Theorem C137_enum_accepted t : t_kind t = Enum ->
  (snd (walk t) = [] <-> forall f, In f (t_fields t) -> bare f).
Proof. exact (enum_accepted t). Qed.
Print Assumptions C137_enum_accepted.

Example C137_enum_case : t_kind color = Enum /\ snd (walk color) = [] /\
  t_fields (fst (walk color)) = [mk_fld 1 (Some 7) (Some enum_decorate); mk_fld 2 (Some 7) (Some enum_decorate)] /\
  snd (walk color_wrong) = [UnexpectedType 1; UnexpectedDecorate 2; FieldPrototype 2].
Proof. repeat split. Qed.

(** Every modifier that is written at a field of an enum is reported as such. *)
Theorem C137_enum_modifiers t f d : t_kind t = Enum -> In f (t_fields t) -> f_dec f = Some d ->
  d <> mk_decorate Unspecified false false false false false false false false false ->
  In (UnexpectedDecorate (f_name f)) (snd (walk t)).
Proof. exact (modifiers_reported t f d). Qed.
Print Assumptions C137_enum_modifiers.

Example C137_enum_modifiers_case : const_private <> mk_decorate Unspecified false false false false false false false false false /\
  In (UnexpectedDecorate 4) (snd (walk (mk_decl 7 Enum [mk_fld 4 None (Some const_private)] []))).
Proof. split; [discriminate | left; reflexivity]. Qed.

(** Accepted or not, the fields have the type of the enum. *)
Theorem C137_enum_type t f : t_kind t = Enum -> In f (t_fields (fst (walk t))) -> f_type f = Some (t_id t).
Proof. exact (enum_types t f). Qed.
Print Assumptions C137_enum_type.

(** No field is lost, added or moved. *)
Theorem C137_names t : map f_name (t_fields (fst (walk t))) = map f_name (t_fields t).
Proof. exact (names_kept t). Qed.
Print Assumptions C137_names.

(** In all other types constants become static, and nothing else changes. *)
Theorem C137_constants t : t_kind t <> Enum -> constants_static (fst (walk t)) /\
  Forall2 same_but_static (t_fields t) (t_fields (fst (walk t))).
Proof. intros K. split; [exact (other_constants t K) | exact (other_fields t K)]. Qed.
Print Assumptions C137_constants.

Example C137_constants_case : t_kind empty_class <> Enum /\ d_static const_private = false /\
  map f_dec (t_fields (fst (walk empty_class))) =
    [Some (mk_decorate Private true false false false false false true false false)].
Proof. repeat split. discriminate. Qed.

(** C138.  A class without a constructor gets one that is public and without
    parameters; other classes are left as they are. *)
Theorem C138_class t : t_kind t = Class ->
  (constructors t = [] -> t_methods (fst (walk t)) = t_methods t ++ [mk_meth true 0 Public true]) /\
  (constructors t <> [] -> t_methods (fst (walk t)) = t_methods t) /\ constructors (fst (walk t)) <> [].
Proof. exact (class_constructors t). Qed.
Print Assumptions C138_class.

Example C138_class_case : t_kind empty_class = Class /\ constructors empty_class = [] /\
  t_methods (fst (walk empty_class)) = [plain; mk_meth true 0 Public true].
Proof. repeat split. Qed.

(** Classes and interfaces are never refused for that. *)
Theorem C138_class_accepted t : t_kind t = Class \/ t_kind t = Interface -> snd (walk t) = [].
Proof. exact (class_accepted t). Qed.
Print Assumptions C138_class_accepted.

(** A struct that is accepted has exactly one constructor without parameters, the added
    one.  Missing: structs in which such a constructor is written, but not as the first
    one, refuted below. *)
Theorem C138_struct_partial t : t_kind t = Struct -> snd (walk t) = [] ->
  (forall c, In c (tl (constructors t)) -> 0 < c_params c) ->
  filter parameterless (t_methods (fst (walk t))) = [mk_meth true 0 Public true].
Proof. exact (struct_one t). Qed.
Print Assumptions C138_struct_partial.

(** It is refused exactly if the first constructor has no parameters. *)
Theorem C138_struct_first t : t_kind t = Struct ->
  (t_methods (fst (walk t)) = t_methods t ++ [mk_meth true 0 Public true] /\
     ~ In NoDefaultConstructor (snd (walk t)) /\
     (forall c, hd_error (constructors t) = Some c -> 0 < c_params c)) \/
  (t_methods (fst (walk t)) = t_methods t /\ In NoDefaultConstructor (snd (walk t)) /\
     exists c, hd_error (constructors t) = Some c /\ c_params c = 0).
Proof. exact (struct_walk t). Qed.
Print Assumptions C138_struct_first.

Example C138_struct_case : t_kind point = Struct /\ snd (walk point) = [] /\
  (forall c, In c (tl (constructors point)) -> 0 < c_params c) /\
  t_methods (fst (walk point)) = [plain; ctor 2; mk_meth true 0 Public true].
Proof. repeat split. intros c []. Qed.

(** Interfaces and enums get no constructor. *)
Theorem C138_others t : t_kind t = Interface \/ t_kind t = Enum -> t_methods (fst (walk t)) = t_methods t.
Proof. exact (others_kept t). Qed.
Print Assumptions C138_others.

(** A written constructor without parameters that is the second one is not seen, and
    the struct gets another one of the same form. *)
Theorem C138_struct_refuted : snd (walk point_twice) = [] /\
  filter parameterless (t_methods (fst (walk point_twice))) = [ctor 0; mk_meth true 0 Public true].
Proof. repeat split. Qed.
Print Assumptions C138_struct_refuted.
