(** Which strings are shown as they are. *)
From Coq Require Import List ZArith.
From Verif Require Import TokSpec.
Import ListNotations.
Open Scope Z_scope.

Definition no_nul (s : list Z) : Prop := ~ In 0 s.

(** Characters from the blank on, and those of the escapes a b t n v r. *)
Definition printable (c : Z) : Prop := 32 <= c \/ In c [7; 8; 9; 10; 11; 13].

Definition ordinary (s : list Z) : Prop := forall c, In c s -> printable c.

(** The text with an escape for each character that has one. *)
Inductive all_escaped : list Z -> list Z -> Prop :=
| Escaped_nil : all_escaped [] []
| Escaped_escape e c src s : In (e, c) escapes -> all_escaped src s -> all_escaped (92 :: e :: src) (c :: s)
| Escaped_plain c src s : 32 <= c -> (forall e, ~ In (e, c) escapes) -> all_escaped src s ->
    all_escaped (c :: src) (c :: s).
