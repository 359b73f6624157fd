(* What a path without . and .. sections is. *)
From Coq Require Import ZArith List.
Import ListNotations.
Local Open Scope Z_scope.

Inductive section := Here | Up | Name (s : list Z).

(* The name of a file or directory: not empty, without slashes, and neither
   . nor .. *)
Definition good_name (s : list Z) : Prop :=
  s <> [] /\ ~ In 47 s /\ ~ In 0 s /\ s <> [46] /\ s <> [46; 46].

Definition good_section (x : section) : Prop :=
  match x with Name s => good_name s | _ => True end.

Definition text (x : section) : list Z :=
  match x with Here => [46] | Up => [46; 46] | Name s => s end.

(* The absolute path with these sections *)
Definition path_of (l : list section) : list Z := flat_map (fun x => 47 :: text x) l.

(* Where one gets: from a directory through a section, from the root through
   all sections.  The names are given with the last one first. *)
Definition walk (here : list (list Z)) (x : section) : list (list Z) :=
  match x with
  | Here => here
  | Up => tl here
  | Name s => s :: here
  end.

Definition resolve (l : list section) : list section :=
  map Name (rev (fold_left walk l [])).

Definition is_dots (x : section) : Prop := match x with Name _ => False | _ => True end.
Definition ups (l : list section) : nat :=
  length (filter (fun x => match x with Up => true | _ => false end) l).

(* Every run of . and .. comes right behind as many names as it has .. *)
Inductive simple : list section -> Prop :=
| simple_nil : simple []
| simple_name l s : simple l -> simple (l ++ [Name s])
| simple_here l : simple l -> simple (l ++ [Here])
| simple_run l (ns : list (list Z)) d : simple l -> ns <> [] -> Forall is_dots d ->
    length ns = ups d -> simple (l ++ map Name ns ++ d).
