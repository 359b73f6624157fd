(** What patterns of file names mean. *)
From Coq Require Import List Bool ZArith.
From Verif Require Import WildModel.
Import ListNotations.
Open Scope Z_scope.

(** A pattern and a name: * (42) stands for any text, ? (63) for any character. *)
Inductive glob : str -> str -> Prop :=
| glob_nil : glob [] []
| glob_skip f s : glob f s -> glob (42 :: f) s
| glob_take f c s : glob (42 :: f) s -> glob (42 :: f) (c :: s)
| glob_any f c s : glob f s -> glob (63 :: f) (c :: s)
| glob_same f c s : c <> 42 -> c <> 63 -> glob f s -> glob (c :: f) (c :: s).

(** A pattern without NUL and without + ^ $ | *)
Definition simple (f : str) : Prop := forall c, In c f -> ~ In c [0; 43; 94; 36; 124].

(** A name on one line. *)
Definition one_line (s : str) : Prop := forall c, In c s -> ~ In c [10; 13; 8232; 8233].

(** A text with * or ? in it, or none. *)
Definition is_pattern (f : str) : Prop := In 42 f \/ In 63 f.

Definition no_separator (s : str) : Prop := ~ In 47 s.

(** The file [x] is in the directory [d] and its name is like the pattern. *)
Definition in_directory (S : fs) (d f x : str) : Prop :=
  exists n, In (n, false) (fs_entries S d) /\ glob f n /\ x = d ++ [47] ++ n.

(** The names in a directory are names. *)
Definition names_ok (S : fs) (d : str) : Prop :=
  forall n b, In (n, b) (fs_entries S d) -> one_line n.

(** The last part of the argument is not a pattern in a directory. *)
Definition plain (p : str) : Prop :=
  no_separator p \/ exists d f, p = d ++ [47] ++ f /\ no_separator f /\ ~ is_pattern f.

(** A path that begins with a dot. *)
Definition dotted (x : str) : Prop := exists r, x = 46 :: r.
