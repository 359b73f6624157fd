(** File name patterns with * and ?, and the files an argument of the compiler
    stands for.
    include/lib.h 190-299; lib/file.cpp 200-206, 356-401; algorithm/__string.h
    670-760; modules/april/util.h 25-71. *)
From Coq Require Import List Bool ZArith Lia.
Import ListNotations.
Open Scope Z_scope.

(* A character is its code, a string a list of them. *)
Definition str : Type := list Z.

Definition memZ (c : Z) (l : list Z) : bool := existsb (Z.eqb c) l.

(* ------------------------------------------------------------------ *)
(** * From a pattern to a regular expression *)

(* The characters that are escaped: backslash . [ ] : ( ) { }, lib.h 259-261. *)
Definition escaped : list Z := [92; 46; 91; 93; 58; 40; 41; 123; 125].

(* __wildcard_to_regex, lib.h 246-283; the pattern ends at its first NUL. *)
Fixpoint convert (f : str) : str :=
  match f with
  | [] => []
  | c :: f' =>
      if c =? 0 then []
      else (if memZ c escaped then [92; c]
            else if c =? 42 then [46; 42; 63]
            else if c =? 63 then [46]
            else [c]) ++ convert f'
  end.

Definition wildcard_to_regex (f : str) : str := [94] ++ convert f ++ [36].

(* ------------------------------------------------------------------ *)
(** * std::basic_regex *)

(* The library is not part of the code: this is what its ECMAScript grammar
   means for texts that [wildcard_to_regex] makes.  Brackets that are not escaped
   are not among them and are taken as errors. *)
Inductive matcher : Type := Any | Lit (c : Z).

Inductive token : Type :=
| TAtom (m : matcher) | TStar | TPlus | TOpt | TBegin | TEnd | TBar | TBad.

Fixpoint tokens (s : str) : list token :=
  match s with
  | [] => []
  | c :: s' =>
      if c =? 92 then match s' with d :: s'' => TAtom (Lit d) :: tokens s'' | [] => [TBad] end
      else (if c =? 46 then TAtom Any
            else if c =? 42 then TStar
            else if c =? 43 then TPlus
            else if c =? 63 then TOpt
            else if c =? 94 then TBegin
            else if c =? 36 then TEnd
            else if c =? 124 then TBar
            else if memZ c [91; 93; 40; 41; 123; 125] then TBad
            else TAtom (Lit c)) :: tokens s'
  end.

Inductive item : Type :=
| IBegin | IEnd | IOne (m : matcher) | IMany (m : matcher) | IMaybe (m : matcher).

(* The alternatives, each a list of items; [None]: std::regex_error.  A quantifier
   may be followed by one ?, which makes it lazy; that makes no difference to
   whether there is a match. *)
Fixpoint parse (ts : list token) : option (list (list item)) :=
  let add l r := match r with Some (a :: bs) => Some ((l ++ a) :: bs) | _ => None end in
  match ts with
  | [] => Some [[]]
  | TBar :: ts' => match parse ts' with Some bs => Some ([] :: bs) | None => None end
  | TBegin :: ts' => add [IBegin] (parse ts')
  | TEnd :: ts' => add [IEnd] (parse ts')
  | TAtom m :: TStar :: TOpt :: ts' => add [IMany m] (parse ts')
  | TAtom m :: TStar :: ts' => add [IMany m] (parse ts')
  | TAtom m :: TPlus :: TOpt :: ts' => add [IOne m; IMany m] (parse ts')
  | TAtom m :: TPlus :: ts' => add [IOne m; IMany m] (parse ts')
  | TAtom m :: TOpt :: TOpt :: ts' => add [IMaybe m] (parse ts')
  | TAtom m :: TOpt :: ts' => add [IMaybe m] (parse ts')
  | TAtom m :: ts' => add [IOne m] (parse ts')
  | _ => None
  end.

(* . is every character but the ends of lines. *)
Definition line_ends : list Z := [10; 13; 8232; 8233].

Definition hit (m : matcher) (c : Z) : bool :=
  match m with Any => negb (memZ c line_ends) | Lit d => c =? d end.

(* The items match a beginning of [s]; [start]: [s] is the whole text. *)
Fixpoint run (is : list item) (start : bool) (s : str) {struct is} : bool :=
  match is with
  | [] => true
  | IBegin :: is' => start && run is' start s
  | IEnd :: is' => match s with [] => run is' start s | _ => false end
  | IOne m :: is' => match s with c :: s' => hit m c && run is' false s' | [] => false end
  | IMaybe m :: is' =>
      run is' start s || match s with c :: s' => hit m c && run is' false s' | [] => false end
  | IMany m :: is' =>
      (fix go (start : bool) (s : str) {struct s} : bool :=
         run is' start s || match s with c :: s' => hit m c && go false s' | [] => false end) start s
  end.

(* A match anywhere in the text. *)
Fixpoint search (is : list item) (start : bool) (s : str) : bool :=
  run is start s || match s with [] => false | _ :: s' => search is false s' end.

(* std::basic_regex(text), then a regex_iterator that is not at its end
   (regex_is_match, __string.h 697-705, 747-750); [None]: regex_error. *)
Definition regex_is_match (text s : str) : option bool :=
  match parse (tokens text) with
  | None => None
  | Some bs => Some (existsb (fun is => search is true s) bs)
  end.

Definition filter_matches (f s : str) : option bool := regex_is_match (wildcard_to_regex f) s.

(* ------------------------------------------------------------------ *)
(** * Files *)

(* The file system: what exists, what is a directory, and the entries of a
   directory, each with whether it is a directory. *)
Record fs : Type := mk_fs {
  fs_exists : str -> bool;
  fs_is_dir : str -> bool;
  fs_entries : str -> list (str * bool)
}.

Inductive result : Type :=
| Files (l : list str)
| NotExists                    (* file_not_exists *)
| RegexError
| NotDirectory.                (* the exception of directory_iterator *)

(* __each, lib.h 213-244, with the option files; the paths of a directory's
   entries are the directory, a separator and the name. *)
Fixpoint pick (dir f : str) (es : list (str * bool)) : list str :=
  match es with
  | [] => []
  | (n, d) :: es' =>
      (if d then [] else match filter_matches f n with
                         | Some true => [dir ++ [47] ++ n]
                         | _ => []
                         end) ++ pick dir f es'
  end.

(* all_files, lib/file.cpp 360-384: the regular expression is made first. *)
Definition all_files (S : fs) (dir f : str) : result :=
  match parse (tokens (wildcard_to_regex f)) with
  | None => RegexError
  | Some _ =>
      if fs_exists S dir
      then if fs_is_dir S dir then Files (pick dir f (fs_entries S dir)) else NotDirectory
      else Files []
  end.

(* The text behind the last separator, and what is before it. *)
Fixpoint split_last (s : str) : option (str * str) :=
  match s with
  | [] => None
  | c :: s' =>
      match split_last s' with
      | Some (a, b) => Some (c :: a, b)
      | None => if c =? 47 then Some ([], s') else None
      end
  end.

(* split_path_filter, lib/file.cpp 386-401. *)
Definition split_path_filter (p : str) : option (str * str) :=
  match split_last p with
  | Some (d, f) => if existsb (fun c => memZ c [63; 42]) f then Some (d, f) else None
  | None => None
  end.

(* is_hidden_file, util.h 37-40, is given the whole path; path[0] of the empty
   string is its final NUL. *)
Definition is_hidden_file (p : str) : bool :=
  match p with c :: _ => c =? 46 | [] => false end.

(* each_files, util.h 42-71: [directory] is still empty in the second case. *)
Definition each_files (S : fs) (p : str) : result :=
  match split_path_filter p with
  | Some (d, f) => all_files S d f
  | None =>
      if fs_is_dir S p then
        match all_files S [] [42; 46; 42] with
        | Files l => Files (filter (fun x => negb (is_hidden_file x)) l)
        | r => r
        end
      else if fs_exists S p then Files [p]
      else NotExists
  end.
