(* How the virtual machine finds the type of a member and a type by its name
   in the tables of an assembly: modules/rt/assembly_loader.cpp 99-156,
   299-330, 466-483, 597-664, algorithm/__collections.h 1746-1842 and
   modules/core/__xil.h 424-495.

   The tables are those of MetaModel.v.  A general type does not have its
   methods point back to it: the method refers to a row, and the type whose
   list of methods has this row is searched. *)
From Coq Require Import ZArith NArith List Bool.
From Verif Require Import MetaModel.
Import ListNotations.
Local Open Scope nat_scope.

(* The list of rows among the members of the type in row [i] *)
Definition list_at (T : tables) (c : nat) (i : nat) : result ref :=
  match nth_error (T TType) i with
  | Some (Entry _ (Some row)) =>
      match nth_error row c with Some (CRef r) => Done r | _ => Unset end
  | _ => Unset
  end.

(* The comparison given to search_host (599-631): before, after or among *)
Definition side (j : N) (r : ref) : Z :=
  if (j <? r_index r)%N then (-1)%Z
  else if (r_index r + r_count r <=? j)%N then 1%Z else 0%Z.

(* __binary_find (assembly_loader.cpp 110-130).  [fuel] bounds the depth. *)
Fixpoint binary_find (f : nat -> result Z) (fuel b e : nat) : result (option nat) :=
  if b =? e then Done None
  else match fuel with
  | O => Endless
  | S fuel' =>
      let it := b + (e - b) / 2 in
      bind (f it) (fun r =>
      if (r <? 0)%Z then binary_find f fuel' b it
      else if (0 <? r)%Z then binary_find f fuel' (S it) e
      else Done (Some it))
  end.

(* search_host (147-160) over all rows of the table of types *)
Definition search_host (T : tables) (c : nat) (j : N) : result (option nat) :=
  binary_find (fun i => bind (list_at T c i) (fun r => Done (side j r)))
              (length (T TType)) 0 (length (T TType)).

(* get_host_by_method_ref (598-606): the methods are the fifth member of a
   type (__assembly_layout.h 867-900) *)
Definition host_by_method (T : tables) (j : nat) : result (option nat) :=
  search_host T 4 (N.of_nat j).

(* get_host_by_field_ref (608-616) *)
Definition host_by_field (T : tables) (j : nat) : result (option nat) :=
  search_host T 6 (N.of_nat j).

(* fixed_map_t::find (__collections.h 1800-1808): the items are sorted by
   std::sort, which says nothing of the order of equal keys, and the first of
   the equal ones is taken.  Here: all values that can be taken. *)
Definition fixed_find {K} (eqb : K -> K -> bool) (l : list (K * nat)) (k : K) : list nat :=
  map snd (filter (fun p => eqb (fst p) k) l).

(* References are compared as numbers of 32 bits (__xil.h 425, 441). *)
Definition ref_eqb (a b : ref) : bool :=
  N.eqb (r_index a) (r_index b) && N.eqb (r_extra a) (r_extra b) &&
  N.eqb (r_count a) (r_count b).

(* __init_search_datas (650-664): the types that are nested, with their rows *)
Definition nest_map (T : tables) : list (ref * nat) :=
  flat_map (fun p =>
      match en_row (snd p) with
      | Some (CRef r :: _) => [(r, fst p)]
      | _ => []
      end)
    (combine (seq 0 (length (T TNested))) (T TNested)).

(* get_host_by_nest_type_ref (618-632), called with ref_t(row) (238-243).
   All answers that can be given. *)
Definition host_by_nest (T : tables) (i : nat) : list (result (option nat)) :=
  match fixed_find ref_eqb (nest_map T) (mkref i 1 0) with
  | [] => [Done None]
  | l => map (fun j => search_host T 8 (N.of_nat j)) l
  end.

(* __init_search_datas (312-330): namespace, name and number of generic params.
   A name is its number in the pool (MetaModel.v). *)
Definition type_map (T : tables) : list (Z * Z * N * nat) :=
  flat_map (fun p =>
      match en_row (snd p) with
      | Some (CVal name :: CVal _ :: CVal space :: CRef params :: _) =>
          [((space, name, r_count params), fst p)]
      | _ => []
      end)
    (combine (seq 0 (length (T TType))) (T TType)).

Definition name_eqb (a b : Z * Z * N) : bool :=
  let '(s, n, c) := a in let '(s', n', c') := b in
  Z.eqb s s' && Z.eqb n n' && N.eqb c c'.

(* get_type (99-108).  All answers that can be given. *)
Definition get_type (T : tables) (space name : Z) (count : N) : list (option nat) :=
  match fixed_find name_eqb (type_map T) (space, name, count) with
  | [] => [None]
  | l => map Some l
  end.
