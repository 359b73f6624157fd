(** What the heaps have to achieve. *)

From Coq Require Import ZArith List Bool.
Import ListNotations.
From Verif Require Import HeapModel.
Open Scope Z_scope.

(** ** The list behind [heap_t] *)

Section Spec.
Variable V : Type.

Definition count (l : list V) : Z := Z.of_nat (length l).

(** Operations on a list; an index outside leaves it as it is. *)
Definition on_list (l : list V) (o : op V) : list V :=
  match o with
  | New _ v => l ++ [v]
  | Insert _ i v => if i <=? count l then firstn (Z.to_nat i) l ++ v :: skipn (Z.to_nat i) l else l
  | Delete _ i => if i <? count l then firstn (Z.to_nat i) l ++ skipn (S (Z.to_nat i)) l else l
  | Clear _ => []
  end.

Definition on_list_all (os : list (op V)) : list V := fold_left on_list os [].

(** Indices are unsigned. *)
Definition unsigned (o : op V) : Prop :=
  match o with Insert _ i _ | Delete _ i => 0 <= i | _ => True end.

(** Whether the heap holds exactly the list. *)
Definition holds (rs : Z) (h : heap V) (l : list V) : Prop :=
  size V h = count l /\ forall i, 0 <= i < count l -> get V rs h i = nth_error l (Z.to_nat i).

(** Deleting element [i] of [n] stays within the last row: the element after [i] is in the last row and not the
    first in it, and the row keeps an element (or was the only one). *)
Definition within_last_row (rs n i : Z) : Prop :=
  (i + 1) / rs = (n - 1) / rs /\ (i + 1) mod rs <> 0 /\ ((n - 1) mod rs <> 0 \/ n = 1).

(** A history whose deletions that do not throw all stay within the last row. *)
Fixpoint gentle (rs : Z) (l : list V) (os : list (op V)) : Prop :=
  match os with
  | [] => True
  | o :: r =>
    unsigned o /\
    match o with Delete _ i => i < count l -> within_last_row rs (count l) i | _ => True end /\
    gentle rs (on_list l o) r
  end.

(** A history without deletions. *)
Definition no_delete (os : list (op V)) : Prop :=
  Forall (fun o => unsigned o /\ match o with Delete _ _ => False | _ => True end) os.

End Spec.

(** ** Allocators *)

(** Blocks share no cell. *)
Definition separate (a b : blk) : Prop :=
  forall x, ~ (b_buf a = b_buf b /\ b_off a <= x < b_off a + b_size a /\ b_off b <= x < b_off b + b_size b).

(** The block lies in a buffer that exists; buffers are listed latest first and numbered from 0. *)
Definition inside (bufs : list Z) (b : blk) : Prop :=
  exists len, nth_error (rev bufs) (Z.to_nat (b_buf b)) = Some len /\ 0 <= b_buf b /\ 0 <= b_off b /\ b_off b + b_size b <= len.

(** Any two blocks of the list (different positions) are separate. *)
Definition all_separate (l : list blk) : Prop :=
  forall i j a b, i <> j -> nth_error l i = Some a -> nth_error l j = Some b -> separate a b.
