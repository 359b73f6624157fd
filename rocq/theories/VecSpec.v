(** What a vector has to do. *)

From Coq Require Import ZArith List Bool.
Import ListNotations.
From Verif Require Import VecModel.
Open Scope Z_scope.

Section Spec.
Variable V : Type.

Definition len (l : list V) : Z := Z.of_nat (length l).

Fixpoint replace (l : list V) (i : nat) (x : V) : list V :=
  match l, i with
  | [], _ => []
  | _ :: r, O => x :: r
  | y :: r, S j => y :: replace r j x
  end.

(** The operations on a list; those that throw leave it as it is. *)
Definition on_list (l : list V) (o : op V) : list V :=
  match o with
  | Push _ x => l ++ [x]
  | PushOwn _ i => match nth_error l (Z.to_nat i) with Some x => l ++ [x] | None => l end
  | Insert _ vs i => if i <=? len l then firstn (Z.to_nat i) l ++ vs ++ skipn (Z.to_nat i) l else l
  | Truncate _ n => firstn (Z.to_nat n) l
  | Pop _ => removelast l
  | Clear _ => []
  | Set_ _ i x => replace l (Z.to_nat i) x
  | Copied _ | Moved _ => l
  end.

Definition on_list_all (os : list (op V)) : list V := fold_left on_list os [].

(** What callers have to observe: indices are unsigned, elements accessed exist, the length stays below 2^63, and no
    element of the vector itself is pushed. *)
Definition proper (l : list V) (o : op V) : Prop :=
  len (on_list l o) < 2 ^ 63 /\
  match o with
  | Insert _ _ i => 0 <= i
  | Truncate _ n => 0 <= n
  | Set_ _ i _ => 0 <= i < len l
  | PushOwn _ _ => False
  | _ => True
  end.

Fixpoint all_proper (l : list V) (os : list (op V)) : Prop :=
  match os with
  | [] => True
  | o :: r => proper l o /\ all_proper (on_list l o) r
  end.

(** The vector holds exactly the list. *)
Definition holds (init : Z) (v : vec V) (l : list V) : Prop :=
  count V v = len l /\ forall i, 0 <= i < len l -> get V init v i = nth_error l (Z.to_nat i).

End Spec.
