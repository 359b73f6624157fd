(* What the rules of a grammar say, and what a grammar must be like for its net
   to say the same.  Used by PropertiesGram.v.  From the model only the parts of
   grammars. *)
From Coq Require Import ZArith List Bool Relations.
From Verif Require Import NetModel GramModel.
Import ListNotations.
Local Open Scope nat_scope.

(* The alternatives of a rule. *)
Fixpoint body (R : grammar) (b : Z) : option alts :=
  match R with
  | [] => None
  | (b', a) :: R' => if Z.eqb b' b then Some a else body R' b
  end.

(* What one may ask the meaning of. *)
Inductive thing := TElem (e : elem) | TItem (e : elem) (r : rep) | TParts (s : parts) | TAlts (a : alts).

(* [says R t w]: w is one of the words t stands for.  A reference to a rule that
   is not in the grammar stands for an element that was made by another. *)
Inductive says (R : grammar) : thing -> list key -> Prop :=
| says_token v : says R (TElem (Tok v)) [KToken v]
| says_rule b a w : body R b = Some a -> says R (TAlts a) w -> says R (TElem (Ref b)) w
| says_foreign b : body R b = None -> says R (TElem (Ref b)) [KRef b]
| says_group a w : says R (TAlts a) w -> says R (TElem (Group a)) w
| says_once e r w : says R (TElem e) w -> says R (TItem e r) w
| says_none e r : r = Star \/ r = Question -> says R (TItem e r) []
| says_more e r w1 w2 : r = Star \/ r = Plus ->
    says R (TElem e) w1 -> says R (TItem e r) w2 -> says R (TItem e r) (w1 ++ w2)
| says_done : says R (TParts Done) []
| says_then e r s w1 w2 : says R (TItem e r) w1 -> says R (TParts s) w2 ->
    says R (TParts (Then e r s)) (w1 ++ w2)
| says_this s a w : says R (TParts s) w -> says R (TAlts (Or s a)) w
| says_other s a w : says R (TAlts a) w -> says R (TAlts (Or s a)) w.

(* Something can be empty. *)
Definition empty (R : grammar) (t : thing) : Prop := says R t [].

(* A word of elements that rules of the grammar do not make. *)
Definition elementary (R : grammar) (w : list key) : Prop :=
  forall b, In (KRef b) w -> body R b = None.

(* No alternative is without parts. *)
Fixpoint full_elem (e : elem) : Prop :=
  match e with Group a => full_alts a | _ => True end
with full_parts (s : parts) : Prop :=
  match s with Done => True | Then e _ s' => full_elem e /\ full_parts s' end
with full_alts (a : alts) : Prop :=
  match a with NoMore => True | Or s a' => s <> Done /\ full_parts s /\ full_alts a' end.

(* A symbol occurs. *)
Fixpoint occurs_elem (k : key) (e : elem) : Prop :=
  match e with
  | Tok v => k = KToken v
  | Ref b => k = KRef b
  | Group a => occurs_alts k a
  end
with occurs_parts (k : key) (s : parts) : Prop :=
  match s with Done => False | Then e _ s' => occurs_elem k e \/ occurs_parts k s' end
with occurs_alts (k : key) (a : alts) : Prop :=
  match a with NoMore => False | Or s a' => occurs_parts k s \/ occurs_alts k a' end.

(* Rule b mentions rule c; leads to it through others. *)
Definition mentions (R : grammar) (b c : Z) : Prop :=
  exists a, body R b = Some a /\ occurs_alts (KRef c) a.
Definition leads (R : grammar) : Z -> Z -> Prop := clos_trans Z (mentions R).

(* Every alternative begins with a token or a reference that cannot be empty. *)
Fixpoint firm (R : grammar) (a : alts) : Prop :=
  match a with
  | NoMore => True
  | Or s a' =>
      match s with
      | Done => True
      | Then (Group _) _ _ => False
      | Then e r _ => ~ empty R (TItem e r)
      end /\ firm R a'
  end.

(* The symbol k occurs in a place at which t may begin. *)
Inductive begins_with (R : grammar) (k : key) : thing -> Prop :=
| begin_token v : k = KToken v -> begins_with R k (TElem (Tok v))
| begin_ref b : k = KRef b -> begins_with R k (TElem (Ref b))
| begin_group a : begins_with R k (TAlts a) -> begins_with R k (TElem (Group a))
| begin_item e r : begins_with R k (TElem e) -> begins_with R k (TItem e r)
| begin_first e r s : begins_with R k (TItem e r) -> begins_with R k (TParts (Then e r s))
| begin_rest e r s : empty R (TItem e r) -> begins_with R k (TParts s) ->
    begins_with R k (TParts (Then e r s))
| begin_this s a : begins_with R k (TParts s) -> begins_with R k (TAlts (Or s a))
| begin_other s a : begins_with R k (TAlts a) -> begins_with R k (TAlts (Or s a)).

(* The symbol k occurs in a place at which t may begin, and which may also be
   reached later: inside a repeated part, or after parts that can be empty. *)
Inductive begins_again (R : grammar) (k : key) : thing -> Prop :=
| again_group a : begins_again R k (TAlts a) -> begins_again R k (TElem (Group a))
| again_item e r : begins_again R k (TElem e) -> begins_again R k (TItem e r)
| again_loop e r : r = Star \/ r = Plus -> begins_with R k (TElem e) -> begins_again R k (TItem e r)
| again_first e r s : begins_again R k (TItem e r) -> begins_again R k (TParts (Then e r s))
| again_rest e r s : empty R (TItem e r) -> begins_with R k (TParts s) ->
    begins_again R k (TParts (Then e r s))
| again_this s a : begins_again R k (TParts s) -> begins_again R k (TAlts (Or s a))
| again_other s a : begins_again R k (TAlts a) -> begins_again R k (TAlts (Or s a)).

(* The symbol k occurs in a place at which t cannot begin. *)
Inductive occurs_later (R : grammar) (k : key) : thing -> Prop :=
| later_group a : occurs_later R k (TAlts a) -> occurs_later R k (TElem (Group a))
| later_item e r : occurs_later R k (TElem e) -> occurs_later R k (TItem e r)
| later_first e r s : occurs_later R k (TItem e r) -> occurs_later R k (TParts (Then e r s))
| later_after e r s : ~ empty R (TItem e r) -> occurs_parts k s ->
    occurs_later R k (TParts (Then e r s))
| later_rest e r s : occurs_later R k (TParts s) -> occurs_later R k (TParts (Then e r s))
| later_this s a : occurs_later R k (TParts s) -> occurs_later R k (TAlts (Or s a))
| later_other s a : occurs_later R k (TAlts a) -> occurs_later R k (TAlts (Or s a)).

(* A well made grammar: rules have different names and no empty alternatives; a
   rule that leads back to itself begins firmly; and a symbol a rule may begin
   with, in a place that may be reached later too, occurs in that rule only
   where it may begin. *)
Record well_made (R : grammar) : Prop := WellMade {
  wm_names : NoDup (map fst R);
  wm_full : forall b a, body R b = Some a -> full_alts a;
  wm_firm : forall b a, body R b = Some a -> leads R b b -> firm R a;
  wm_begin : forall b a k, body R b = Some a ->
    begins_again R k (TAlts a) -> ~ occurs_later R k (TAlts a)
}.
