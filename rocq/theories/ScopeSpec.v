(** The scoping rules of the language, on the text of a method alone. *)
From Coq Require Import List ZArith Bool Arith.
Import ListNotations.
From Verif Require Import ScopeModel LayoutModel.
Open Scope nat_scope.

(** How many locals a body declares. *)
Fixpoint count (b : body) : nat :=
  match b with
  | End => 0
  | Use _ rest | Temps _ rest => count rest
  | Declare _ rest => S (count rest)
  | Block inner rest | Nested inner rest | For inner rest => count inner + count rest
  | Catch _ inner rest => S (count inner + count rest)
  end.

(** What a block declares itself, not inside the blocks in it: names and numbers
    of the locals; [n] is the number of the next local in the text. *)
Fixpoint own (n : nat) (b : body) : list (name * decl) :=
  match b with
  | End => []
  | Use _ rest | Temps _ rest => own n rest
  | Declare x rest => (x, DLocal n) :: own (S n) rest
  | Block inner rest | For inner rest => own (n + count inner) rest
  | Nested inner rest => own n inner ++ own (n + count inner) rest
  | Catch _ inner rest => own (S (n + count inner)) rest
  end.

Definition own_sites (n : nat) (b : body) : list nat :=
  map (fun p => match snd p with DLocal s => s | _ => 0 end) (own n b).

(** A scope lists what it declares; the innermost scope is the first. *)
Definition scope := list (name * (vkind * decl)).

Definition local_scope (l : list (name * decl)) : scope :=
  map (fun p => (fst p, (VLocal, snd p))) l.

(** [x] means [v]: a scope declares it so and no scope further in declares it. *)
Inductive means : list scope -> name -> vkind * decl -> Prop :=
| means_here s outer x v before after :
    s = before ++ (x, v) :: after -> (forall w, ~ In (x, w) before) -> means (s :: outer) x v
| means_outer s outer x v :
    (forall w, ~ In (x, w) s) -> means outer x v -> means (s :: outer) x v.

(** The meaning of a use: a variable, else a type, else nothing. *)
Definition meaning (types_named : name -> bool) (scopes : list scope) (x : name) (m : resolved) : Prop :=
  match m with
  | Found k d => means scopes x (k, d)
  | TypeName => (forall v, ~ means scopes x v) /\ types_named x = true
  | Undefined => (forall v, ~ means scopes x v) /\ types_named x = false
  end.

(** Every use in the body with the scopes around it, in the order of the text. *)
Fixpoint uses (scopes : list scope) (n : nat) (b : body) : list (name * list scope) :=
  match b with
  | End => []
  | Use x rest => (x, scopes) :: uses scopes n rest
  | Temps _ rest => uses scopes n rest
  | Declare _ rest => uses scopes (S n) rest
  | Block inner rest | For inner rest =>
      uses (local_scope (own n inner) :: scopes) n inner ++ uses scopes (n + count inner) rest
  | Nested inner rest => uses scopes n inner ++ uses scopes (n + count inner) rest
  | Catch x inner rest =>
      uses (local_scope ((x, DLocal n) :: own (S n) inner) :: scopes) (S n) inner ++
      uses scopes (S (n + count inner)) rest
  end.

(** The scopes of the types around the method and of the method itself: its
    parameters and the locals of its body are in one scope. *)
Fixpoint member_scope (level pos : nat) (ms : list (vkind * name)) : scope :=
  match ms with
  | [] => []
  | (k, x) :: more => (x, (k, DMember level pos)) :: member_scope level (S pos) more
  end.

Fixpoint type_scopes (level : nat) (types : list (list (vkind * name))) : list scope :=
  match types with
  | [] => []
  | ms :: outer => member_scope level 0 ms :: type_scopes (S level) outer
  end.

Fixpoint param_scope (pos : nat) (ps : list name) : scope :=
  match ps with
  | [] => []
  | x :: more => (x, (VParam, DParam pos)) :: param_scope (S pos) more
  end.

Definition method_scope (params : list name) (b : body) : scope :=
  local_scope (own 0 b) ++ param_scope 0 params.

(** No name is declared twice in one scope, but for methods of one type. *)
Fixpoint unambiguous (b : body) : Prop :=
  match b with
  | End => True
  | Use _ rest | Temps _ rest | Declare _ rest => unambiguous rest
  | Block inner rest | For inner rest =>
      NoDup (map fst (own 0 inner)) /\ unambiguous inner /\ unambiguous rest
  | Nested inner rest => unambiguous inner /\ unambiguous rest
  | Catch x inner rest =>
      NoDup (x :: map fst (own 0 inner)) /\ unambiguous inner /\ unambiguous rest
  end.

Definition members_apart (ms : list (vkind * name)) : Prop :=
  forall i j k x k' , i <> j -> nth_error ms i = Some (k, x) -> nth_error ms j = Some (k', x) ->
    k = VMethod /\ k' = VMethod.

Definition well_named (types : list (list (vkind * name))) (params : list name) (b : body) : Prop :=
  Forall members_apart types /\ NoDup (map fst (own 0 b) ++ params) /\ unambiguous b.

(** The members of a type are fields, properties and methods. *)
Definition are_members (types : list (list (vkind * name))) : Prop :=
  Forall (Forall (fun m => fst m = VField \/ fst m = VProperty \/ fst m = VMethod)) types.

(** ** Locals *)

(** For every local, in the order of the text, the locals in scope where it is
    declared.  [sc] are in scope before the body, [n] is the number of the next. *)
Fixpoint in_scope (sc : list nat) (n : nat) (b : body) : list (list nat) :=
  match b with
  | End => []
  | Use _ rest | Temps _ rest => in_scope sc n rest
  | Declare _ rest => sc :: in_scope (n :: sc) (S n) rest
  | Block inner rest | For inner rest => in_scope sc n inner ++ in_scope sc (n + count inner) rest
  | Nested inner rest =>
      in_scope sc n inner ++ in_scope (own_sites n inner ++ sc) (n + count inner) rest
  | Catch _ inner rest =>
      sc :: in_scope (n :: sc) (S n) inner ++ in_scope sc (S (n + count inner)) rest
  end.

(** The names of the temporaries: [k] for each expression that needs [k]. *)
Fixpoint temp_decls (e : nat) (ks : list nat) : list decl :=
  match ks with
  | [] => []
  | k :: more => map (DTemp e) (seq 0 k) ++ temp_decls (S e) more
  end.

(** The body as the layout of locals sees it: [sz] gives size and kind of a
    local by its number. *)
Fixpoint frame (sz : nat -> Z * kind) (n : nat) (b : body) (after : block) : block :=
  match b with
  | End => after
  | Use _ rest | Temps _ rest => frame sz n rest after
  | Declare _ rest => BVar (fst (sz n)) (snd (sz n)) (frame sz (S n) rest after)
  | Block inner rest | For inner rest =>
      BBlock (frame sz n inner BNil) (frame sz (n + count inner) rest after)
  | Nested inner rest => frame sz n inner (frame sz (n + count inner) rest after)
  | Catch _ inner rest =>
      BBlock (BVar (fst (sz n)) (snd (sz n)) (frame sz (S n) inner BNil))
             (frame sz (S (n + count inner)) rest after)
  end.

(** How many temporaries the body needs. *)
Fixpoint temps_in (b : body) : nat :=
  match b with
  | End => 0
  | Use _ rest | Declare _ rest => temps_in rest
  | Temps k rest => k + temps_in rest
  | Block inner rest | For inner rest | Nested inner rest | Catch _ inner rest =>
      temps_in inner + temps_in rest
  end.

(** For every expression with temporaries: their number and the locals declared
    before it in the blocks around it.  [sc] is what is in scope before [b]. *)
Fixpoint live (sc : list nat) (n : nat) (b : body) : list (nat * list nat) :=
  match b with
  | End => []
  | Use _ rest => live sc n rest
  | Temps k rest => (k, sc) :: live sc n rest
  | Declare _ rest => live (n :: sc) (S n) rest
  | Block inner rest | For inner rest => live sc n inner ++ live sc (n + count inner) rest
  | Nested inner rest =>
      live sc n inner ++
      live (own_sites n inner ++ sc) (n + count inner) rest
  | Catch _ inner rest =>
      live (n :: sc) (S n) inner ++ live sc (S (n + count inner)) rest
  end.

(** Bodies in which a statement group occurs only as the body of a statement,
    as its last part, and every for with a definition and every catch has one. *)
Inductive place : Type := InGroup | InHeader | InForHeader.

Fixpoint tidy (p : place) (b : body) : Prop :=
  match b with
  | End => p = InGroup
  | Use _ rest | Temps _ rest => tidy p rest
  | Declare _ rest => p <> InHeader /\ tidy p rest
  | Block inner rest => p <> InGroup /\ rest = End /\ tidy InGroup inner
  | Nested inner rest =>
      p = InGroup /\ (tidy InGroup inner \/ tidy InHeader inner) /\ tidy InGroup rest
  | For inner rest => p = InGroup /\ tidy InForHeader inner /\ tidy InGroup rest
  | Catch _ inner rest => p = InGroup /\ tidy InHeader inner /\ tidy InGroup rest
  end.
