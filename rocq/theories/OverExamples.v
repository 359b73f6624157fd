(** A small program world for the conversion and overload theorems. *)
From Coq Require Import List Arith ZArith Bool Lia Relations.
From Verif Require Import OverModel OverSpec OverProofs OverChoiceProofs OverInferProofs OverMoreProofs.
Import ListNotations.

Definition Object := TGeneral 1.
Definition Animal := TGeneral 2.
Definition Dog := TGeneral 3.
Definition Runner := TGeneral 4.
Definition Int16 := TGeneral 10.
Definition Int32 := TGeneral 11.
Definition Int64 := TGeneral 12.
Definition Str := TGeneral 13.
Definition Boolean := TGeneral 14.
Definition List_of (t : ty) := TGeneric 20 [t].
Definition Dict_of (k v : ty) := TGeneric 21 [k; v].
Definition T0 := TParam 0.
Definition T1 := TParam 1.

(** Dog : Animal, Runner; Animal, Runner, the value types and every generic
    instance : Object. *)
Definition zoo : world := mk_world
  (fun t => match t with
            | TGeneral 1 => []
            | TGeneral 3 => [Animal; Runner]
            | TGeneral _ => [Object]
            | TGeneric _ _ => [Object]
            | _ => []
            end)
  (fun t => match t with
            | TGeneral 10 => VInt16
            | TGeneral 11 => VInt32
            | TGeneral 12 => VInt64
            | TGeneral 13 => VString
            | TGeneral 14 => VBool
            | TParam _ => VUnknown
            | _ => VMobject
            end).

Definition zoo_types : list ty :=
  [Object; Animal; Dog; Runner; Int16; Int32; Int64; Str; Boolean;
   List_of Int32; List_of Str; Dict_of Int32 Boolean; Dict_of Str Boolean].

Lemma zoo_hierarchy : hierarchy zoo zoo_types.
Proof.
  intros t s Ht Hs. unfold direct_super in Hs. unfold zoo_types in Ht. cbn [In] in Ht.
  repeat (destruct Ht as [<- | Ht];
          [cbv in Hs; repeat (destruct Hs as [<- | Hs]; [cbv; tauto|]); destruct Hs|]).
  destruct Ht.
Qed.

Definition by_value (t : ty) : param := mk_param PDefault t.
Definition value (t : ty) : arg := mk_arg PDefault (Some t).

(** Methods named 7. *)
Definition meth (id : nat) (gps : list nat) (ps : list param) : method :=
  mk_method id 7 gps ps None None.

Definition f_animal := meth 1 [] [by_value Animal].
Definition f_runner := meth 2 [] [by_value Runner].
Definition f_object := meth 3 [] [by_value Object].
Definition f_int64 := meth 4 [] [by_value Int64].
Definition f_int32 := meth 5 [] [by_value Int32].
Definition f_str_int := meth 6 [] [by_value Str; by_value Int32].

Lemma in_or_not (t : ty) (l : list ty) : ty_mem t l = true -> In t l.
Proof. apply ty_mem_in. Qed.

Lemma zoo_set ms as_ :
  forallb (fun m => forallb (fun p => ty_mem (p_type p) zoo_types) (m_params m)) ms = true ->
  forallb (fun a => match a_type a with Some t => ty_mem t zoo_types | None => true end) as_ = true ->
  well_set zoo zoo_types 20 7 ms as_.
Proof.
  intros H1 H2. split; [exact zoo_hierarchy|]. split; [cbn; lia|]. split.
  - intros a t Ha Et. rewrite forallb_forall in H2. specialize (H2 a Ha). rewrite Et in H2.
    now apply ty_mem_in.
  - intros m Hm _ p Hp. rewrite forallb_forall in H1. specialize (H1 m Hm). cbn beta in H1.
    rewrite forallb_forall in H1. now apply ty_mem_in, H1.
Qed.

Fixpoint closedb (t : ty) : bool :=
  match t with
  | TParam _ => false
  | TGeneric _ args =>
      (fix go (l : list ty) : bool := match l with [] => true | x :: l' => closedb x && go l' end) args
  | TArray e _ => closedb e
  | _ => true
  end.

Lemma closedb_closed t : closedb t = true -> closed t.
Proof.
  induction t as [|i|n|g args IH|e d IH] using ty_rect'; intros H.
  - constructor.
  - constructor.
  - discriminate H.
  - constructor. cbn [closedb] in H. revert H. induction IH as [|x l Hx _ IHl]; intros H; [constructor|].
    apply andb_true_iff in H. destruct H as (H1 & H2). constructor; [now apply Hx | now apply IHl].
  - constructor. now apply IH.
Qed.

Lemma zoo_plain ms :
  forallb (fun m => forallb (fun p => closedb (p_type p)) (m_params m) &&
                    match m_key_owner m with None => true | _ => false end &&
                    match m_owner m with None => true | _ => false end) ms = true ->
  plain_methods 7 ms.
Proof.
  intros H m Hm _ Hg. rewrite forallb_forall in H. specialize (H m Hm). cbn beta in H.
  apply andb_true_iff in H. destruct H as (H & Ho).
  apply andb_true_iff in H. destruct H as (Hp & Hk).
  split; [exact Hg|]. split.
  - rewrite forallb_forall in Hp. apply Forall_forall. intros p Hin. now apply closedb_closed, Hp.
  - split; [destruct (m_key_owner m); [discriminate Hk | reflexivity]
           |destruct (m_owner m); [discriminate Ho | reflexivity]].
Qed.

(** Deciding a comparison in the zoo. *)
Lemma zoo_converts a b :
  In a zoo_types ->
  (converts zoo a b <-> is_type_compatible zoo 20 a b = Some true).
Proof.
  intros Ha. destruct (type_compatible_spec zoo zoo_types 20 a b zoo_hierarchy Ha) as (r & E & Hr);
    [cbn; lia|].
  rewrite E. rewrite <- Hr. split; [intros ->; reflexivity | intros H; now injection H].
Qed.

(** f_animal and f_runner against a Dog. *)
Lemma dog_applies : applicable zoo [value Dog] f_animal /\ applicable zoo [value Dog] f_runner /\
  applicable zoo [value Dog] f_object.
Proof.
  assert (X : forall t, In Dog zoo_types -> is_type_compatible zoo 20 Dog t = Some true ->
              Forall2 (passes zoo) [by_value t] [value Dog]).
  { intros t Hin H. constructor; [|constructor]. split; [reflexivity|]. exists Dog.
    split; [reflexivity|]. right. cbn. now apply zoo_converts. }
  assert (Hin : In Dog zoo_types) by (apply in_or_not; reflexivity).
  split; [|split]; (apply X; [exact Hin | reflexivity]).
Qed.

Lemma not_exact_by_type m a :
  forallb (fun p => match a_type a with Some t => negb (ty_eqb (p_type p) t) | None => true end)
          (m_params m) = true ->
  ~ exact [a] m.
Proof.
  intros H F. unfold exact in F. inversion F as [|p ? ps ? (Hm & Ht) F' E1 E2]; subst.
  rewrite <- E1 in H. cbn [forallb] in H. rewrite Ht, ty_eqb_refl in H. discriminate H.
Qed.

(** Generic methods. *)
Definition g_id := meth 10 [0] [by_value T0].
Definition g_list := meth 11 [0] [by_value (List_of T0)].
Definition g_pair := meth 12 [0] [by_value T0; by_value T0].
Definition g_dict := meth 13 [0] [by_value (Dict_of Str T0)].
Definition g_int_any := meth 14 [0] [by_value Int32; by_value T0].
Definition g_empty := meth 15 [0] [].
Definition g_both := meth 16 [0; 1] [by_value (Dict_of T0 T1); by_value T0].

Lemma value_not_converts a b :
  In a zoo_types -> is_type_compatible zoo 20 a b <> Some true -> ~ converts zoo a b.
Proof. intros Hin H C. apply H. now apply zoo_converts. Qed.

(** A derived class and its base class for the same call. *)
Definition two_classes : classes := mk_classes
  (fun t => match t with
            | TGeneral 3 => [g_int_any]
            | TGeneral 2 => [f_str_int]
            | _ => []
            end)
  (fun t => match t with
            | TGeneral 3 => Some Animal
            | TGeneral 2 => Some Object
            | _ => None
            end).

(** An argument by value that does not convert is not passed. *)
Lemma value_not_passes t p :
  In t zoo_types -> p_mode p = PDefault -> is_type_compatible zoo 20 t (p_type p) <> Some true ->
  t <> p_type p -> ~ passes zoo p (value t).
Proof.
  intros Hin Hm Hc Hn (_ & u & E & X). injection E as <-. destruct X as [X | X]; [now apply Hn|].
  rewrite Hm in X. revert X. now apply value_not_converts.
Qed.
