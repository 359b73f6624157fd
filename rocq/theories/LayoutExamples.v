(** Sorts for the layout theorems, concrete layouts, and the cases where layouts go wrong. *)

From Coq Require Import ZArith List Bool Lia Permutation Sorting.Sorted.
Import ListNotations.
From Verif Require Import CppInt ArrayModel LayoutModel LayoutSpec LayoutProofs.
Open Scope Z_scope.

(** ** Sorts that exist *)

Section Insertion.
Variable A : Type.
Variable leb : A -> A -> bool.

Fixpoint insert (x : A) (l : list A) : list A :=
  match l with [] => [x] | y :: t => if leb x y then x :: l else y :: insert x t end.
Definition isort (l : list A) : list A := fold_right insert [] l.

Lemma insert_perm : forall x l, Permutation (x :: l) (insert x l).
Proof.
  intros x l. induction l as [|y l IH]; [apply Permutation_refl|]. cbn [insert]. destruct (leb x y); [apply Permutation_refl|].
  eapply perm_trans; [apply perm_swap|]. apply perm_skip. exact IH.
Qed.

Lemma isort_perm : forall l, Permutation l (isort l).
Proof. induction l as [|x l IH]; [constructor|]. eapply perm_trans; [apply perm_skip; exact IH|apply insert_perm]. Qed.

Variable le : A -> A -> Prop.
Hypothesis leb_le : forall x y, leb x y = true -> le x y.
Hypothesis leb_not : forall x y, leb x y = false -> le y x.
Hypothesis le_trans : forall x y z, le x y -> le y z -> le x z.

Lemma insert_sorted : forall x l, StronglySorted le l -> StronglySorted le (insert x l).
Proof.
  intros x l S. induction S as [|y l S IH F]; [repeat constructor|]. cbn [insert]. destruct (leb x y) eqn:E.
  - constructor; [constructor; assumption|]. constructor; [apply leb_le; exact E|].
    eapply Forall_impl; [|exact F]. intros z Z. eapply le_trans; [apply leb_le; exact E|exact Z].
  - constructor; [exact IH|]. apply Forall_forall. intros z I.
    apply (Permutation_in (l' := x :: l)) in I; [|symmetry; apply insert_perm]. destruct I as [->|I]; [apply leb_not; exact E|].
    rewrite Forall_forall in F. apply F. exact I.
Qed.

Lemma isort_sorted : forall l, StronglySorted le (isort l).
Proof. induction l as [|x l IH]; [constructor|]. apply insert_sorted. exact IH. Qed.
End Insertion.

Definition sort_down : list (nat * Z) -> list (nat * Z) := isort _ (fun a b => snd b <=? snd a).

Lemma sort_down_ok : sorts_down sort_down.
Proof.
  intro l. split; [apply isort_perm|]. apply isort_sorted.
  - intros x y E. apply Z.leb_le in E. exact E.
  - intros x y E. apply Z.leb_gt in E. lia.
  - intros x y z. lia.
Qed.

Definition field_leb (a b : nat * field) : bool :=
  let ra := kind_rank (f_kind (snd a)) in let rb := kind_rank (f_kind (snd b)) in
  (ra <? rb) || ((ra =? rb) && (f_size (snd a) <=? f_size (snd b))).

Definition sort_fields : list (nat * field) -> list (nat * field) := isort _ field_leb.

Lemma kind_rank_inj : forall a b, kind_rank a = kind_rank b -> a = b.
Proof. intros [] []; cbn; intro H; try reflexivity; discriminate. Qed.

Lemma sort_fields_ok : sorts_fields sort_fields.
Proof.
  intro l. split; [apply isort_perm|]. apply isort_sorted.
  - intros x y E. unfold field_leb in E. unfold field_le. apply orb_true_iff in E. destruct E as [E|E].
    + apply Z.ltb_lt in E. left. exact E.
    + apply andb_true_iff in E. destruct E as [E1 E2]. apply Z.eqb_eq in E1. apply Z.leb_le in E2. right. split; [apply kind_rank_inj; exact E1|exact E2].
  - intros x y E. unfold field_leb in E. unfold field_le. apply orb_false_iff in E. destruct E as [E1 E2]. apply Z.ltb_ge in E1.
    apply andb_false_iff in E2. destruct E2 as [E2|E2].
    + apply Z.eqb_neq in E2. left. lia.
    + apply Z.leb_gt in E2. destruct (Z.eq_dec (kind_rank (f_kind (snd y))) (kind_rank (f_kind (snd x)))) as [X|X]; [|left; lia].
      right. split; [apply kind_rank_inj; exact X|lia].
  - intros x y z [H1|[H1 H2]] [H3|[H3 H4]]; unfold field_le.
    + left. lia.
    + left. rewrite <- H3. exact H1.
    + left. rewrite H1. exact H3.
    + right. split; [congruence|lia].
Qed.

(** ** Local variables *)

(** [{ int a; { byte b; string s; } { double d; short e; } string t; }] *)
Definition ex_block : block :=
  BVar 4 KValue
    (BBlock (BVar 1 KValue (BVar 8 KRef BNil))
      (BBlock (BVar 8 KValue (BVar 2 KValue BNil))
        (BVar 8 KRef BNil))).

Example ex_block_hyp :
  Forall (fun x => 0 <= fst x /\ snd x <> KMix) (declared ex_block) /\ room (declared ex_block) <= 65528 /\
  exists la, layout_of sort_down (number 0 ex_block) = Done la /\ live_together ex_block 0 2 /\ ~ live_together ex_block 1 3.
Proof.
  split; [repeat constructor; cbn; try lia; discriminate|]. split; [cbn; lia|].
  eexists. split; [vm_compute; reflexivity|]. split.
  - left. exists [1%nat; 0%nat]. split; [reflexivity|cbn; auto].
  - intros [(l & E & I)|(l & E & I)]; cbn in E; inversion E; subst; cbn in I; intuition discriminate.
Qed.

(** One kind only: [{ int a; { double b; } { byte c; short d; } }] *)
Definition ex_values : block :=
  BVar 4 KValue (BBlock (BVar 8 KValue BNil) (BBlock (BVar 1 KValue (BVar 2 KValue BNil)) BNil)).

Example ex_values_hyp : Forall (fun x => snd x = KValue) (declared ex_values) /\ length (declared ex_values) = 4%nat.
Proof. split; [repeat constructor|reflexivity]. Qed.

(** Locals that mix references with other data: [{ S16 a; { S9 b; } { S16 c; } }], where
    [S16] has a string and a long, [S9] a string and a byte. *)
Definition bad_mixture : block :=
  BVar 16 KMix (BBlock (BVar 9 KMix BNil) (BBlock (BVar 16 KMix BNil) BNil)).

(** References and numbers, the shape whose sort range is reversed:
    [{ { short a; long b; } string c; string d; { string e; short f; } { long g; string h; } }] *)
Definition bad_range : block :=
  BBlock (BVar 2 KValue (BVar 8 KValue BNil))
  (BVar 8 KRef (BVar 8 KRef
    (BBlock (BVar 8 KRef (BVar 2 KValue BNil))
    (BBlock (BVar 8 KValue (BVar 8 KRef BNil)) BNil)))).

(** Three locals of 65528, 8 and 8 bytes. *)
Definition bad_big : block := BVar 65528 KValue (BVar 8 KValue (BVar 8 KValue BNil)).

(** Three locals of 4, 3 and 2 bytes. *)
Definition bad_aligned : block := BVar 4 KValue (BVar 3 KValue (BVar 2 KValue BNil)).

(** The offset of local [b] is past the frame, and [c] is on top of [a]. *)
Lemma mixture_wrong : exists la, layout_of sort_down (number 0 bad_mixture) = Done la /\
  (exists o, nth_error (offset_of la) 1 = Some (Some o) /\ 8 * units la <= o) /\
  live_together bad_mixture 0 2 /\ nth_error (offset_of la) 0 = nth_error (offset_of la) 2.
Proof.
  eexists. split; [vm_compute; reflexivity|]. split; [exists 16; split; [reflexivity|cbn; lia]|].
  split; [|reflexivity]. left. exists [0%nat]. split; [reflexivity|cbn; auto].
Qed.

Lemma range_wrong : layout_of sort_down (number 0 bad_range) = Undef.
Proof. vm_compute. reflexivity. Qed.

Lemma big_wrong : exists la, layout_of sort_down (number 0 bad_big) = Done la /\
  live_together bad_big 0 2 /\ nth_error (offset_of la) 0 = nth_error (offset_of la) 2.
Proof. eexists. split; [vm_compute; reflexivity|]. split; [|reflexivity]. left. exists [1%nat; 0%nat]. split; [reflexivity|cbn; auto]. Qed.

Lemma aligned_wrong : exists la, layout_of sort_down (number 0 bad_aligned) = Done la /\ nth_error (offset_of la) 2 = Some (Some 7).
Proof. eexists. split; [vm_compute; reflexivity|reflexivity]. Qed.

(** What C35 would say without restrictions. *)
Lemma frames_refuted :
  ~ (forall sort b, sorts_down sort -> Forall (fun x => 0 <= fst x) (declared b) ->
       exists la, layout_of sort (number 0 b) = Done la) /\
  ~ (forall sort b la, sorts_down sort -> Forall (fun x => 0 <= fst x) (declared b) -> room (declared b) <= 65528 ->
       layout_of sort (number 0 b) = Done la -> frame_ok b la) /\
  ~ (forall sort b la, sorts_down sort -> Forall (fun x => 0 <= fst x /\ snd x <> KMix) (declared b) ->
       layout_of sort (number 0 b) = Done la -> frame_ok b la).
Proof.
  split; [|split]; intro H.
  - destruct (H sort_down bad_range sort_down_ok) as (la & E); [repeat constructor; cbn; lia|]. rewrite range_wrong in E. discriminate.
  - destruct mixture_wrong as (la & E & (o & O & B) & _).
    destruct (H sort_down bad_mixture la sort_down_ok) as [F _]; [repeat constructor; cbn; lia|cbn; lia|exact E|].
    destruct (F 1%nat 9 KMix eq_refl) as (o' & O' & B1 & B2). rewrite O in O'. inversion O'; subst. lia.
  - destruct big_wrong as (la & E & LT & Q).
    destruct (H sort_down bad_big la sort_down_ok) as [F G]; [repeat constructor; cbn; try lia; discriminate|exact E|].
    destruct (F 0%nat 65528 KValue eq_refl) as (o & O & _ & _).
    assert (O2 : nth_error (offset_of la) 2 = Some (Some o)) by (rewrite <- Q; exact O).
    refine (G 0%nat 2%nat 65528 KValue 8 KValue o o _ LT eq_refl eq_refl O O2 o _); [discriminate|lia].
Qed.

Lemma locals_alignment_refuted :
  ~ (forall sort b la i s k o, sorts_down sort -> Forall (fun x => 0 <= fst x /\ snd x <> KMix) (declared b) ->
       layout_of sort (number 0 b) = Done la -> nth_error (declared b) i = Some (s, k) ->
       nth_error (offset_of la) i = Some (Some o) -> o mod alignment s = 0).
Proof.
  intro H. destruct aligned_wrong as (la & E & O).
  specialize (H sort_down bad_aligned la 2%nat 2 KValue 7 sort_down_ok).
  assert (X : 7 mod alignment 2 = 0); [|discriminate]. apply H; [repeat constructor; cbn; try lia; discriminate|exact E|reflexivity|exact O].
Qed.

(** ** Parameters *)

(** [this], an int, a 20-byte struct and variable parameters. *)
Definition ex_params : list param := [PAddr; PValue 4; PValue 20; PExtends 8].

Example ex_params_hyp : Forall param_valid ex_params /\ pushed_all ex_params < 65535 /\
  param_address (params_layout ex_params) 100 2 = Some 93 /\ param_address (params_layout ex_params) 100 4 = Some 97 /\
  param_address (params_layout ex_params) 100 5 = None.
Proof. split; [repeat constructor; cbn; lia|]. split; [cbn; lia|]. repeat split. Qed.

(** [this] and an int before the variable parameters: the address is one unit off. *)
Lemma extends_refuted :
  ~ (forall ps lp k s, Forall param_valid ps -> pushed_all ps < 65535 -> nth_error ps k = Some (PExtends s) ->
       param_address (params_layout ps) lp k = Some (extends_address (params_layout ps) lp)).
Proof.
  intro H. specialize (H [PAddr; PValue 4; PExtends 8] 100 2%nat 8).
  assert (X : Some 96 = Some 95); [|discriminate].
  apply H; [repeat constructor; cbn; lia|cbn; lia|reflexivity].
Qed.

(** ** Fields *)

(** [{ byte a; string s; int b; S16 c; short d; }] over a 12-byte base class. *)
Definition ex_fields : list field :=
  [Field KValue 1; Field KRef 8; Field KValue 4; Field KMix 16; Field KValue 2].

Example ex_fields_hyp : Forall field_valid ex_fields /\ 12 + fields_room ex_fields < 65536 /\
  type_layout sort_fields 12 ex_fields = (48, [(1%nat, 16); (0%nat, 24); (4%nat, 26); (2%nat, 28); (3%nat, 32)]).
Proof. split; [repeat constructor; cbn; lia|]. split; [cbn; lia|]. vm_compute. reflexivity. Qed.

(** A tuple (byte, struct of 11 bytes, string). *)
Definition ex_tuple : list field := [Field KValue 1; Field KValue 11; Field KRef 8].

Example ex_tuple_hyp : Forall field_valid ex_tuple /\ fields_room ex_tuple < 65528 /\
  type_layout sort_fields 0 ex_tuple = (27, [(2%nat, 0); (0%nat, 8); (1%nat, 16)]).
Proof. split; [repeat constructor; cbn; lia|]. split; [cbn; lia|]. vm_compute. reflexivity. Qed.

(** A single store does write bytes it was not asked to: storing 3 bytes changes a fourth. *)
Lemma store_refuted :
  ~ (forall m dst from src n m', 0 <= n -> set_variable_value m dst from src n = Some m' ->
       forall a, ~ (dst <= a < dst + n) -> m' a = m a).
Proof.
  intro H. specialize (H (fun _ => 0) 0 (fun _ => 1) 0 3 _ ltac:(lia) eq_refl 3 ltac:(lia)). discriminate.
Qed.
