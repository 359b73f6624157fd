(** Proofs about what is added to a declared type. *)
From Coq Require Import List Bool Arith Lia.
From Verif Require Import ModiModel DfltModel DfltSpec.
Import ListNotations.

Lemma enum_complaints t f : snd (enum_field t f) = [] <-> bare f.
Proof.
  unfold enum_field, bare. cbn [snd]. destruct (f_type f) as [x|], (f_dec f) as [d|]; cbn [app]; split; intros H;
    try discriminate H; try (destruct H; discriminate); try (now split); try reflexivity.
  exfalso. destruct d as [a s se ov vi ab ne co re ex]. unfold is_default in H.
  cbn [d_access d_static d_sealed d_override d_virtual d_abstract d_new d_const d_readonly d_extern] in H.
  destruct s; cbn [negb orb] in H; [|destruct (_ && _) in H; discriminate H].
  rewrite andb_false_r in H. discriminate H.
Qed.

Lemma flat_nil {A B} (g : A -> list B) l : flat_map g l = [] <-> forall x, In x l -> g x = [].
Proof.
  induction l as [|x l IH]; cbn [flat_map].
  - split; [intros _ y [] | reflexivity].
  - split.
    + intros H. apply app_eq_nil in H as [H K]. intros y [<-|Y]; [exact H | now apply IH].
    + intros H. rewrite (H x (or_introl eq_refl)). apply IH. intros y Y. apply H. now right.
Qed.

Lemma enum_accepted t : t_kind t = Enum ->
  (snd (walk t) = [] <-> forall f, In f (t_fields t) -> bare f).
Proof.
  intros K. unfold walk, walk_fields, walk_methods. rewrite K. cbn [snd fst]. rewrite app_nil_r, flat_nil.
  split; intros H f F; apply (enum_complaints (t_id t)); now apply H.
Qed.

Lemma enum_types t f : t_kind t = Enum -> In f (t_fields (fst (walk t))) -> f_type f = Some (t_id t).
Proof.
  intros K. unfold walk, walk_fields. rewrite K. cbn [snd fst t_fields]. rewrite in_map_iff.
  intros (g & <- & _). reflexivity.
Qed.

Lemma enum_constants t f : t_kind t = Enum -> snd (walk t) = [] ->
  In f (t_fields (fst (walk t))) -> enum_constant (t_id t) f.
Proof.
  intros K W H. pose proof (proj1 (enum_accepted t K) W) as B. split; [now apply enum_types|].
  unfold walk, walk_fields in H. rewrite K in H. cbn [snd fst t_fields] in H. apply in_map_iff in H as (g & <- & G).
  destruct (B g G) as [_ D]. cbn [enum_field fst f_dec]. rewrite D. exists enum_decorate. repeat split.
Qed.

Lemma names_kept t : map f_name (t_fields (fst (walk t))) = map f_name (t_fields t).
Proof.
  unfold walk, walk_fields. destruct (t_kind t); cbn [fst t_fields]; rewrite map_map; apply map_ext; intros f;
    try reflexivity; unfold const_static; destruct (f_dec f) as [[]|]; reflexivity.
Qed.

Lemma const_same f : same_but_static f (const_static f).
Proof.
  unfold same_but_static, const_static. destruct (f_dec f) as [[a s se ov vi ab ne co re ex]|] eqn:E.
  - cbn [f_name f_type f_dec]. repeat split; cbn; intros ->; reflexivity.
  - rewrite E. repeat split.
Qed.

Lemma other_fields t : t_kind t <> Enum -> Forall2 same_but_static (t_fields t) (t_fields (fst (walk t))).
Proof.
  intros K. unfold walk, walk_fields. destruct (t_kind t); try contradiction; cbn [fst t_fields];
    (induction (t_fields t) as [|f l IH]; constructor; [apply const_same | exact IH]).
Qed.

Lemma other_constants t : t_kind t <> Enum -> constants_static (fst (walk t)).
Proof.
  intros K f d F D C. unfold walk, walk_fields in F.
  assert (X : In f (map const_static (t_fields t))) by (destruct (t_kind t); try contradiction; exact F).
  apply in_map_iff in X as (g & <- & _). unfold const_static in D.
  destruct (f_dec g) as [[a s se ov vi ab ne co re ex]|] eqn:E.
  - cbn [f_dec] in D. injection D as <-. cbn in *. now rewrite C.
  - rewrite E in D. discriminate D.
Qed.

Lemma find_none_filter {A} (p : A -> bool) l : find p l = None -> filter p l = [].
Proof.
  induction l as [|x l IH]; cbn [find filter]; [reflexivity|]. destruct (p x); [discriminate | exact IH].
Qed.

Lemma class_constructors t : t_kind t = Class ->
  (constructors t = [] -> t_methods (fst (walk t)) = t_methods t ++ [default_constructor]) /\
  (constructors t <> [] -> t_methods (fst (walk t)) = t_methods t) /\ constructors (fst (walk t)) <> [].
Proof.
  intros K. unfold walk, walk_methods, constructors. rewrite K. cbn [fst t_methods].
  destruct (find c_constructor (t_methods t)) as [c|] eqn:F; cbn [fst].
  - assert (N : filter c_constructor (t_methods t) <> []).
    { apply find_some in F as [F1 F2]. intros E.
      assert (X : In c (filter c_constructor (t_methods t))) by (apply filter_In; now split). rewrite E in X. destruct X. }
    split; [intros E; contradiction|]. split; [reflexivity | exact N].
  - rewrite (find_none_filter _ _ F). split; [reflexivity|]. split; [intros H; now elim H|].
    rewrite filter_app. cbn. intros H. apply app_eq_nil in H as [_ H]. discriminate H.
Qed.

Lemma struct_walk t : t_kind t = Struct ->
  (t_methods (fst (walk t)) = t_methods t ++ [default_constructor] /\ ~ In NoDefaultConstructor (snd (walk t)) /\
     (forall c, hd_error (constructors t) = Some c -> 0 < c_params c)) \/
  (t_methods (fst (walk t)) = t_methods t /\ In NoDefaultConstructor (snd (walk t)) /\
     exists c, hd_error (constructors t) = Some c /\ c_params c = 0).
Proof.
  intros K. unfold walk, walk_methods, walk_fields, constructors. rewrite K. cbn [fst snd t_methods app].
  assert (H : forall l, find c_constructor l = hd_error (filter c_constructor l)).
  { induction l as [|x l IH]; [reflexivity|]. cbn [find filter]. destruct (c_constructor x); [reflexivity | exact IH]. }
  rewrite H. destruct (hd_error (filter c_constructor (t_methods t))) as [c|].
  - destruct (Nat.eqb_spec (c_params c) 0) as [E|E]; cbn [fst snd].
    + right. split; [reflexivity|]. split; [now left|]. exists c. now split.
    + left. split; [reflexivity|]. split; [intros []|]. intros c' [= <-]. lia.
  - left. cbn [fst snd]. split; [reflexivity|]. split; [intros []|]. intros c' [=].
Qed.

Lemma struct_one t : t_kind t = Struct -> snd (walk t) = [] ->
  (forall c, In c (tl (constructors t)) -> 0 < c_params c) ->
  filter parameterless (t_methods (fst (walk t))) = [default_constructor].
Proof.
  intros K W T. destruct (struct_walk t K) as [(M & _ & H)|(_ & H & _)].
  - rewrite M, filter_app. cbn [filter parameterless default_constructor c_constructor c_params andb Nat.eqb].
    assert (A : forall c, In c (constructors t) -> 0 < c_params c).
    { intros c C. destruct (constructors t) as [|d l]; [destruct C|]. destruct C as [<-|C]; [now apply H | now apply T]. }
    replace (filter parameterless (t_methods t)) with (@nil meth); [reflexivity|].
    symmetry. clear - A. unfold constructors in A. induction (t_methods t) as [|m l IH]; [reflexivity|].
    cbn [filter]. unfold parameterless at 1. cbn [filter] in A. destruct (c_constructor m); cbn [andb].
    + destruct (Nat.eqb_spec (c_params m) 0) as [E|E]; [specialize (A m (or_introl eq_refl)); lia|].
      apply IH. intros c C. apply A. now right.
    + apply IH. exact A.
  - rewrite W in H. destruct H.
Qed.

Lemma others_kept t : t_kind t = Interface \/ t_kind t = Enum -> t_methods (fst (walk t)) = t_methods t.
Proof. intros [K|K]; unfold walk, walk_methods; rewrite K; reflexivity. Qed.

Lemma class_accepted t : t_kind t = Class \/ t_kind t = Interface -> snd (walk t) = [].
Proof.
  intros [K|K]; unfold walk, walk_methods, walk_fields; rewrite K; cbn [snd app]; [|reflexivity].
  now destruct (find c_constructor (t_methods t)).
Qed.

Lemma not_default d : d <> mk_decorate Unspecified false false false false false false false false false ->
  is_default d = false.
Proof.
  intros H. destruct d as [a s se ov vi ab ne co re ex]. unfold is_default. cbn.
  destruct s, se, ov, vi, ab, ne, co, re, ex; try (destruct a; reflexivity).
  destruct a; try reflexivity. exfalso. apply H. reflexivity.
Qed.

Lemma modifiers_reported t f d : t_kind t = Enum -> In f (t_fields t) -> f_dec f = Some d ->
  d <> mk_decorate Unspecified false false false false false false false false false ->
  In (UnexpectedDecorate (f_name f)) (snd (walk t)).
Proof.
  intros K I E N. unfold walk, walk_fields. rewrite K. cbn [fst snd]. apply in_or_app. left.
  apply in_flat_map. exists f. split; [exact I|]. unfold enum_field. rewrite E, (not_default d N). cbn [snd].
  apply in_or_app. right. left. reflexivity.
Qed.
