(** Proofs about the checks of members. *)
From Coq Require Import List Bool Arith Lia.
From Verif Require Import ModiModel ModiSpec.
Import ListNotations.

(* ------------------------------------------------------------------ *)
(** * Names *)

Lemma kind_eqb_spec a b : reflect (a = b) (kind_eqb a b).
Proof. destruct a, b; constructor; congruence. Qed.

Lemma access_eqb_spec a b : reflect (a = b) (access_eqb a b).
Proof. destruct a, b; constructor; congruence. Qed.

Lemma private_spec m : is_private m = false <-> visible m.
Proof.
  unfold is_private, access_of, visible. destruct (d_access (m_dec m)); try (now split).
  destruct (m_in_interface m); now split.
Qed.

Lemma same_access_spec m x : same_access m x = true <-> equally_visible m x.
Proof.
  unfold same_access, access_of, equally_visible.
  match goal with |- access_eqb ?a ?b = true <-> _ => destruct (access_eqb_spec a b) as [E|E] end;
    split; intros H; auto; discriminate H || contradiction.
Qed.

Lemma overridable_spec m : overridable m = true <-> dispatched m.
Proof. unfold overridable, dispatched. rewrite !orb_true_iff. tauto. Qed.

Lemma overridable_false m : overridable m = false <-> ~ dispatched m.
Proof. rewrite <- overridable_spec. destruct (overridable m); split; congruence. Qed.

Lemma forallb_types : forall l k, length l = length k ->
  forallb (fun pq : (nat * nat) * (nat * nat) => fst (fst pq) =? fst (snd pq)) (combine l k) = true <->
  map fst l = map fst k.
Proof.
  induction l as [|p l IH]; intros [|q k] L; try discriminate L; [now split|].
  cbn [combine forallb map]. rewrite andb_true_iff. cbn [fst snd]. rewrite Nat.eqb_eq, IH by (now injection L).
  split; [intros [-> ->]; reflexivity | intros [= -> ->]; now split].
Qed.

Lemma forallb_params : forall l k, length l = length k ->
  forallb (fun pq : (nat * nat) * (nat * nat) =>
    (fst (fst pq) =? fst (snd pq)) && (snd (fst pq) =? snd (snd pq))) (combine l k) = true <-> l = k.
Proof.
  induction l as [|[a b] l IH]; intros [|[c d] k] L; try discriminate L; [now split|].
  cbn [combine forallb]. rewrite andb_true_iff. cbn [fst snd].
  rewrite andb_true_iff, !Nat.eqb_eq, IH by (now injection L).
  split; [intros [[-> ->] ->]; reflexivity | intros [= -> -> ->]; now repeat split].
Qed.

Lemma same_types_spec m x : same_types m x = true <->
  map fst (m_params m) = map fst (m_params x) /\ m_gparams m = m_gparams x.
Proof.
  unfold same_types. rewrite !andb_true_iff, !Nat.eqb_eq. split.
  - intros [[L G] F]. split; [now apply forallb_types | exact G].
  - intros [E G]. assert (L : length (m_params m) = length (m_params x)).
    { rewrite <- (map_length fst (m_params m)), E. apply map_length. }
    split; [now split | now apply forallb_types].
Qed.

Lemma same_params_spec m x : same_params m x = true <-> m_params m = m_params x.
Proof.
  unfold same_params. rewrite andb_true_iff, Nat.eqb_eq. split.
  - intros [L F]. now apply forallb_params.
  - intros E. split; [now rewrite E | apply forallb_params; [now rewrite E | exact E]].
Qed.

(* ------------------------------------------------------------------ *)
(** * Searching *)

Lemma named_in m k ms x : In x (named m k ms) <-> In x ms /\ m_kind x = k /\ m_key x = m_name m.
Proof.
  unfold named. rewrite filter_In, andb_true_iff, Nat.eqb_eq.
  destruct (kind_eqb_spec (m_kind x) k) as [E|E]; split; intros (H1 & H2 & H3);
    repeat split; auto; discriminate H2 || contradiction.
Qed.

Lemma search_some m f : forall ms x, search_member m f ms = Some x ->
  In x ms /\ f x = true /\ m_id x <> m_id m.
Proof.
  induction ms as [|y ms IH]; intros x; cbn [search_member]; [discriminate|].
  destruct (Nat.eqb_spec (m_id y) (m_id m)) as [E|E]; [discriminate|].
  destruct (f y) eqn:F.
  - intros [= <-]. split; [now left | now split].
  - intros H. destruct (IH x H) as (A & B & C). split; [now right | now split].
Qed.

Lemma search_none m f : forall ms, search_member m f ms = None ->
  (forall x, In x ms -> m_id x <> m_id m) -> forall x, In x ms -> f x = false.
Proof.
  induction ms as [|y ms IH]; cbn [search_member]; [intros _ _ x []|].
  destruct (Nat.eqb_spec (m_id y) (m_id m)) as [E|E].
  - intros _ H. now destruct (H y (or_introl eq_refl)).
  - destruct (f y) eqn:F; [discriminate|]. intros N H x [<-|Hx]; [exact F|].
    apply IH; auto. intros z Hz. apply H. now right.
Qed.

(** Before the member itself nothing is passed over. *)
Lemma search_before m f : forall ms x l r, search_member m f ms = None ->
  ms = l ++ x :: r -> (forall y, In y (l ++ [x]) -> m_id y <> m_id m) -> f x = false.
Proof.
  induction ms as [|y ms IH]; intros x l r N E H; [destruct l; discriminate E|].
  cbn [search_member] in N. destruct l as [|z l]; injection E as -> E.
  - destruct (Nat.eqb_spec (m_id x) (m_id m)) as [Q|Q].
    + now destruct (H x (or_introl eq_refl)).
    + destruct (f x); [discriminate N | reflexivity].
  - destruct (Nat.eqb_spec (m_id z) (m_id m)) as [Q|Q].
    + now destruct (H z (or_introl eq_refl)).
    + destruct (f z); [discriminate N|]. apply (IH x l r N E).
      intros w Hw. apply H. now right.
Qed.

(** The test used for the members of kind [k]. *)
Definition test (m : member) (k : kind) : member -> bool :=
  match m_kind m, k with
  | Method, Method => same_types m
  | Property, Property => same_params m
  | _, _ => any
  end.

Lemma find_clash_some m ms x : find_clash m ms = Some x ->
  In x ms /\ m_key x = m_name m /\ test m (m_kind x) x = true /\ m_id x <> m_id m.
Proof.
  assert (S1 : forall k f, search_member m f (named m k ms) = Some x -> f x = test m k x ->
    In x ms /\ m_key x = m_name m /\ test m (m_kind x) x = true /\ m_id x <> m_id m).
  { intros k f H F. destruct (search_some _ _ _ _ H) as (A & B & C). apply named_in in A.
    destruct A as (A & K & Q). rewrite K. rewrite F in B. now repeat split. }
  unfold find_clash, orelse. cbv zeta.
  destruct (search_member m any (named m Field ms)) eqn:E1.
  { intros [= ->]. apply (S1 Field any E1). unfold test. now destruct (m_kind m). }
  destruct (search_member m any (named m Event ms)) eqn:E2.
  { intros [= ->]. apply (S1 Event any E2). unfold test. now destruct (m_kind m). }
  destruct (search_member m any (named m Nested ms)) eqn:E3.
  { intros [= ->]. apply (S1 Nested any E3). unfold test. now destruct (m_kind m). }
  destruct (search_member m any (named m TypeDef ms)) eqn:E4.
  { intros [= ->]. apply (S1 TypeDef any E4). unfold test. now destruct (m_kind m). }
  clear E1 E2 E3 E4. destruct (m_kind m) eqn:K;
  match goal with
  | |- match ?a with _ => _ end = _ -> _ => destruct a eqn:E5
  end; try (intros [= ->]); try intros E6;
  (eapply S1; [eassumption | unfold test; rewrite K; reflexivity]).
Qed.

Lemma find_clash_none m ms : find_clash m ms = None ->
  forall k, search_member m (test m k) (named m k ms) = None.
Proof.
  unfold find_clash, orelse. cbv zeta.
  destruct (search_member m any (named m Field ms)) eqn:E1; [discriminate|].
  destruct (search_member m any (named m Event ms)) eqn:E2; [discriminate|].
  destruct (search_member m any (named m Nested ms)) eqn:E3; [discriminate|].
  destruct (search_member m any (named m TypeDef ms)) eqn:E4; [discriminate|].
  unfold test. destruct (m_kind m);
  match goal with |- match ?a with _ => _ end = _ -> _ => destruct a eqn:E5; [discriminate|] end;
  intros E6 k; destruct k; assumption.
Qed.

Lemma test_clash m x : m_name m = m_name x -> (test m (m_kind x) x = true <-> clash m x).
Proof.
  intros N. unfold test, clash.
  destruct (m_kind m) eqn:K, (m_kind x) eqn:L;
    try (split; [intros _; repeat split; (assumption || discriminate || (intros; discriminate)) | reflexivity]).
  - rewrite same_types_spec. split.
    + intros H. split; [exact N|]. split; [intros; exact H | intros; discriminate].
    + intros (_ & H & _). now apply H.
  - rewrite same_params_spec. split.
    + intros H. split; [exact N|]. split; [intros; discriminate | intros; exact H].
    + intros (_ & _ & H). now apply H.
Qed.

Lemma clash_sym m x : clash m x -> clash x m.
Proof.
  intros (A & B & C). split; [now symmetry|]. split.
  - intros K L. destruct (B L K). now split; symmetry.
  - intros K L. symmetry. now apply C.
Qed.

(** In a type the member is not in, with names in order, the search is exact. *)
Lemma foreign_some m t x : filed t -> find_clash m (t_members t) = Some x ->
  In x (t_members t) /\ clash m x.
Proof.
  intros F H. destruct (find_clash_some _ _ _ H) as (A & B & C & _). split; [exact A|].
  apply test_clash; [|exact C]. rewrite <- B. now apply F.
Qed.

Lemma foreign_none m t : filed t -> (forall x, In x (t_members t) -> m_id x <> m_id m) ->
  find_clash m (t_members t) = None -> forall x, In x (t_members t) -> ~ clash m x.
Proof.
  intros F I0 H x Hx C. assert (N : m_name m = m_name x) by apply C.
  pose proof (find_clash_none _ _ H (m_kind x)) as S1.
  assert (T : test m (m_kind x) x = false).
  { apply (search_none _ _ _ S1).
    - intros y Hy. apply named_in in Hy. now apply I0.
    - apply named_in. split; [exact Hx|]. split; [reflexivity|]. rewrite N. now apply F. }
  apply (test_clash m x N) in C. congruence.
Qed.

Lemma inherited_some m : forall chain x, Forall filed chain -> foreign m chain ->
  find_inherited m chain = Some x -> nearest chain m x.
Proof.
  induction chain as [|t ts IH]; intros x F I0; cbn [find_inherited]; [discriminate|].
  inversion F as [|? ? F1 F2]; subst. unfold orelse.
  destruct (find_clash m (t_members t)) as [y|] eqn:E.
  - intros [= <-]. destruct (foreign_some m t y F1 E) as [A B].
    exists [], t, ts. split; [reflexivity|]. split; [intros u z [] | now split].
  - intros H. destruct (IH x F2) as (before & u & after & -> & P & Q); [|exact H|].
    + intros u y Hu. apply (I0 u y). now right.
    + exists (t :: before), u, after. split; [reflexivity|]. split; [|exact Q].
      intros v y [<-|Hv] Hy; [|now apply (P v)].
      apply (foreign_none m t F1); auto. intros z Hz. apply (I0 t z); [now left | exact Hz].
Qed.

Lemma inherited_none m : forall chain, Forall filed chain -> foreign m chain ->
  find_inherited m chain = None -> forall x, ~ nearest chain m x.
Proof.
  induction chain as [|t ts IH]; intros F I0 H x (before & u & after & E & P & Q & C).
  { destruct before; discriminate E. }
  cbn [find_inherited] in H. unfold orelse in H. inversion F as [|? ? F1 F2]; subst.
  destruct (find_clash m (t_members t)) as [y|] eqn:G; [discriminate H|].
  destruct before as [|v before]; injection E as -> E.
  - apply (foreign_none m u F1 (fun z => I0 u z (or_introl eq_refl)) G x Q C).
  - apply (IH F2 (fun w z Hw => I0 w z (or_intror Hw)) H x).
    exists before, u, after. split; [exact E|]. split; [|now split].
    intros w z Hw. apply P. now right.
Qed.

Lemma nearest_in chain m x : nearest chain m x -> exists t, In t chain /\ In x (t_members t).
Proof.
  intros (b & t & a & -> & _ & H & _). exists t. split; [|exact H]. apply in_or_app. right. now left.
Qed.

Section InChain.
Variables (T : type) (chain : list type) (m : member).
Hypotheses (F : Forall filed chain) (I0 : foreign m chain) (A : above T chain).

Lemma base_some x : base_member T chain m = Some x -> nearest chain m x.
Proof.
  unfold base_member. destruct (find_inherited m chain) as [y|] eqn:E; [|discriminate].
  destruct (m_host y =? t_id T); [discriminate|]. intros [= <-]. now apply inherited_some.
Qed.

Lemma base_none : base_member T chain m = None -> forall x, ~ nearest chain m x.
Proof.
  unfold base_member. destruct (find_inherited m chain) as [y|] eqn:E.
  - apply inherited_some in E; auto. destruct (nearest_in _ _ _ E) as (t & Ht & Hy).
    destruct (Nat.eqb_spec (m_host y) (t_id T)) as [Q|Q]; [|discriminate].
    now destruct (A t y Ht Hy).
  - intros _. now apply inherited_none.
Qed.

End InChain.

(* ------------------------------------------------------------------ *)
(** * The rules *)

Ltac bools := repeat match goal with
  | H : _ || _ = false |- _ => apply orb_false_iff in H; destruct H
  | H : negb _ = false |- _ => apply negb_false_iff in H
  | H : negb _ = true |- _ => apply negb_true_iff in H
  end.

Lemma interface_exact m : check_interface m = None <-> interface_rules m.
Proof.
  unfold check_interface. cbv zeta. split.
  - destruct (kind_eqb_spec (m_kind m) Field) as [K|K]; [discriminate|].
    match goal with |- (if ?b then _ else _) = _ -> _ => destruct b eqn:M; [discriminate|] end.
    destruct (kind_eqb_spec (m_kind m) Method) as [KM|KM]; cbn [andb].
    + destruct (m_body m) eqn:B; [discriminate|]. intros _. bools.
      match goal with H : access_eqb _ _ = true |- _ => destruct (access_eqb_spec (d_access (m_dec m)) Unspecified) as [AE|]; [|discriminate H] end.
      constructor; [exact K | exact AE | repeat split; assumption | intros _; exact B | intros KP; congruence].
    + destruct (kind_eqb_spec (m_kind m) Property) as [KP|KP]; cbn [andb].
      * match goal with |- (if ?b then _ else _) = _ -> _ => destruct b eqn:G; [discriminate|] end.
        intros _. bools.
        match goal with H : access_eqb _ _ = true |- _ => destruct (access_eqb_spec (d_access (m_dec m)) Unspecified) as [AE|]; [|discriminate H] end.
        constructor; [exact K | exact AE | repeat split; assumption | congruence |].
        intros _. split; intros Q; rewrite Q in *; discriminate.
      * intros _. bools.
        match goal with H : access_eqb _ _ = true |- _ => destruct (access_eqb_spec (d_access (m_dec m)) Unspecified) as [AE|]; [|discriminate H] end.
        constructor; [exact K | exact AE | repeat split; assumption | congruence | congruence].
  - intros [K AE (M1 & M2 & M3 & M4 & M5 & M6 & M7) B G].
    destruct (kind_eqb_spec (m_kind m) Field); [contradiction|].
    rewrite M1, M2, M3, M4, M5, M6, M7, AE. cbn [orb negb access_eqb].
    destruct (kind_eqb_spec (m_kind m) Method) as [KM|KM]; cbn [andb].
    + rewrite (B KM). rewrite KM. reflexivity.
    + destruct (kind_eqb_spec (m_kind m) Property) as [KP|KP]; cbn [andb]; [|reflexivity].
      destruct (G KP) as [G1 G2].
      destruct (m_get m) as [[]|], (m_set m) as [[]|]; try reflexivity; congruence.
Qed.

Lemma with_code_kind m : with_code m <-> match m_kind m with Method | Property | Event => True | _ => False end.
Proof. unfold with_code. destruct (m_kind m); split; intros H; auto; try (now destruct H as [H|[H|H]]); contradiction. Qed.

(** The rules and what is overridden, together. *)
Lemma virtual_exact T base m : with_code m ->
  (check_virtual T base m = None <->
   class_rules T m /\
   (d_override (m_dec m) = true -> exists x, base = Some x /\ overrides m x)).
Proof.
  intros W. unfold check_virtual. cbv zeta. split.
  - destruct (overridable m && is_private m) eqn:P1; [discriminate|].
    destruct (overridable m && d_static (m_dec m)) eqn:P2; [discriminate|].
    destruct (if d_override (m_dec m) then check_override base m else None) eqn:O; [discriminate|].
    destruct (d_abstract (m_dec m) && negb (t_abstract T)) eqn:AB; [discriminate|].
    destruct (d_sealed (m_dec m) && negb (d_override (m_dec m))) eqn:SE; [discriminate|].
    destruct (d_readonly (m_dec m) || d_const (m_dec m)) eqn:RC; [discriminate|].
    intros X. split.
    + constructor.
      * intros _ D. apply overridable_spec in D. rewrite D in *. cbn [andb] in *.
        split; [now apply private_spec | exact P2].
      * intros _ OV. rewrite OV in O. unfold check_override in O.
        destruct (d_virtual (m_dec m)); [discriminate O|]. destruct (d_new (m_dec m)); [discriminate O|]. now split.
      * intros _ A. rewrite A in AB. cbn [andb] in AB. now apply negb_false_iff.
      * intros _ S1. rewrite S1 in SE. cbn [andb] in SE. now apply negb_false_iff.
      * intros _. bools. now split.
      * intros _ EX. rewrite EX in X.
        destruct (kind_eqb_spec (m_kind m) Method) as [K|K]; [|discriminate X]. cbn [negb] in X.
        destruct (d_static (m_dec m)); [|discriminate X]. cbn [negb] in X.
        destruct (m_body m); [discriminate X|]. repeat split; assumption.
      * intros NW. contradiction.
      * intros K. destruct W as [W|[W|W]]; congruence.
    + intros OV. rewrite OV in O. unfold check_override in O.
      destruct (d_virtual (m_dec m) || d_new (m_dec m)); [discriminate O|].
      destruct base as [x|]; [|discriminate O]. exists x. split; [reflexivity|].
      destruct (overridable x) eqn:OX; [|discriminate O]. cbn [negb] in O.
      destruct (d_sealed (m_dec x)) eqn:SX; [discriminate O|].
      destruct (Nat.eqb_spec (m_type x) (m_type m)) as [TE|TE]; [|discriminate O].
      constructor; auto. now apply overridable_spec.
  - intros [[RD RO RA RS RV RE _ _] B].
    assert (P : overridable m = true -> is_private m = false /\ d_static (m_dec m) = false).
    { intros D. apply overridable_spec in D. destruct (RD W D) as [D1 D2]. split; [now apply private_spec | exact D2]. }
    destruct (overridable m) eqn:OM; cbn [andb]; [destruct (P eq_refl) as [P1 P2]; rewrite P1, P2|]; clear P;
    (assert (O : (if d_override (m_dec m) then check_override base m else None) = None);
     [destruct (d_override (m_dec m)) eqn:OV; [|reflexivity];
      destruct (RO W eq_refl) as [V1 V2]; destruct (B eq_refl) as (x & -> & [OD OO OT]);
      unfold check_override; rewrite V1, V2, OO, OT, Nat.eqb_refl; cbn [orb negb];
      apply overridable_spec in OD; rewrite OD; reflexivity|];
     rewrite O;
     destruct (d_abstract (m_dec m)) eqn:AB; cbn [andb]; [rewrite (RA W eq_refl)|]; cbn [negb];
     destruct (d_sealed (m_dec m)) eqn:SE; cbn [andb]; try rewrite (RS W eq_refl); cbn [negb];
     destruct (RV W) as [-> ->]; cbn [orb];
     destruct (d_extern (m_dec m)) eqn:EX; try reflexivity;
     destruct (RE W eq_refl) as (E1 & E2 & E3); rewrite ?E1, ?E2, ?E3; reflexivity || congruence).
Qed.

Lemma plain_exact T m : ~ with_code m -> (check_plain m = None <-> class_rules T m).
Proof.
  intros W. unfold check_plain. cbv zeta. split.
  - match goal with |- (if ?b then _ else _) = _ -> _ => destruct b eqn:M; [discriminate|] end.
    match goal with |- (if ?b then _ else _) = _ -> _ => destruct b eqn:D; [discriminate|] end.
    intros _. bools. constructor; try (intros; contradiction).
    + intros _. split; [|now split]. intros [X|[X|X]]; congruence.
    + intros K. rewrite K in D. cbn [kind_eqb andb] in D. bools. now repeat split.
  - intros [_ _ _ _ _ _ RF RT]. destruct (RF W) as (D & E & S1).
    assert (d_virtual (m_dec m) = false) as ->.
    { destruct (d_virtual (m_dec m)) eqn:Q; [|reflexivity]. exfalso. apply D. now left. }
    assert (d_abstract (m_dec m) = false) as ->.
    { destruct (d_abstract (m_dec m)) eqn:Q; [|reflexivity]. exfalso. apply D. right. now left. }
    assert (d_override (m_dec m) = false) as ->.
    { destruct (d_override (m_dec m)) eqn:Q; [|reflexivity]. exfalso. apply D. right. now right. }
    rewrite E, S1. cbn [orb]. destruct (kind_eqb_spec (m_kind m) TypeDef) as [K|K]; [|reflexivity].
    destruct (RT K) as (-> & -> & ->). reflexivity.
Qed.

(** The first part of the check, with the rules. *)
Definition first_part (T : type) (base : option member) (m : member) : option code :=
  if t_interface T then check_interface m
  else match m_kind m with
       | Property | Method | Event => check_virtual T base m
       | _ => check_plain m
       end.

Lemma first_exact T base m : first_part T base m = None <->
  rules T m /\ (t_interface T = false -> with_code m -> d_override (m_dec m) = true ->
                exists x, base = Some x /\ overrides m x).
Proof.
  unfold first_part, rules. destruct (t_interface T) eqn:IT.
  - rewrite interface_exact. split; [intros H; split; [exact H | discriminate] | tauto].
  - assert (C : with_code m \/ ~ with_code m)
      by (rewrite with_code_kind; destruct (m_kind m); tauto).
    destruct C as [W|W].
    + replace (match m_kind m with Property | Method | Event => check_virtual T base m | _ => check_plain m end)
        with (check_virtual T base m)
        by (apply with_code_kind in W; destruct (m_kind m); reflexivity || contradiction).
      rewrite (virtual_exact T base m W). tauto.
    + replace (match m_kind m with Property | Method | Event => check_virtual T base m | _ => check_plain m end)
        with (check_plain m)
        by (rewrite with_code_kind in W; destruct (m_kind m); reflexivity || (exfalso; tauto)).
      rewrite (plain_exact T m W). tauto.
Qed.

Lemma override_error base m c : check_override base m = Some c -> is_warning c = false.
Proof.
  unfold check_override.
  repeat match goal with
  | |- context [if ?b then _ else _] => destruct b
  | |- context [match ?b with _ => _ end] => destruct b
  end; intros H; injection H as <- || discriminate H; reflexivity.
Qed.

Lemma virtual_error T base m c : check_virtual T base m = Some c -> is_warning c = false.
Proof.
  unfold check_virtual. cbv zeta.
  destruct (if d_override (m_dec m) then check_override base m else None) as [c'|] eqn:O.
  - assert (is_warning c' = false).
    { destruct (d_override (m_dec m)); [now apply override_error in O | discriminate O]. }
    repeat match goal with |- context [if ?b then _ else _] => destruct b end;
      intros [= <-]; reflexivity || assumption.
  - repeat match goal with |- context [if ?b then _ else _] => destruct b end;
      intros E; injection E as <- || discriminate E; reflexivity.
Qed.

Lemma first_error T base m c : first_part T base m = Some c -> is_warning c = false.
Proof.
  unfold first_part. destruct (t_interface T).
  - unfold check_interface. cbv zeta.
    repeat match goal with |- context [if ?b then _ else _] => destruct b end;
      intros H; injection H as <- || discriminate H; reflexivity.
  - destruct (m_kind m); try apply virtual_error; unfold check_plain; cbv zeta;
    repeat match goal with |- context [if ?b then _ else _] => destruct b end;
      intros H; injection H as <- || discriminate H; reflexivity.
Qed.

Lemma modifier_parts T chain m : check_modifier T chain m =
  match first_part T (base_member T chain m) m with
  | Some c => Some c
  | None => check_hiding (base_member T chain m) m
  end.
Proof. reflexivity. Qed.

Lemma accepted_parts T chain m : checked m -> accepted T chain m = true ->
  check_duplicate T m = None /\ first_part T (base_member T chain m) m = None /\
  check_hiding (base_member T chain m) m <> Some AccessChanged.
Proof.
  intros [CA CN]. unfold accepted, check_member. rewrite CA. rewrite andb_true_iff. intros [_ W]. revert W.
  destruct (kind_eqb_spec (m_kind m) Nested); [contradiction|]. cbn [orb].
  destruct (check_duplicate T m) as [c|] eqn:D.
  { intros W. exfalso. unfold check_duplicate in D.
    destruct (_ && _); [injection D as <-; discriminate W|].
    destruct (find_clash m (t_members T)); [injection D as <-; discriminate W | discriminate D]. }
  rewrite modifier_parts. destruct (first_part T (base_member T chain m) m) as [c|] eqn:E.
  { intros W. rewrite (first_error _ _ _ _ E) in W. discriminate W. }
  intros W. split; [reflexivity|]. split; [reflexivity|]. intros H. rewrite H in W. discriminate W.
Qed.

Lemma rules_sound T chain m : checked m -> accepted T chain m = true -> rules T m.
Proof. intros C H. destruct (accepted_parts T chain m C H) as (_ & E & _). now apply first_exact in E. Qed.

Lemma hiding_access base m x : base = Some x -> check_hiding base m <> Some AccessChanged -> keeps_access m x.
Proof.
  intros -> H VX VM K D O. unfold check_hiding in H. cbv zeta in H.
  apply private_spec in VX, VM. rewrite VX, VM in H. cbn [negb] in H.
  destruct (kind_eqb_spec (m_kind m) (m_kind x)); [|contradiction].
  apply overridable_spec in D. rewrite D in H. cbn [andb] in H.
  destruct (negb (d_override (m_dec m)) && negb (d_new (m_dec m))) eqn:ON.
  - exfalso. apply andb_true_iff in ON. destruct ON as [O1 O2]. bools. destruct O; congruence.
  - destruct (same_access m x) eqn:SA; [now apply same_access_spec | cbn [negb] in H; congruence].
Qed.

Lemma override_sound T chain m : Forall filed chain -> foreign m chain -> checked m ->
  accepted T chain m = true -> t_interface T = false -> d_override (m_dec m) = true ->
  exists x, nearest chain m x /\ overrides m x /\ keeps_access m x.
Proof.
  intros F I0 C H IT OV. destruct (accepted_parts T chain m C H) as (_ & E & N).
  apply first_exact in E. destruct E as [R E]. unfold rules in R. rewrite IT in R.
  assert (W : with_code m).
  { apply with_code_kind. destruct R as [_ _ _ _ _ _ RF _].
    assert (Q : with_code m \/ ~ with_code m) by (rewrite with_code_kind; destruct (m_kind m); tauto).
    destruct Q as [Q|Q]; [now apply with_code_kind|]. destruct (RF Q) as [D _]. exfalso. apply D. right. now right. }
  destruct (E IT W OV) as (x & B & O). exists x. split; [|split; [exact O|]].
  - now apply (base_some T chain m F I0).
  - now apply (hiding_access _ m x B).
Qed.

(** *** Members of one type *)

Lemma duplicate_none T m : filed T -> NoDup (map m_id (t_members T)) -> single T m -> check_duplicate T m = None.
Proof.
  intros F _ [N S1]. unfold check_duplicate.
  replace ((m_name m =? t_name T) && negb (kind_eqb (m_kind m) Method && m_special m)) with false.
  2:{ symmetry. destruct N as [N|[-> ->]].
      - apply Nat.eqb_neq in N. now rewrite N.
      - now rewrite andb_false_r. }
  destruct (find_clash m (t_members T)) as [x|] eqn:E; [|reflexivity]. exfalso.
  destruct (find_clash_some _ _ _ E) as (A & B & C & D). apply (S1 x A D).
  apply test_clash; [|exact C]. rewrite <- B. now apply F.
Qed.

Lemma duplicate_true T m : filed T -> check_duplicate T m = Some Duplicated ->
  exists x, In x (t_members T) /\ m_id x <> m_id m /\ clash m x.
Proof.
  intros F. unfold check_duplicate. destruct (_ && _); [discriminate|].
  destruct (find_clash m (t_members T)) as [x|] eqn:E; [|discriminate]. intros _.
  destruct (find_clash_some _ _ _ E) as (A & B & C & D). exists x. split; [exact A|]. split; [exact D|].
  apply test_clash; [|exact C]. rewrite <- B. now apply F.
Qed.

Lemma filter_split {A : Type} (f : A -> bool) l1 l2 : filter f (l1 ++ l2) = filter f l1 ++ filter f l2.
Proof. apply filter_app. Qed.

(** The later one of two members of one kind meets the other first. *)
Lemma later_found T m x l1 l2 l3 : m_key x = m_name x -> NoDup (map m_id (t_members T)) ->
  t_members T = l1 ++ x :: l2 ++ m :: l3 -> clash m x ->
  find_clash m (t_members T) <> None.
Proof.
  intros F ND E C N. assert (NE : m_name m = m_name x) by apply C.
  pose proof (find_clash_none _ _ N (m_kind x)) as S1.
  assert (FX : m_key x = m_name m).
  { now rewrite NE. }
  apply (test_clash m x NE) in C.
  assert (test m (m_kind x) x = false); [|congruence].
  unfold named in S1. rewrite E, filter_app in S1. cbn [filter] in S1.
  destruct (kind_eqb_spec (m_kind x) (m_kind x)); [|contradiction].
  rewrite FX, Nat.eqb_refl in S1. cbn [andb] in S1.
  eapply search_before; [exact S1 | reflexivity|].
  intros y Hy EQ. rewrite E in ND.
  assert (Hy' : In y (l1 ++ [x])).
  { apply in_app_or in Hy. apply in_or_app. destruct Hy as [Hy|Hy]; [left|right; exact Hy].
    apply filter_In in Hy. apply Hy. }
  replace (l1 ++ x :: l2 ++ m :: l3) with ((l1 ++ x :: l2) ++ m :: l3) in ND by (now rewrite <- app_assoc).
  rewrite map_app in ND. cbn [map] in ND. apply NoDup_remove_2 in ND. apply ND.
  apply in_or_app. left. rewrite <- EQ. apply in_map.
  apply in_app_or in Hy'. apply in_or_app. destruct Hy' as [Hy'|[<-|[]]]; [now left | right; now left].
Qed.

Lemma found_reported T m : find_clash m (t_members T) <> None ->
  check_duplicate T m = Some SameAsType \/ check_duplicate T m = Some Duplicated.
Proof.
  intros H. unfold check_duplicate. destruct (_ && _); [now left|].
  destruct (find_clash m (t_members T)); [now right | contradiction].
Qed.

Lemma refused_duplicate T chain m : checked m -> find_clash m (t_members T) <> None ->
  accepted T chain m = false.
Proof.
  intros [CA CN] H. unfold accepted, check_member. rewrite CA.
  destruct (kind_eqb_spec (m_kind m) Nested); [contradiction|]. cbn [orb].
  destruct (found_reported T m H) as [-> | ->]; apply andb_false_r.
Qed.

Lemma nodup_same T a b : NoDup (map m_id (t_members T)) -> In a (t_members T) -> In b (t_members T) ->
  m_id a = m_id b -> a = b.
Proof.
  intros ND Ha Hb E. apply in_split in Ha. destruct Ha as (l1 & l2 & EQ). rewrite EQ in *.
  rewrite map_app in ND. cbn [map] in ND. apply NoDup_remove_2 in ND.
  apply in_app_or in Hb. destruct Hb as [Hb|[Hb|Hb]]; [|exact Hb|]; exfalso; apply ND, in_or_app;
    [left|right]; rewrite E; now apply in_map.
Qed.

(** A member of another kind is found wherever it is. *)
Lemma other_found T m x : m_key x = m_name x -> NoDup (map m_id (t_members T)) ->
  In m (t_members T) -> In x (t_members T) -> m_kind x <> m_kind m -> clash m x ->
  find_clash m (t_members T) <> None.
Proof.
  intros F ND Hm Hx K C N. assert (NE : m_name m = m_name x) by apply C.
  pose proof (find_clash_none _ _ N (m_kind x)) as S1. apply (test_clash m x NE) in C.
  assert (test m (m_kind x) x = false); [|congruence].
  apply (search_none _ _ _ S1).
  - intros y Hy EQ. apply named_in in Hy. destruct Hy as (Hy & KY & _).
    rewrite (nodup_same T y m ND Hy Hm EQ) in KY. congruence.
  - apply named_in. split; [exact Hx|]. split; [reflexivity|]. now rewrite F.
Qed.

Lemma before_app T m l1 l2 : NoDup (map m_id (t_members T)) -> t_members T = l1 ++ m :: l2 ->
  walked_before m (t_members T) = l1.
Proof.
  intros ND E. rewrite E in *. clear E. induction l1 as [|y l1 IH]; cbn [walked_before app].
  - now rewrite Nat.eqb_refl.
  - cbn [app map] in ND. inversion ND as [|? ? N1 N2]; subst.
    destruct (Nat.eqb_spec (m_id y) (m_id m)) as [Q|Q].
    + exfalso. apply N1. rewrite Q, map_app. apply in_or_app. right. now left.
    + now rewrite IH.
Qed.

(** Two variables of one name, at most one of them a method. *)
Lemma later_variable T chain m x l1 l2 l3 : NoDup (map m_id (t_members T)) ->
  t_members T = l1 ++ x :: l2 ++ m :: l3 -> is_defined m = true -> is_defined x = true ->
  m_name m = m_name x -> m_kind m = Property ->
  accepted T chain m = false.
Proof.
  intros ND E DM DX N K. unfold accepted, check_variable.
  rewrite (before_app T m (l1 ++ x :: l2) l3 ND) by (now rewrite E, <- app_assoc).
  rewrite DM. cbn [andb].
  destruct (find (fun y => is_defined y && (m_name y =? m_name m)) (l1 ++ x :: l2)) as [y|] eqn:F.
  - rewrite K. cbn [kind_eqb]. now rewrite andb_false_r.
  - exfalso. assert (HX : In x (l1 ++ x :: l2)) by (apply in_or_app; right; now left).
    pose proof (find_none _ _ F x HX) as Q. cbn beta in Q. rewrite DX, N, Nat.eqb_refl in Q. discriminate Q.
Qed.

Lemma ordered_refused T chain m x l1 l2 l3 : kept T -> NoDup (map m_id (t_members T)) ->
  t_members T = l1 ++ x :: l2 ++ m :: l3 -> clash m x -> checked m -> checked x ->
  accepted T chain m = false \/ accepted T chain x = false.
Proof.
  intros KT ND E C CM CX.
  assert (Hx : In x (t_members T)) by (rewrite E; apply in_or_app; right; now left).
  assert (Hm : In m (t_members T))
    by (rewrite E; apply in_or_app; right; right; apply in_or_app; right; now left).
  assert (KP : m_kind x = Property \/ m_kind x <> Property) by (destruct (m_kind x); auto; right; discriminate).
  destruct KP as [KX|KX].
  - assert (KQ : m_kind m = Property \/ m_kind m <> Property) by (destruct (m_kind m); auto; right; discriminate).
    destruct KQ as [KM|KM].
    + left. apply (later_variable T chain m x l1 l2 l3 ND E); try apply C; try exact KM;
        unfold is_defined; [now rewrite KM | now rewrite KX].
    + right. apply refused_duplicate; [exact CX|].
      apply (other_found T x m (KT m Hm KM) ND Hx Hm); [congruence | now apply clash_sym].
  - left. apply refused_duplicate; [exact CM|]. apply (later_found T m x l1 l2 l3 (KT x Hx KX) ND E C).
Qed.

Lemma duplicates_refused T chain m x : kept T -> NoDup (map m_id (t_members T)) ->
  In m (t_members T) -> In x (t_members T) -> m_id x <> m_id m -> clash m x -> checked m -> checked x ->
  accepted T chain m = false \/ accepted T chain x = false.
Proof.
  intros F ND Hm Hx NE C CM CX. apply in_split in Hm. destruct Hm as (l1 & l2 & E).
  rewrite E in Hx. apply in_app_or in Hx. destruct Hx as [Hx|[<-|Hx]]; [|contradiction|].
  - apply in_split in Hx. destruct Hx as (k1 & k2 & ->).
    apply (ordered_refused T chain m x k1 k2 l2 F ND); auto. now rewrite E, <- app_assoc.
  - apply in_split in Hx. destruct Hx as (k1 & k2 & ->). apply or_comm.
    apply (ordered_refused T chain x m l1 k1 k2 F ND E); auto. now apply clash_sym.
Qed.

Lemma before_in m ms y : In y (walked_before m ms) -> In y ms /\ m_id y <> m_id m.
Proof.
  induction ms as [|x ms IH]; cbn [walked_before]; [intros []|].
  destruct (Nat.eqb_spec (m_id x) (m_id m)) as [E|E]; [intros []|].
  intros [<-|H]; [split; [now left | exact E]|]. destruct (IH H). split; [now right | assumption].
Qed.

Lemma variable_ok T m : no_indexers T -> In m (t_members T) -> single T m -> check_variable T m = false.
Proof.
  intros NI Hm [_ S1]. unfold check_variable. destruct (is_defined m) eqn:DM; [|reflexivity]. cbn [andb].
  destruct (find _ (walked_before m (t_members T))) as [x|] eqn:F; [|reflexivity].
  apply find_some in F. destruct F as [Hx Q]. apply before_in in Hx. destruct Hx as [Hx NE].
  apply andb_true_iff in Q. destruct Q as [DX Q]. apply Nat.eqb_eq in Q.
  destruct (kind_eqb_spec (m_kind x) Method) as [KX|KX];
    destruct (kind_eqb_spec (m_kind m) Method) as [KM|KM]; try reflexivity; exfalso; apply (S1 x Hx NE);
    (split; [now symmetry|]; split; [congruence|]; intros P1 P2; rewrite (NI m Hm P1), (NI x Hx P2); reflexivity).
Qed.

(** *** Members that keep the rules *)

Lemma complete T chain m : Forall filed chain -> foreign m chain -> above T chain -> filed T ->
  no_indexers T -> In m (t_members T) ->
  NoDup (map m_id (t_members T)) -> single T m -> rules T m ->
  (forall x, nearest chain m x -> keeps_access m x) ->
  (t_interface T = false -> d_override (m_dec m) = true ->
    (exists x, nearest chain m x) /\ forall x, nearest chain m x -> overrides m x) ->
  accepted T chain m = true.
Proof.
  intros F I0 A FT NI HM ND S1 R K O. unfold accepted, check_member.
  rewrite (variable_ok T m NI HM S1). cbn [negb andb].
  destruct (m_accessor m || kind_eqb (m_kind m) Nested); [reflexivity|].
  rewrite (duplicate_none T m FT ND S1), modifier_parts.
  assert (E : first_part T (base_member T chain m) m = None).
  { apply first_exact. split; [exact R|]. intros IT _ OV. destruct (O IT OV) as [(x & X) O2].
    destruct (base_member T chain m) as [y|] eqn:B.
    - exists y. split; [reflexivity|]. apply O2, (base_some T chain m F I0 y B).
    - now destruct (base_none T chain m F I0 A B x). }
  rewrite E. destruct (base_member T chain m) as [y|] eqn:B; [|reflexivity].
  assert (KY := K y (base_some T chain m F I0 y B)).
  unfold check_hiding. cbv zeta. destruct (is_private y) eqn:PY; [reflexivity|].
  destruct (is_private m) eqn:PM; cbn [negb]; [destruct (d_new (m_dec m)); reflexivity|].
  destruct (kind_eqb_spec (m_kind m) (m_kind y)) as [KE|KE]; cbn [andb];
    [|destruct (d_new (m_dec m)); reflexivity].
  destruct (overridable y) eqn:OY; [|destruct (d_new (m_dec m)); reflexivity].
  destruct (d_override (m_dec m)) eqn:OV; destruct (d_new (m_dec m)) eqn:NW; cbn [negb andb]; try reflexivity;
  (assert (SA : same_access m y = true);
   [apply same_access_spec, KY; [now apply private_spec | now apply private_spec | exact KE |
      now apply overridable_spec | auto] | now rewrite SA]).
Qed.

(** *** Messages *)

Lemma warned T chain m : Forall filed chain -> foreign m chain -> above T chain -> checked m ->
  accepted T chain m = true ->
  ((check_member T chain m = Some HidesVirtual \/ check_member T chain m = Some Hides) <->
   exists x, base_member T chain m = Some x /\ silently_hides m x).
Proof.
  intros F I0 A C H. destruct (accepted_parts T chain m C H) as (D & E & N). destruct C as [CA CN].
  unfold check_member. rewrite CA. destruct (kind_eqb_spec (m_kind m) Nested); [contradiction|]. cbn [orb].
  rewrite D, modifier_parts, E. destruct (base_member T chain m) as [y|] eqn:B.
  2:{ cbn [check_hiding]. split; [intros [Q|Q]; discriminate Q | intros (x & Q & _); discriminate Q]. }
  unfold check_hiding in *. cbv zeta in *. destruct (is_private y) eqn:PY.
  { split; [intros [Q|Q]; discriminate Q|]. intros (x & [= <-] & V & _).
    apply private_spec in V. congruence. }
  destruct (is_private m) eqn:PM; cbn [negb] in *.
  { split; [destruct (d_new (m_dec m)); intros [Q|Q]; discriminate Q|]. intros (x & [= <-] & _ & V & _).
    apply private_spec in V. congruence. }
  apply private_spec in PY, PM.
  destruct (d_new (m_dec m)) eqn:NW; cbn [negb andb] in *.
  { rewrite andb_false_r in *. split.
    - destruct (kind_eqb (m_kind m) (m_kind y) && overridable y); [destruct (negb (same_access m y))|];
        intros [Q|Q]; discriminate Q.
    - intros (x & _ & _ & _ & Q & _). congruence. }
  rewrite andb_true_r in *.
  destruct (kind_eqb_spec (m_kind m) (m_kind y)) as [KE|KE]; cbn [andb] in *.
  - destruct (overridable y) eqn:OY.
    + apply overridable_spec in OY. destruct (d_override (m_dec m)) eqn:OV; cbn [negb] in *.
      * split.
        -- destruct (negb (same_access m y)); intros [Q|Q]; discriminate Q.
        -- intros (x & [= <-] & _ & _ & _ & Q). now destruct Q.
      * split; [intros _ | now left]. exists y. split; [reflexivity|]. repeat split; auto.
        intros (_ & _ & Q). congruence.
    + apply overridable_false in OY. split; [intros _ | now right]. exists y. split; [reflexivity|].
      repeat split; auto. intros (_ & Q & _). contradiction.
  - split; [intros _ | now right]. exists y. split; [reflexivity|]. repeat split; auto.
    intros (Q & _). contradiction.
Qed.

Lemma warned_true T chain m : Forall filed chain -> foreign m chain -> above T chain -> checked m ->
  accepted T chain m = true ->
  (check_member T chain m = Some HidesVirtual \/ check_member T chain m = Some Hides) ->
  exists x, nearest chain m x /\ silently_hides m x.
Proof.
  intros F I0 A C H W. apply (warned T chain m F I0 A C H) in W. destruct W as (x & B & S1).
  exists x. split; [|exact S1]. now apply (base_some T chain m F I0).
Qed.

Lemma warned_all T chain m : Forall filed chain -> foreign m chain -> above T chain -> checked m ->
  accepted T chain m = true -> (exists x, nearest chain m x) ->
  (forall x, nearest chain m x -> silently_hides m x) ->
  check_member T chain m = Some HidesVirtual \/ check_member T chain m = Some Hides.
Proof.
  intros F I0 A C H (x & X) S1. apply (warned T chain m F I0 A C H).
  destruct (base_member T chain m) as [y|] eqn:B.
  - exists y. split; [reflexivity|]. apply S1, (base_some T chain m F I0 y B).
  - now destruct (base_none T chain m F I0 A B x).
Qed.
