(** Proofs about entry points. *)
From Coq Require Import List Bool Arith ZArith Lia.
From Verif Require Import CppInt CommonModel ModiModel EntryModel EntrySpec.
Import ListNotations.
Open Scope nat_scope.

Lemma not_allowed_nil d : not_allowed_error d = [] <-> plain_modifiers d.
Proof.
  destruct d as [a st se ov vi ab ne co re ex]. unfold not_allowed_error, not_allowed, plain_modifiers.
  cbn [d_sealed d_override d_virtual d_abstract d_new d_const d_readonly].
  destruct se, ov, vi, ab, ne, co, re; cbn; split; intros H;
    first [ reflexivity | discriminate H | (repeat split; fail) | (exfalso; intuition discriminate) | tauto ].
Qed.

Lemma in_if (b : bool) (x k : keyword) : In k (if b then [x] else []) <-> b = true /\ k = x.
Proof.
  destruct b; cbn [In]; split.
  - intros [H|[]]. now split.
  - intros [_ H]. now left.
  - intros [].
  - intros [H _]. discriminate H.
Qed.

Lemma not_allowed_in d k : In k (not_allowed d) <-> has_keyword d k = true.
Proof.
  unfold not_allowed, has_keyword. rewrite !in_app_iff, !in_if.
  destruct k; split; intros H;
    first [ tauto | now (decompose [or and] H) ].
Qed.

Lemma public_flag a : bit_has_flag I8 (access_number a) [access_number Public] = true <->
  a = Public \/ a = Private \/ a = ProtectedOrInternal.
Proof. destruct a; vm_compute; intuition discriminate. Qed.

Lemma validate_nil m : validate m = [] <-> start_shape m /\ (is_public m \/ odd_access m).
Proof.
  unfold validate, start_shape, is_public, odd_access.
  pose proof (public_flag (d_access (decorate_of m))) as P.
  pose proof (not_allowed_nil (decorate_of m)) as N.
  destruct (bit_has_flag I8 (access_number (d_access (decorate_of m))) [access_number Public]);
  destruct (not_allowed_error (decorate_of m)) as [|x l];
  destruct (d_static (decorate_of m)); cbn [negb orb];
  destruct (e_ret m); destruct (e_generics m); destruct (e_params m); cbn [Nat.ltb Nat.leb app];
  split; intros H; try discriminate H; try reflexivity; 
  try (exfalso; intuition discriminate); intuition discriminate.
Qed.

Lemma internal_nil m : validate_internal m = [] <-> internal_shape m.
Proof.
  unfold validate_internal, internal_shape.
  pose proof (not_allowed_nil (decorate_of m)) as N.
  destruct (not_allowed_error (decorate_of m)) as [|x l];
  destruct (d_static (decorate_of m)), (d_extern (decorate_of m)); cbn [negb app];
  split; intros H; try discriminate H; try reflexivity; intuition discriminate.
Qed.

Lemma logged_nil m l : logged m l = [] <-> l = [].
Proof. destruct l; split; intros H; try discriminate H; reflexivity. Qed.

Definition step_ok (s : state) (x : attribute * emethod) : Prop :=
  match fst x with
  | EntryPoint => validate (snd x) = [] /\ entry s = None
  | InternalMethod => validate_internal (snd x) = []
  | Inline => True
  end.

Lemma commit_log s x : log (commit s x) = [] <-> log s = [] /\ step_ok s x.
Proof.
  destruct x as [[| |] m]; unfold commit, step_ok; cbn [fst snd].
  - destruct (entry s); cbn [log].
    + split; [intros H; apply app_eq_nil in H as [_ H]; discriminate H | intros (_ & _ & H); discriminate H].
    + split.
      * intros H. apply app_eq_nil in H as [H K]. apply logged_nil in K. now repeat split.
      * intros (-> & -> & _). reflexivity.
  - cbn [log]. split.
    + intros H. apply app_eq_nil in H as [H K]. apply logged_nil in K. now split.
    + intros (-> & ->). reflexivity.
  - cbn [log]. tauto.
Qed.

Definition first_entry (o : option nat) (l : list (attribute * emethod)) : option nat :=
  match o with Some i => Some i | None => option_map e_id (hd_error (entries l)) end.

Lemma fold_entry l : forall s, entry (fold_left commit l s) = first_entry (entry s) l.
Proof.
  induction l as [|[a m] l IH]; intros s; cbn [fold_left].
  - unfold first_entry. now destruct (entry s).
  - rewrite IH. destruct a; unfold commit, first_entry, entries; cbn [fst snd filter is_entry map entry hd_error option_map].
    + destruct (entry s) eqn:E; cbn [entry]; [now rewrite ?E | reflexivity].
    + reflexivity.
    + reflexivity.
Qed.

Lemma entry_first l : entry (commit_all l) = option_map e_id (hd_error (entries l)).
Proof. unfold commit_all. now rewrite fold_entry. Qed.

Definition all_ok (o : option nat) (l : list (attribute * emethod)) : Prop :=
  (forall m, In (EntryPoint, m) l -> validate m = []) /\
  (forall m, In (InternalMethod, m) l -> validate_internal m = []) /\
  length (entries l) <= match o with Some _ => 0 | None => 1 end.

Lemma fold_log l : forall s, log (fold_left commit l s) = [] <-> log s = [] /\ all_ok (entry s) l.
Proof.
  induction l as [|x l IH]; intros s; cbn [fold_left].
  - unfold all_ok. cbn. destruct (entry s); intuition (try lia; contradiction).
  - rewrite IH, commit_log. clear IH. destruct x as [[| |] m]; unfold all_ok, step_ok, commit, entries;
      cbn [fst snd filter is_entry map length entry].
    + destruct (entry s) as [i|] eqn:E; cbn [entry]; split.
      * intros ((_ & _ & H) & _). discriminate H.
      * intros (_ & _ & _ & H). lia.
      * intros ((L & V & _) & A & B & C). split; [exact L|]. split; [|split].
        -- intros m' [H|H]; [injection H as <-; exact V | now apply A].
        -- intros m' [H|H]; [discriminate H | now apply B].
        -- lia.
      * intros (L & A & B & C). split; [split; [exact L|split; [apply A; now left | reflexivity]]|].
        split; [|split].
        -- intros m' H. apply A. now right.
        -- intros m' H. apply B. now right.
        -- lia.
    + split.
      * intros ((L & V) & A & B & C). split; [exact L|]. split; [|split].
        -- intros m' [H|H]; [discriminate H | now apply A].
        -- intros m' [H|H]; [injection H as <-; exact V | now apply B].
        -- exact C.
      * intros (L & A & B & C). split; [split; [exact L|apply B; now left]|]. split; [|split].
        -- intros m' H. apply A. now right.
        -- intros m' H. apply B. now right.
        -- exact C.
    + split.
      * intros ((L & _) & A & B & C). split; [exact L|]. split; [|split].
        -- intros m' [H|H]; [discriminate H | now apply A].
        -- intros m' [H|H]; [discriminate H | now apply B].
        -- exact C.
      * intros (L & A & B & C). split; [split; [exact L|exact Logic.I]|]. split; [|split].
        -- intros m' H. apply A. now right.
        -- intros m' H. apply B. now right.
        -- exact C.
Qed.

Lemma accepted l : log (commit_all l) = [] <->
  (forall m, marked EntryPoint l m -> start_shape m /\ (is_public m \/ odd_access m)) /\
  (forall m, marked InternalMethod l m -> internal_shape m) /\ length (entries l) <= 1.
Proof.
  unfold commit_all. rewrite fold_log. cbn [log entry]. unfold all_ok, marked. split.
  - intros (_ & A & B & C). split; [|split; [|exact C]].
    + intros m H. apply validate_nil. now apply A.
    + intros m H. apply internal_nil. now apply B.
  - intros (A & B & C). split; [reflexivity|]. split; [|split; [|exact C]].
    + intros m H. apply validate_nil. now apply A.
    + intros m H. apply internal_nil. now apply B.
Qed.

Lemma entries_in l m : In m (entries l) <-> marked EntryPoint l m.
Proof.
  unfold entries, marked. rewrite in_map_iff. split.
  - intros ([a m'] & E & H). cbn [snd] in E. subst m'. apply filter_In in H as [H K].
    destruct a; [exact H | discriminate K | discriminate K].
  - intros H. exists (EntryPoint, m). split; [reflexivity|]. apply filter_In. now split.
Qed.

Lemma runs_marked l : log (commit_all l) = [] ->
  (execute (commit_all l) = NoEntryPoint /\ executable (commit_all l) = false /\ (forall m, ~ marked EntryPoint l m)) \/
  (exists m, execute (commit_all l) = Starts (e_id m) /\ executable (commit_all l) = true /\ marked EntryPoint l m /\
     start_shape m /\ (is_public m \/ odd_access m) /\ forall m', marked EntryPoint l m' -> m' = m).
Proof.
  intros H. apply accepted in H as (A & _ & C). unfold execute, executable. rewrite entry_first.
  destruct (entries l) as [|m [|m' r]] eqn:E.
  - left. split; [reflexivity|]. split; [reflexivity|]. intros m H. apply entries_in in H. now rewrite E in H.
  - right. exists m. assert (M : marked EntryPoint l m) by (apply entries_in; rewrite E; now left).
    split; [reflexivity|]. split; [reflexivity|]. split; [exact M|].
    destruct (A m M) as [S1 S2]. split; [exact S1|]. split; [exact S2|].
    intros m' H. apply entries_in in H. rewrite E in H. destruct H as [H|[]]. now symmetry.
  - cbn [length] in C. lia.
Qed.

Lemma fold_inline l : forall s i, In i (inlined (fold_left commit l s)) <->
  In i (inlined s) \/ exists m, marked Inline l m /\ e_id m = i.
Proof.
  unfold marked. induction l as [|[a m] l IH]; intros s i; cbn [fold_left].
  - split; [now left | intros [H|(m & [] & _)]; exact H].
  - rewrite IH. destruct a; unfold commit; cbn [fst snd].
    + assert (X : inlined (match entry s with
        | Some _ => mk_state (entry s) (inlined s) ((log s ++ logged m (validate m)) ++ [(e_id m, Duplicated)])
        | None => mk_state (Some (e_id m)) (inlined s) (log s ++ logged m (validate m)) end) = inlined s)
        by now destruct (entry s).
      rewrite X. clear X. split; (intros [H|(m' & H & E)]; [now left|right; exists m'; split; [|exact E]]).
      * now right.
      * destruct H as [H|H]; [discriminate H | exact H].
    + cbn [inlined]. split; (intros [H|(m' & H & E)]; [now left|right; exists m'; split; [|exact E]]).
      * now right.
      * destruct H as [H|H]; [discriminate H | exact H].
    + cbn [inlined In]. split.
      * intros [[H|H]|(m' & H & E)]; [right; exists m; split; [now left | exact H] | now left |].
        right. exists m'. split; [now right | exact E].
      * intros [H|(m' & [H|H] & E)]; [left; now right | injection H as <-; left; now left |].
        right. exists m'. now split.
Qed.

Lemma inline_marked l i : In i (inlined (commit_all l)) <-> exists m, marked Inline l m /\ e_id m = i.
Proof. unfold commit_all. rewrite fold_inline. cbn [inlined In]. tauto. Qed.

Lemma in_when (b : bool) (x e : error) : In e (if b then [x] else []) <-> b = true /\ e = x.
Proof.
  destruct b; cbn [In]; split.
  - intros [H|[]]. now split.
  - intros [_ H]. now left.
  - intros [].
  - intros [H _]. discriminate H.
Qed.

Lemma in_not_allowed d e : In e (not_allowed_error d) <-> not_allowed d <> [] /\ e = NotAllowed (not_allowed d).
Proof.
  unfold not_allowed_error. destruct (not_allowed d) as [|k l]; cbn [In]; split.
  - intros [].
  - intros [H _]. now apply H.
  - intros [H|[]]. split; [discriminate | now symmetry].
  - intros [_ ->]. now left.
Qed.

Lemma in_ret r e : In e (match r with OtherRet => [NoReturnType] | _ => [] end) <-> r = OtherRet /\ e = NoReturnType.
Proof. destruct r; cbn [In]; split; try (intros []; fail); try (intros [H _]; discriminate H); [intros [H|[]]; now split | intros [_ H]; now left]. Qed.

Lemma validate_in m e : In e (validate m) <->
  (e_ret m = OtherRet /\ e = NoReturnType) \/
  (0 < e_generics m /\ e = NotGeneric) \/
  (0 < e_params m /\ e = NoParams) \/
  (~ (d_static (decorate_of m) = true /\ (is_public m \/ odd_access m)) /\ e = PublicStatic) \/
  (not_allowed (decorate_of m) <> [] /\ e = NotAllowed (not_allowed (decorate_of m))).
Proof.
  unfold validate. rewrite !in_app_iff, in_ret, !in_when, in_not_allowed, !Nat.ltb_lt.
  assert (P : negb (d_static (decorate_of m)) || negb (bit_has_flag I8 (access_number (d_access (decorate_of m))) [access_number Public]) = true
    <-> ~ (d_static (decorate_of m) = true /\ (is_public m \/ odd_access m))).
  { pose proof (public_flag (d_access (decorate_of m))) as F. unfold is_public, odd_access.
    destruct (bit_has_flag I8 (access_number (d_access (decorate_of m))) [access_number Public]);
    destruct (d_static (decorate_of m)); cbn [negb orb]; intuition discriminate. }
  rewrite P. reflexivity.
Qed.

Lemma no_duplicated m : ~ In (e_id m, Duplicated) (logged m (validate m)) /\
  ~ In (e_id m, Duplicated) (logged m (validate_internal m)).
Proof.
  split; unfold logged; rewrite in_map_iff; intros (e & E & H); injection E as ->.
  - apply validate_in in H. intuition discriminate.
  - unfold validate_internal in H. rewrite !in_app_iff, !in_when, in_not_allowed in H. intuition discriminate.
Qed.

Lemma logged_id m l i e : In (i, e) (logged m l) -> i = e_id m.
Proof. unfold logged. rewrite in_map_iff. intros (x & E & _). now injection E. Qed.

Lemma no_dup_v m i : ~ In (i, Duplicated) (logged m (validate m)).
Proof. intros H. pose proof (logged_id _ _ _ _ H). subst i. exact (proj1 (no_duplicated m) H). Qed.
Lemma no_dup_i m i : ~ In (i, Duplicated) (logged m (validate_internal m)).
Proof. intros H. pose proof (logged_id _ _ _ _ H). subst i. exact (proj2 (no_duplicated m) H). Qed.

Definition later (o : option nat) (l : list emethod) : list emethod := match o with Some _ => l | None => tl l end.

Lemma fold_dup l : forall s i, In (i, Duplicated) (log (fold_left commit l s)) <->
  In (i, Duplicated) (log s) \/ In i (map e_id (later (entry s) (entries l))).
Proof.
  induction l as [|[a m] l IH]; intros s i; cbn [fold_left].
  - unfold entries. cbn [filter map]. unfold later. destruct (entry s); cbn; tauto.
  - rewrite IH. clear IH. pose proof (no_dup_v m i) as NV. pose proof (no_dup_i m i) as NI.
    destruct a; unfold commit, entries; cbn [fst snd filter is_entry map].
    + destruct (entry s) eqn:E; cbn [log entry later tl map In].
      * rewrite !in_app_iff. cbn [In]. split.
        -- intros [[[H|H]|[H|[]]]|H]; [now left | contradiction | injection H as ->; right; now left | right; now right].
        -- intros [H|[H|H]]; [left; left; now left | subst i; left; right; now left | now right].
      * rewrite in_app_iff. tauto.
    + cbn [log entry]. rewrite in_app_iff. tauto.
    + cbn [log entry]. tauto.
Qed.

Lemma duplicates l i : In (i, Duplicated) (log (commit_all l)) <-> In i (map e_id (tl (entries l))).
Proof. unfold commit_all. rewrite fold_dup. cbn [log entry later In]. tauto. Qed.

Lemma without_modifiers m : e_dec m = None -> In PublicStatic (validate m).
Proof.
  intros H. apply validate_in. right. right. right. left. split; [|reflexivity].
  unfold decorate_of. rewrite H. intros [K _]. discriminate K.
Qed.
