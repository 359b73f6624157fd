(** Proofs about patterns of file names. *)
From Coq Require Import List Bool ZArith Lia.
From Verif Require Import WildModel WildSpec.
Import ListNotations.
Open Scope Z_scope.

Lemma memZ_in c l : memZ c l = true <-> In c l.
Proof.
  unfold memZ. rewrite existsb_exists. split.
  - intros (x & H & E). apply Z.eqb_eq in E. now subst.
  - intros H. exists c. split; [exact H | apply Z.eqb_refl].
Qed.

Definition item_of (c : Z) : item :=
  if c =? 42 then IMany Any else if c =? 63 then IOne Any else IOne (Lit c).

Definition plain_start (ts : list token) : Prop :=
  match ts with TStar :: _ | TPlus :: _ | TOpt :: _ => False | _ => True end.

Lemma parse_atom m ts a bs : plain_start ts -> parse ts = Some (a :: bs) ->
  parse (TAtom m :: ts) = Some ((IOne m :: a) :: bs).
Proof.
  intros P E. destruct ts as [|t ts]; [cbn in *; now injection E as <- <-|].
  destruct t; cbn [plain_start] in P; try contradiction; cbn [parse] in *; try discriminate E; rewrite E; reflexivity.
Qed.

Lemma neqb a b : a <> b -> (a =? b) = false.
Proof. apply Z.eqb_neq. Qed.

(** One character of a pattern. *)
Lemma convert_cases c f r : ~ In c [0; 43; 94; 36; 124] ->
  (c = 42 /\ tokens (convert (c :: f) ++ r) = TAtom Any :: TStar :: TOpt :: tokens (convert f ++ r)) \/
  (c = 63 /\ tokens (convert (c :: f) ++ r) = TAtom Any :: tokens (convert f ++ r)) \/
  (c <> 42 /\ c <> 63 /\ tokens (convert (c :: f) ++ r) = TAtom (Lit c) :: tokens (convert f ++ r)).
Proof.
  intros N. cbn [In] in N. cbn [convert]. rewrite (neqb c 0) by lia.
  destruct (memZ c escaped) eqn:M.
  - right. right. apply memZ_in in M. unfold escaped in M. cbn [In] in M.
    split; [lia|]. split; [lia|]. reflexivity.
  - destruct (Z.eqb_spec c 42) as [->|A]; [left; split; reflexivity|].
    destruct (Z.eqb_spec c 63) as [->|B]; [right; left; split; reflexivity|].
    right. right. split; [exact A|]. split; [exact B|].
    assert (X : ~ In c escaped) by (rewrite <- memZ_in; congruence). unfold escaped in X. cbn [In] in X.
    cbn [app tokens]. rewrite (neqb c 92), (neqb c 46), (neqb c 42), (neqb c 43), (neqb c 63),
      (neqb c 94), (neqb c 36), (neqb c 124) by lia.
    assert (Q : memZ c [91; 93; 40; 41; 123; 125] = false).
    { destruct (memZ c [91; 93; 40; 41; 123; 125]) eqn:Q; [|reflexivity]. apply memZ_in in Q. cbn [In] in Q. lia. }
    now rewrite Q.
Qed.

Lemma simple_cons c f : simple (c :: f) -> ~ In c [0; 43; 94; 36; 124] /\ simple f.
Proof. intros H. split; [apply H; now left|]. intros d Hd. apply H. now right. Qed.

Lemma converted_start f : simple f -> plain_start (tokens (convert f ++ [36])).
Proof.
  destruct f as [|c f]; [intros _; exact Logic.I|]. intros H. apply simple_cons in H. destruct H as [N _].
  destruct (convert_cases c f [36] N) as [[_ ->]|[[_ ->]|(_ & _ & ->)]]; exact Logic.I.
Qed.

Lemma converted_parse f : simple f ->
  parse (tokens (convert f ++ [36])) = Some [map item_of f ++ [IEnd]].
Proof.
  induction f as [|c f IH]; [reflexivity|]. intros H. apply simple_cons in H. destruct H as [N F].
  specialize (IH F). pose proof (converted_start f F) as P. cbn [map app].
  destruct (convert_cases c f [36] N) as [[-> ->]|[[-> ->]|(A & B & ->)]].
  - cbn [parse]. rewrite IH. reflexivity.
  - now apply parse_atom.
  - unfold item_of. rewrite (neqb c 42 A), (neqb c 63 B). now apply parse_atom.
Qed.

Lemma regex_parse f : simple f ->
  parse (tokens (wildcard_to_regex f)) = Some [IBegin :: map item_of f ++ [IEnd]].
Proof.
  intros F. unfold wildcard_to_regex. cbn [app tokens]. change (94 =? 92) with false.
  cbn [Z.eqb Pos.eqb]. cbn [parse]. rewrite (converted_parse f F). reflexivity.
Qed.

(** *** Matching *)
Lemma hit_any c : ~ In c [10; 13; 8232; 8233] -> hit Any c = true.
Proof.
  intros N. unfold hit, line_ends. destruct (memZ c _) eqn:M; [|reflexivity]. now apply memZ_in in M.
Qed.

Definition many (m : matcher) (is : list item) : bool -> str -> bool :=
  fix go (start : bool) (s : str) {struct s} : bool :=
    run is start s || match s with c :: s' => hit m c && go false s' | [] => false end.

Lemma run_many m is start s : run (IMany m :: is) start s = many m is start s.
Proof. reflexivity. Qed.

Lemma many_eq m is start s : many m is start s =
  run is start s || match s with c :: s' => hit m c && many m is false s' | [] => false end.
Proof. destruct s; reflexivity. Qed.

Lemma one_line_cons c s : one_line (c :: s) -> ~ In c [10; 13; 8232; 8233] /\ one_line s.
Proof. intros H. split; [apply H; now left|]. intros d Hd. apply H. now right. Qed.

Lemma run_glob f : forall s start, one_line s ->
  (run (map item_of f ++ [IEnd]) start s = true <-> glob f s).
Proof.
  induction f as [|c f IH]; intros s start OL; cbn [map app].
  - cbn [run]. destruct s; split; try reflexivity; try discriminate.
    + intros _. constructor.
    + intros G. inversion G.
  - unfold item_of at 1. destruct (Z.eqb_spec c 42) as [->|A].
    + rewrite run_many. revert start. induction s as [|d s IHs]; intros start; rewrite many_eq.
      * rewrite orb_false_r, IH by exact OL. split; [apply glob_skip|].
        intros G. inversion G; subst; assumption.
      * destruct (one_line_cons d s OL) as [ND OS].
        rewrite (hit_any d ND). cbn [andb]. rewrite orb_true_iff, (IH _ _ OL), (IHs OS). split.
        -- intros [G|G]; [now apply glob_skip | now apply glob_take].
        -- intros G. inversion G; subst; [now left | now right | contradiction].
    + destruct (Z.eqb_spec c 63) as [->|B]; cbn [run].
      * destruct s as [|d s]; [split; [discriminate | intros G; inversion G]|].
        destruct (one_line_cons d s OL) as [ND OS]. rewrite (hit_any d ND). cbn [andb]. rewrite (IH _ _ OS).
        split; [apply glob_any|]. intros G. inversion G; subst; [assumption | contradiction].
      * destruct s as [|d s]; [split; [discriminate | intros G; inversion G; subst; contradiction]|].
        destruct (one_line_cons d s OL) as [ND OS]. cbn [hit]. rewrite andb_true_iff, Z.eqb_eq, (IH _ _ OS).
        split.
        -- intros [-> G]. now apply glob_same.
        -- intros G. inversion G; subst; try contradiction. now split.
Qed.

Lemma search_begin is s : search (IBegin :: is) false s = false.
Proof. induction s as [|c s IH]; cbn [search run andb orb]; [reflexivity | exact IH]. Qed.

Lemma search_anchored is s : search (IBegin :: is) true s = run is true s.
Proof.
  destruct s as [|c s]; cbn [search run andb]; [apply orb_false_r|].
  now rewrite search_begin, orb_false_r.
Qed.

Lemma filter_spec f s : simple f -> one_line s ->
  exists b, filter_matches f s = Some b /\ (b = true <-> glob f s).
Proof.
  intros F OL. unfold filter_matches, regex_is_match. rewrite (regex_parse f F).
  cbn [existsb]. rewrite orb_false_r, search_anchored. eexists. split; [reflexivity|]. now apply run_glob.
Qed.

(** *** Files *)
Lemma split_last_none s : no_separator s -> split_last s = None.
Proof.
  induction s as [|c s IH]; [reflexivity|]. intros N. cbn [split_last].
  rewrite IH by (intros H; apply N; now right). rewrite neqb; [reflexivity|]. intros ->. apply N. now left.
Qed.

Lemma split_last_app d f : no_separator f -> split_last (d ++ 47 :: f) = Some (d, f).
Proof.
  intros N. induction d as [|c d IH]; cbn [app split_last].
  - rewrite split_last_none by exact N. reflexivity.
  - now rewrite IH.
Qed.

Lemma pattern_test f : existsb (fun c => memZ c [63; 42]) f = true <-> is_pattern f.
Proof.
  rewrite existsb_exists. unfold is_pattern. split.
  - intros (c & H & M). apply memZ_in in M. cbn [In] in M. destruct M as [<-|[<-|[]]]; tauto.
  - intros [H|H]; eexists; (split; [exact H | reflexivity]).
Qed.

Lemma split_pattern d f : no_separator f -> is_pattern f -> split_path_filter (d ++ 47 :: f) = Some (d, f).
Proof.
  intros N P. unfold split_path_filter. rewrite split_last_app by exact N.
  apply pattern_test in P. now rewrite P.
Qed.

Lemma split_no_separator p : no_separator p -> split_path_filter p = None.
Proof. intros N. unfold split_path_filter. now rewrite split_last_none. Qed.

Lemma split_no_pattern p : plain p -> split_path_filter p = None.
Proof.
  intros [N|(d & f & -> & N & P)]; [now apply split_no_separator|].
  unfold split_path_filter. cbn [app]. rewrite split_last_app by exact N.
  rewrite <- pattern_test in P. now destruct (existsb _ f).
Qed.

Lemma pick_in d f es x : simple f -> (forall n b, In (n, b) es -> one_line n) ->
  (In x (pick d f es) <-> exists n, In (n, false) es /\ glob f n /\ x = d ++ [47] ++ n).
Proof.
  intros F. induction es as [|[n b] es IH]; intros OK; cbn [pick].
  - split; [intros [] | intros (n & [] & _)].
  - rewrite in_app_iff, (IH (fun m c H => OK m c (or_intror H))).
    destruct (filter_spec f n F (OK n b (or_introl eq_refl))) as (r & -> & R). split.
    + intros [H|(m & H & G & E)].
      * destruct b; [destruct H|]. destruct r; [|destruct H]. destruct H as [<-|[]].
        exists n. split; [now left|]. split; [now apply R | reflexivity].
      * exists m. split; [now right | now split].
    + intros (m & [[= -> ->]|H] & G & ->).
      * left. apply R in G. subst r. now left.
      * right. exists m. now split.
Qed.

Lemma all_files_spec S d f : simple f -> names_ok S d -> fs_exists S d = true -> fs_is_dir S d = true ->
  exists l, all_files S d f = Files l /\ forall x, In x l <-> in_directory S d f x.
Proof.
  intros F OK E D. unfold all_files. rewrite (regex_parse f F), E, D. eexists. split; [reflexivity|].
  intros x. now apply pick_in.
Qed.

Lemma each_pattern S d f : simple f -> no_separator f -> is_pattern f -> names_ok S d ->
  fs_exists S d = true -> fs_is_dir S d = true ->
  exists l, each_files S (d ++ [47] ++ f) = Files l /\ forall x, In x l <-> in_directory S d f x.
Proof.
  intros F N P OK E D. unfold each_files. cbn [app]. rewrite (split_pattern d f N P). now apply all_files_spec.
Qed.

Lemma each_file S p : plain p -> fs_is_dir S p = false -> fs_exists S p = true ->
  each_files S p = Files [p].
Proof. intros N D E. unfold each_files. now rewrite (split_no_pattern p N), D, E. Qed.

Lemma each_missing S p : plain p -> fs_is_dir S p = false -> fs_exists S p = false ->
  each_files S p = NotExists.
Proof. intros N D E. unfold each_files. now rewrite (split_no_pattern p N), D, E. Qed.

Lemma each_directory S p : plain p -> fs_is_dir S p = true -> fs_exists S [] = false ->
  each_files S p = Files [].
Proof. intros N D E. unfold each_files. rewrite (split_no_pattern p N), D. unfold all_files. now rewrite E. Qed.

Lemma each_here S p : no_separator p -> fs_exists S p = false -> fs_is_dir S p = false ->
  each_files S p = NotExists.
Proof. intros N E D. unfold each_files. now rewrite (split_no_separator p N), D, E. Qed.

Lemma each_nowhere S d f : simple f -> no_separator f -> is_pattern f -> fs_exists S d = false ->
  each_files S (d ++ [47] ++ f) = Files [].
Proof.
  intros F N P E. unfold each_files, all_files. cbn [app]. now rewrite (split_pattern d f N P), (regex_parse f F), E.
Qed.

Lemma hidden_dotted x : is_hidden_file x = true <-> dotted x.
Proof.
  destruct x as [|c x]; cbn [is_hidden_file].
  - split; [discriminate | intros [r E]; discriminate E].
  - rewrite Z.eqb_eq. split; [intros ->; now exists x | now intros [r [= -> _]]].
Qed.

Lemma each_listed S p : plain p -> fs_is_dir S p = true -> fs_exists S [] = true -> fs_is_dir S [] = true ->
  names_ok S [] ->
  exists l, each_files S p = Files l /\
    forall x, In x l <-> in_directory S [] [42; 46; 42] x /\ ~ dotted x.
Proof.
  intros N D E D' OK. unfold each_files. rewrite (split_no_pattern p N), D.
  assert (F : simple [42; 46; 42]).
  { intros c Hc X. cbn [In] in Hc, X. lia. }
  destruct (all_files_spec S [] [42; 46; 42] F OK E D') as (l & -> & L). eexists. split; [reflexivity|].
  intros x. rewrite filter_In, L, <- hidden_dotted. destruct (is_hidden_file x); cbn [negb]; intuition congruence.
Qed.
