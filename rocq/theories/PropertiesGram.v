(* Grammars and the nets made from them.  Models: GramModel.v, NetModel.v.
   Specification: GramSpec.v, NetSpec.v. *)
From Coq Require Import ZArith List Bool Relations Lia.
From Verif Require Import NetModel NetSpec NetExamples GramModel GramSpec GramProofs GramTidyProofs GramNameProofs GramExamples.
Import ListNotations.
Local Open Scope nat_scope.

(* C95: the net of a grammar has the sentences the grammar says.  Partial: for
   well made grammars.  The three theorems after it show what happens without
   each part of that. *)
Theorem C95_sentences_partial : forall N R fuel g a w,
  well_made R -> body R root_value = Some a -> build_as N fuel R = Ok g -> elementary R w ->
  ((exists rs, sentence g (numbered w) (length w) rs) <-> w <> [] /\ says R (TAlts a) w).
Proof. exact build_sentences. Qed.
Print Assumptions C95_sentences_partial.

(* What the analyzer accepts with such a net is said by the grammar, for
   programs of tokens. *)
Theorem C95_programs_partial : forall N R fuel g a w fuel' els s,
  well_made R -> body R root_value = Some a -> build_as N fuel R = Ok g ->
  (forall e k, In e els -> In k (keys_of e) -> exists v, k = KToken v) ->
  analyze fuel' g w els = Ok s -> s_leaves s <> [] ->
  exists wd ch, reads (w_invisible w) 0 els wd ch /\ says R (TAlts a) (map snd wd).
Proof. exact build_program. Qed.
Print Assumptions C95_programs_partial.

Example C95_case :
  well_made sums /\ body sums root_value = Some sums_root /\ build 20 sums = Ok sums_net /\
  elementary sums sums_word /\ says sums (TAlts sums_root) sums_word /\
  ~ says sums (TAlts sums_root) [KToken 43] /\
  exists s, analyze 100 sums_net plain_world (plain sums_word) = Ok s /\ s_leaves s <> [].
Proof.
  split; [exact sums_well_made|]. split; [reflexivity|]. split; [exact sums_built|].
  assert (T : forall l, forallb (fun k => match k with KToken _ => true | _ => false end) l = true ->
            forall k, In k l -> exists v, k = KToken v).
  { intros l F k I1. rewrite forallb_forall in F. specialize (F k I1). destruct k; [eauto|discriminate]. }
  split; [apply tokens_elementary, T; reflexivity|]. split; [exact sums_says|]. split.
  - exact sums_plus_not.
  - eexists. split; [vm_compute; reflexivity|discriminate].
Qed.

(* Without "a symbol a rule may begin with again occurs only where it begins". *)
Theorem C95_repeated_beginning_refuted :
  ~ (forall R fuel g a w,
       NoDup (map fst R) -> (forall b a, body R b = Some a -> full_alts a) ->
       (forall b a, body R b = Some a -> leads R b b -> firm R a) ->
       body R root_value = Some a -> build fuel R = Ok g -> elementary R w ->
       (exists rs, sentence g (numbered w) (length w) rs) -> says R (TAlts a) w).
Proof.
  intro H. refine (twice_not _ eq_refl (H twice 20 _ _ [KToken 97; KToken 99] _ _ _ eq_refl twice_built _ _)).
  - exact (one_name _).
  - exact twice_full.
  - exact twice_firm.
  - exact (fun b I1 => match I1 with or_introl E => match E with end | or_intror (or_introl E) => match E with end | or_intror (or_intror F) => match F with end end).
  - exists []. exact twice_sentence.
Qed.
Print Assumptions C95_repeated_beginning_refuted.

(* Without "a rule that leads back to itself begins firmly". *)
Theorem C95_recursion_refuted :
  ~ (forall R fuel g a w,
       NoDup (map fst R) -> (forall b a, body R b = Some a -> full_alts a) ->
       (forall b a k, body R b = Some a -> begins_again R k (TAlts a) -> ~ occurs_later R k (TAlts a)) ->
       body R root_value = Some a -> build fuel R = Ok g -> elementary R w ->
       (exists rs, sentence g (numbered w) (length w) rs) -> says R (TAlts a) w).
Proof.
  intro H. refine (inside_not _ eq_refl (H inside_itself 20 _ _ [KToken 98; KToken 100] _ _ _ eq_refl inside_built _ _)).
  - exact inside_names.
  - exact inside_full_alts.
  - exact inside_begin.
  - exact (fun b I1 => match I1 with or_introl E => match E with end | or_intror (or_introl E) => match E with end | or_intror (or_intror F) => match F with end end).
  - exists [Report (-129) 0 2]. exact inside_sentence.
Qed.
Print Assumptions C95_recursion_refuted.

(* Without "no alternative is empty". *)
Theorem C95_empty_alternative_refuted :
  ~ (forall R fuel g a w,
       NoDup (map fst R) ->
       (forall b a, body R b = Some a -> leads R b b -> firm R a) ->
       (forall b a k, body R b = Some a -> begins_again R k (TAlts a) -> ~ occurs_later R k (TAlts a)) ->
       body R root_value = Some a -> build fuel R = Ok g -> elementary R w ->
       w <> [] -> says R (TAlts a) w -> exists rs, sentence g (numbered w) (length w) rs).
Proof.
  intro H. destruct (H nothing_or 20 _ nothing_root [KToken 97] (one_name _) nothing_firm nothing_begin eq_refl nothing_built
    (fun b I1 => match I1 with or_introl E => match E with end | or_intror F => match F with end end)
    (fun E => match E with end) nothing_says) as [rs S].
  exact (nothing_not rs S).
Qed.
Print Assumptions C95_empty_alternative_refuted.

(* C96: the links of a net made from a grammar stay inside the rules. *)
Theorem C96_tidy : forall N fuel R g, build_as N fuel R = Ok g -> tidy g.
Proof. exact build_as_tidy. Qed.
Print Assumptions C96_tidy.

Example C96_case : build 20 sums = Ok sums_net /\ exists n m, In m (nd_next (nt_node sums_net n)) /\ n <> m.
Proof. split; [exact sums_built|]. exists 6, 7. split; [vm_compute; auto|discriminate]. Qed.

(* C97: with the net of any grammar without named groups, left recursive or not,
   the analysis of every program comes to an end, with a result or a reported
   error, in a number of nested calls proportional to the length of the program.
   Partial: no rule may be its own only part, see below. *)
Theorem C97_ends_partial : forall fuel R g m w els fuel', build fuel R = Ok g ->
  no_unit_cycle g m -> length R <= m -> (length els + 2) * (m + 2) <= fuel' ->
  (exists s, analyze fuel' g w els = Ok s) \/ analyze fuel' g w els = FormatError.
Proof. exact build_ends. Qed.
Print Assumptions C97_ends_partial.

(* With named groups, when no rule can begin with a named group that is read in
   the middle of it and can begin with the rule. *)
Theorem C97_named_ends_partial : forall N fuel R g m w els fuel',
  (forall b b', body R b <> None -> body R b' <> None -> num_rule N b = num_rule N b' -> b = b') ->
  (forall b n b', begins g b n -> nd_key (nt_node g n) = KRef b' ->
     num_rule N b < num_rule N b' < num_node N n -> ~ clos_refl_trans Z (starts_with g) b' b) ->
  build_as N fuel R = Ok g ->
  no_unit_cycle g m -> length R <= m -> (length els + 2) * (m + 2) <= fuel' ->
  (exists s, analyze fuel' g w els = Ok s) \/ analyze fuel' g w els = FormatError.
Proof. exact build_as_ends. Qed.
Print Assumptions C97_named_ends_partial.

(* A left recursive grammar. *)
Example C97_case :
  build 20 left_sums = Ok left_net /\ no_unit_cycle left_net 2 /\ length left_sums <= 2 /\
  exists s, analyze 28 left_net plain_world (plain [KToken 110; KToken 43; KToken 110; KToken 43; KToken 110]) = Ok s /\
    reports (s_done s) = [Report 1 0 1; Report 1 0 3; Report 1 0 5; Report 0 0 5].
Proof.
  split; [exact left_built|]. split; [exact left_units|]. split; [cbn; lia|]. eexists. vm_compute. split; reflexivity.
Qed.

(* Left recursion through a named group: no element can be read. *)
Theorem C97_named_group_refuted :
  ~ (forall N fuel R g m w e els,
       (forall b b', body R b <> None -> body R b' <> None -> num_rule N b = num_rule N b' -> b = b') ->
       build_as N fuel R = Ok g -> no_unit_cycle g m -> keys_of e <> [] ->
       exists fuel', analyze fuel' g w (e :: els) <> Overflow).
Proof.
  intro H. assert (NE : keys_of (One (KToken 121)) <> []) by discriminate.
  destruct (H named_numbers 20 named_inside named_net 3 plain_world _ [] named_apart named_built named_units NE) as [fuel' K].
  exact (K (named_overflow fuel' plain_world _ [] NE)).
Qed.
Print Assumptions C97_named_group_refuted.

(* A rule that can be nothing but itself. *)
Theorem C97_unit_rule_refuted :
  ~ (forall fuel R g w els, build fuel R = Ok g -> exists fuel', analyze fuel' g w els <> Overflow).
Proof.
  intro H. destruct (H 20 unit_rule unit_net plain_world [One (KToken 120)] unit_built) as [fuel' K].
  exact (K (unit_overflow fuel')).
Qed.
Print Assumptions C97_unit_rule_refuted.

(* C98: a grammar is reported exactly when it refers to the root or to a name
   (a value below zero) that no rule has. *)
Theorem C98_unknown_names : forall N fuel R, build_as N fuel R = FormatError <->
  exists b a c, In (b, a) R /\ occurs_alts (KRef c) a /\ (c = root_value \/ (c < 0)%Z /\ body R c = None).
Proof. exact build_reported. Qed.
Print Assumptions C98_unknown_names.

Example C98_case :
  build 20 sums = Ok sums_net /\ build 20 (sums ++ [(7%Z, Or (Then (Group (Or (Then (Ref (-2)) Star Done) NoMore)) Once Done) NoMore)]) = FormatError.
Proof. split; [exact sums_built|vm_compute; reflexivity]. Qed.
