(** Texts written as lexemes are read back as their tokens; symbols and words are as long as possible. *)

From Coq Require Import String Ascii ZArith List Bool Lia.
Import ListNotations.
From Verif Require Import CppInt StrModel LitModel LitSpec LitProofs TokModel TokSpec TokProofs.
Open Scope Z_scope.
Ltac Zify.zify_post_hook ::= Z.div_mod_to_equations.

(** ** Symbols *)

Definition symbol_codes : list (list Z * value) := map (fun p => (codes (fst p), snd p)) symbols.

Ltac solve_in := vm_compute; repeat first [left; reflexivity | right].

Lemma symbol_found : forall c s n v, symbol c s = Some (n, v) -> exists w rest, is_symbol w v /\ c :: s = w ++ rest /\ length w = S n.
Proof.
  intros c s n v H. unfold symbol in H. cbv zeta in H.
  assert (D1 : forall x, x <> 0 -> nth 0 s 0 = x -> exists r, s = x :: r) by (intros x N E; destruct s as [| y r]; [cbn in E; congruence | cbn in E; subst; eauto]).
  assert (D2 : forall x y, x <> 0 -> y <> 0 -> nth 0 s 0 = x -> nth 1 s 0 = y -> exists r, s = x :: y :: r).
  { intros x y N1 N2 E1 E2. destruct s as [| a [| b r]]; cbn in E1, E2; try congruence. subst. eauto. }
  assert (Fin : forall w rest, is_symbol w v -> c :: s = w ++ rest -> length w = S n ->
     exists w rest, is_symbol w v /\ c :: s = w ++ rest /\ length w = S n) by (intros w rest I E L; exists w, rest; repeat split; assumption).
  repeat match type of H with
         | (if ?b then _ else _) = _ => let E := fresh "E" in destruct b eqn:E
         end; try discriminate; injection H as <- <-.
  all: repeat match goal with E : (?a =? ?b) = true |- _ => apply Z.eqb_eq in E end.
  all: repeat match goal with E : _ && _ = true |- _ => apply andb_prop in E; destruct E end.
  all: repeat match goal with E : (?a =? ?b) = true |- _ => apply Z.eqb_eq in E end.
  all: subst c.
  all: first
    [ match goal with A : nth 0 _ 0 = ?x, B : nth 1 _ 0 = ?y |- exists w r, is_symbol w _ /\ ?c0 :: _ = _ /\ _ =>
        destruct (D2 x y ltac:(lia) ltac:(lia) A B) as (r & ->); apply (Fin [c0; x; y] r); [solve_in | reflexivity | reflexivity] end
    | match goal with A : nth 0 _ 0 = ?x |- exists w r, is_symbol w _ /\ ?c0 :: _ = _ /\ _ =>
        destruct (D1 x ltac:(lia) A) as (r & ->); apply (Fin [c0; x] r); [solve_in | reflexivity | reflexivity] end
    | match goal with |- exists w r, is_symbol w _ /\ ?c0 :: ?s = _ /\ _ =>
        apply (Fin [c0] s); [solve_in | reflexivity | reflexivity] end ].
Qed.

Lemma symbol_longest : forall w v c s rest, is_symbol w v -> c :: s = w ++ rest ->
  exists n v', symbol c s = Some (n, v') /\ (length w <= S n)%nat.
Proof.
  intros w v c s rest H E. unfold is_symbol in H. fold symbol_codes in H. unfold symbol_codes, symbols in H. vm_compute in H.
  repeat match type of H with _ \/ _ => destruct H as [H | H] end; try contradiction;
    injection H as <- <-; cbn [app] in E; inversion E; subst; clear E; unfold symbol; cbv zeta; cbn [nth Z.eqb Pos.eqb andb];
    repeat match goal with |- context [if ?b then _ else _] => destruct b end;
    do 2 eexists; (split; [reflexivity | cbn [length]; lia]).
Qed.

(** The characters that start a symbol are neither letters, digits, whitespace nor zero. *)
Lemma symbol_char : forall c s n v, symbol c s = Some (n, v) -> ~ word_char c /\ ~ white c /\ c <> 0.
Proof.
  intros c s n v H. apply symbol_found in H. destruct H as (w & r & I & E & L). unfold is_symbol in I. fold symbol_codes in I.
  assert (F : forallb (fun p : list Z * value => match fst p with [] => true | x :: _ => negb (is_word x) && negb (is_whitespace x) end) symbol_codes = true)
    by (vm_compute; reflexivity).
  rewrite forallb_forall in F. specialize (F _ I). cbn [fst] in F. destruct w as [| x w]; [discriminate |]. cbn [app] in E. injection E as <- E.
  apply andb_prop in F. destruct F as (F1 & F2). split; [| split].
  - intros X. apply word_iff in X. rewrite X in F1. discriminate.
  - intros X. apply white_true in X. rewrite X in F2. discriminate.
  - intros ->. vm_compute in F2. discriminate.
Qed.

Lemma symbol_token : forall before last c s n v, symbol c s = Some (n, v) -> ~ comment_start (c :: s) -> ~ signed_number (c :: s) ->
  read_as before last c s v (S n) No_data.
Proof.
  intros before last c s n v H Nc Ns. exists 0%nat. intros f _. unfold read_token.
  destruct (symbol_char c s n v H) as (Nw & _ & Nz). rewrite (not_keyword c s Nw). cbv zeta.
  destruct (((c =? 43) || (c =? 45)) && is_numeric_prefix (nth 0 s 0)) eqn:E1.
  { exfalso. apply sign_number in E1. apply Ns. destruct E1 as (A & B). destruct s as [| d s]; [cbn in B; lia |]. cbn in B.
    exists c, d, s. repeat split; lia. }
  cbn [andb].
  destruct ((c =? 47) && (nth 0 s 0 =? 47)) eqn:E2.
  { exfalso. apply Nc. left. destruct s as [| d s]; [cbn in E2; lia |]. cbn in E2. exists s. assert (c = 47) by lia. assert (d = 47) by lia. subst. reflexivity. }
  destruct ((c =? 47) && (nth 0 s 0 =? 42)) eqn:E3.
  { exfalso. apply Nc. right. destruct s as [| d s]; [cbn in E3; lia |]. cbn in E3. exists s. assert (c = 47) by lia. assert (d = 42) by lia. subst. reflexivity. }
  rewrite H. reflexivity.
Qed.

Lemma longest_symbol : forall r ws u w0 v0, pending r = None -> remaining r = ws ++ u -> Forall white ws ->
  is_symbol w0 v0 -> prefix_of w0 u -> ~ comment_start u -> ~ signed_number u ->
  exists w v r', is_symbol w v /\ prefix_of w u /\ (forall w' v', is_symbol w' v' -> prefix_of w' u -> (length w' <= length w)%nat)
    /\ gives r (Token v (position r + length ws) (length w) No_data) r'
    /\ source r' = source r /\ position r' = (position r + length ws + length w)%nat.
Proof.
  intros r ws u w0 v0 P E Fw I0 (t0 & E0) Nc Ns.
  assert (Ne : forall w v, is_symbol w v -> w <> []).
  { intros w v I ->. unfold is_symbol in I. fold symbol_codes in I.
    assert (F : existsb (fun p : list Z * value => match fst p with [] => true | _ => false end) symbol_codes = true)
      by (apply existsb_exists; exists ([], v); split; [exact I | reflexivity]).
    vm_compute in F. discriminate. }
  destruct u as [| c s]; [destruct w0; [destruct (Ne _ _ I0 eq_refl) | discriminate] |].
  destruct (symbol_longest w0 v0 c s t0 I0 E0) as (n & v & Sy & _).
  destruct (symbol_found c s n v Sy) as (w & t & I & Ew & L).
  destruct (symbol_char c s n v Sy) as (_ & Nw & Nz).
  exists w, v. eexists. split; [exact I | split; [exists t; exact Ew | split]].
  - intros w' v' I' (t' & E'). destruct (symbol_longest w' v' c s t' I' E') as (n' & v'' & Sy' & L'). rewrite Sy in Sy'. injection Sy' as <- <-. lia.
  - rewrite L. split; [apply (token_gives r ws c s v (S n) No_data P E Fw Nw Nz); apply symbol_token; assumption |].
    split; reflexivity.
Qed.

(** ** Words *)

Lemma name_loop : forall s rest n, Forall word_char s -> match rest with [] => True | c :: _ => ~ word_char c end ->
  ends name_step (n, s ++ rest) ((n + length s)%nat, rest, No_data).
Proof.
  induction s as [| c s IH]; intros rest n F H.
  - cbn [app length]. rewrite Nat.add_0_r. apply ends_done. unfold name_step, at_spot. cbn [snd].
    destruct rest as [| c r]; [reflexivity |]. cbn [front hd]. destruct (is_word c) eqn:E; [apply word_iff in E; destruct (H E) | reflexivity].
  - apply Forall_cons_iff in F. cbn [app length]. apply (ends_step _ _ _ _ (S n, s ++ rest)).
    + unfold name_step, at_spot. cbn [snd front hd advance tl]. rewrite (proj2 (word_iff c) (proj1 F)). reflexivity.
    + replace (n + S (length s))%nat with (S n + length s)%nat by lia. apply IH; [apply F | exact H].
Qed.

Lemma letter_symbol : forall c s, word_char c -> symbol c s = None.
Proof.
  intros c s H. destruct (symbol c s) as [[n v] |] eqn:E; [| reflexivity]. destruct (symbol_char c s n v E) as (N & _ & _). destruct (N H).
Qed.

Lemma word_token : forall before last c w rest v, name_start c -> Forall word_char w -> match rest with [] => True | c :: _ => ~ word_char c end ->
  word_value (c :: w) v -> read_as before last c (w ++ rest) v (S (length w)) No_data.
Proof.
  intros before last c w rest v Hc Fw Hr Hv.
  assert (Wc : word_char c) by (unfold name_start, word_char in *; lia).
  apply word_lookup in Hv.
  assert (Fk : find_keyword (c :: w ++ rest) keywords = lookup (c :: w) keywords).
  { apply (find_lookup keywords (c :: w) rest); [exact keyword_word | constructor; assumption | exact Hr]. }
  destruct (lookup (c :: w) keywords) as [[k b] |] eqn:L.
  - apply lookup_in in L. destruct L as (-> & _). exists 0%nat. intros f _. unfold read_token. rewrite Fk. subst v. destruct b; reflexivity.
  - destruct (name_loop w rest 1 Fw Hr) as (l & K). exists l. intros f Lf. unfold read_token. rewrite Fk. cbv zeta.
    rewrite (letter_symbol c _ Wc). unfold name_start in Hc.
    replace ((c =? 43) || (c =? 45)) with false by lia. replace (c =? 47) with false by lia. replace (c =? 34) with false by lia.
    replace (c =? 64) with false by lia. replace (c =? 39) with false by lia. cbn [andb].
    destruct (is_numeric_prefix c) eqn:En; [apply numeric_prefix_iff in En; lia |].
    rewrite (proj2 (name_prefix_iff c) Hc). rewrite (K f Lf). subst v. reflexivity.
Qed.

Lemma whole_words : forall r ws w rest v, pending r = None -> remaining r = ws ++ w ++ rest -> Forall white ws -> is_a_word w ->
  match rest with [] => True | c :: _ => ~ word_char c end -> word_value w v ->
  gives r (Token v (position r + length ws) (length w) No_data)
    (Reader (source r) (position r + length ws + length w) (Some v) None).
Proof.
  intros r ws w rest v P E Fw Hw Hr Hv. destruct w as [| c w]; [destruct Hw |]. destruct Hw as (Hc & Hw).
  assert (V : last_of_value v = v /\ forall p k, second_of v p k = None).
  { destruct Hv; split; reflexivity. }
  destruct V as (V1 & V2).
  pose proof (token_gives r ws c (w ++ rest) v (S (length w)) No_data P E Fw) as G. rewrite V1, V2 in G. apply G.
  - unfold name_start, white in *. lia.
  - unfold name_start in Hc. lia.
  - apply word_token; assumption.
Qed.

(** ** Integers *)

Lemma digit_word : forall d c, digit_char d c -> word_char c.
Proof. intros d c H. unfold digit_char, word_char in *. lia. Qed.

Lemma integer_shape : forall f op ds s u l suf, opening f op -> proper f ds -> spelled (base f) ds s -> suffix u l suf ->
  exists c body, op ++ s ++ suf = c :: body /\ 48 <= c <= 57 /\ Forall literal_char body.
Proof.
  intros f op ds s u l suf Ho Hp Sp Hs.
  assert (Fs : Forall literal_char s).
  { clear - Sp. unfold spelled in Sp. induction Sp as [| d c ds s (A & B) Sp IH]; constructor; [left; apply (digit_word d); exact B | exact IH]. }
  assert (Fu : Forall literal_char suf).
  { unfold suffix in Hs. destruct u, l.
    - destruct Hs as (c & d & H & ->). repeat (constructor; [left; unfold word_char; lia |]). constructor.
    - destruct Hs as (c & H & ->). constructor; [left; unfold word_char; lia | constructor].
    - destruct Hs as (c & H & ->). constructor; [left; unfold word_char; lia | constructor].
    - subst suf. constructor. }
  assert (Fsu : Forall literal_char (s ++ suf)) by (apply Forall_app; split; assumption).
  destruct f; cbn [opening proper base] in *.
  - destruct Hp as (d & r & -> & Nd). inversion Sp as [| d' c ds' s' (A & B) Sp' E1 E2]; subst. exists c, (s' ++ suf).
    split; [reflexivity | split; [unfold digit_char in B; lia |]]. cbn [app] in Fsu. apply Forall_cons_iff in Fsu. apply Fsu.
  - destruct Hp as (r & ->). inversion Sp as [| d' c ds' s' (A & B) Sp' E1 E2]; subst. exists c, (s' ++ suf).
    split; [reflexivity | split; [unfold digit_char in B; lia |]]. cbn [app] in Fsu. apply Forall_cons_iff in Fsu. apply Fsu.
  - destruct Ho as [-> | ->]; eexists 48, _; (split; [reflexivity | split; [lia |]]); (constructor; [left; unfold word_char; lia | exact Fsu]).
  - destruct Ho as [-> | ->]; eexists 48, _; (split; [reflexivity | split; [lia |]]); (constructor; [left; unfold word_char; lia | exact Fsu]).
Qed.

Lemma fits_below : forall v ts t, first_fit v ts t -> v < 2 ^ 64.
Proof. intros v ts t H. induction H as [t ts H |]; [| assumption]. destruct t; cbn in H; lia. Qed.

Lemma fit_unique : forall v ts t1 t2, first_fit v ts t1 -> first_fit v ts t2 -> t1 = t2.
Proof. intros v ts t1 t2 A. revert t2. induction A as [t ts H | t ts u H A IH]; intros t2 B; inversion B; subst; auto; contradiction. Qed.

Lemma number_keyword : forall c s, 48 <= c <= 57 -> find_keyword (c :: s) keywords = None.
Proof.
  intros c s H. destruct (find_keyword (c :: s) keywords) as [[w b] |] eqn:K; [| reflexivity]. exfalso.
  apply find_keyword_found in K. destruct K as (I & E).
  assert (F : forallb (fun p : list Z * bool => match fst p with [] => false | x :: _ => negb ((48 <=? x) && (x <=? 57)) && negb (x =? 0) end) keywords = true)
    by (vm_compute; reflexivity).
  rewrite forallb_forall in F. specialize (F _ I). cbn [fst] in F. destruct w as [| x w]; [discriminate |].
  unfold equals_keyword in E. cbn [starts_with] in E. apply andb_prop in E. destruct E as (E & _). apply andb_prop in E. destruct E as (E & _). lia.
Qed.

Lemma integer_token : forall before last f op ds s u l suf t rest c body, opening f op -> proper f ds -> spelled (base f) ds s ->
  suffix u l suf -> first_fit (LitSpec.value (base f) ds) (ladder f u l) t -> ends_here rest -> op ++ s ++ suf = c :: body ->
  read_as before last c (body ++ rest) (One Value) (S (length body)) (Number (Integer t (LitSpec.value (base f) ds) (length (op ++ s ++ suf)))).
Proof.
  intros before last f op ds s u l suf t rest c body Ho Hp Sp Hs Ft En Ec.
  destruct (integer_shape f op ds s u l suf Ho Hp Sp Hs) as (c' & b' & Ec' & Hc & Fb). rewrite Ec in Ec'. injection Ec' as <- <-.
  exists 0%nat. intros fu _. unfold read_token. rewrite (number_keyword c _ Hc). cbv zeta.
  rewrite letter_symbol by (unfold word_char; lia).
  replace ((c =? 43) || (c =? 45)) with false by lia. replace (c =? 47) with false by lia. replace (c =? 34) with false by lia.
  replace (c =? 64) with false by lia. replace (c =? 39) with false by lia. cbn [andb].
  rewrite (proj2 (numeric_prefix_iff c)) by lia.
  unfold read_number. rewrite (number_plain c body rest before (or_introl Hc) Fb En).
  assert (Tx : c :: body ++ rest = op ++ s ++ suf ++ rest) by (rewrite app_comm_cons, <- Ec, <- !app_assoc; reflexivity).
  destruct (nonnegative_ok f op ds s s u l suf rest before None [] No_sign ltac:(discriminate) Ho Hp Sp (plain_quoted _ s) Hs En)
    as [(t' & F' & E') | (F' & _)].
  - cbn [app] in E'. rewrite Tx, E'. rewrite (fit_unique _ _ _ _ F' Ft). reflexivity.
  - exfalso. pose proof (fits_below _ _ _ Ft). lia.
Qed.

(** ** Characters and line comments *)

Lemma char_token : forall before last c rest, c <> 39 -> c <> 92 -> ~ line_end c ->
  read_as before last 39 (c :: 39 :: rest) (One Value) 3 (Char c true).
Proof.
  intros before last c rest N1 N2 N3.
  assert (K : ends char_step ((1%nat, c :: 39 :: rest), 0, 0%nat, true) (3%nat, rest, Char c true)).
  { unfold line_end in N3. apply (ends_step _ _ _ _ ((2%nat, 39 :: rest), c, 1%nat, true)).
    - unfold char_step, at_spot. cbn [snd front hd advance tl]. replace (c =? 39) with false by lia. replace (c =? 92) with false by lia.
      replace ((c =? 13) || (c =? 10) || (c =? 0)) with false by lia. reflexivity.
    - apply ends_done. reflexivity. }
  destruct K as (l & K). exists l. intros f L. unfold read_token. rewrite not_keyword by (unfold word_char; lia). cbv zeta.
  unfold symbol. cbv zeta. cbn [Z.eqb Pos.eqb andb orb]. rewrite (K f L). reflexivity.
Qed.

Lemma line_comment_loop : forall s rest n, Forall (fun c => ~ line_end c) s -> match rest with [] => True | c :: _ => line_end c end ->
  ends line_comment_step (n, s ++ rest) ((n + length s)%nat, rest, No_data).
Proof.
  induction s as [| c s IH]; intros rest n F H.
  - cbn [app length]. rewrite Nat.add_0_r. apply ends_done. unfold line_comment_step, at_spot. cbn [snd].
    destruct rest as [| c r]; [reflexivity |]. cbn [front hd]. rewrite (proj2 (line_end_iff c) H). destruct (c =? 0); reflexivity.
  - apply Forall_cons_iff in F. cbn [app length]. apply (ends_step _ _ _ _ (S n, s ++ rest)).
    + unfold line_comment_step, at_spot. cbn [snd front hd advance tl].
      destruct (is_lineend c) eqn:E; [apply line_end_iff in E; destruct (proj1 F E) |].
      destruct (c =? 0) eqn:E0; [destruct (proj1 F); unfold line_end; lia | reflexivity].
    + replace (n + S (length s))%nat with (S n + length s)%nat by lia. apply IH; [apply F | exact H].
Qed.

Lemma line_comment_token : forall before last s rest, Forall (fun c => ~ line_end c) s -> match rest with [] => True | c :: _ => line_end c end ->
  read_as before last 47 (47 :: s ++ rest) (One Comment) (S (S (length s))) No_data.
Proof.
  intros before last s rest F H. destruct (line_comment_loop s rest 2 F H) as (l & K). exists l. intros f L.
  unfold read_token. rewrite not_keyword by (unfold word_char; lia). cbv zeta. cbn [nth Z.eqb Pos.eqb andb orb tl].
  rewrite (K f L). reflexivity.
Qed.

Lemma block_comment_loop : forall s rest n, ~ In 0 s -> (forall a b, s ++ [42; 47] = a ++ 42 :: 47 :: b -> b = []) ->
  ends block_comment_step (n, s ++ 42 :: 47 :: rest) ((n + length s + 2)%nat, rest, No_data).
Proof.
  induction s as [| c s IH]; intros rest n Nz H.
  - apply ends_done. cbn. replace (n + 0 + 2)%nat with (S (S n)) by lia. reflexivity.
  - cbn [app length]. apply (ends_step _ _ _ _ (S n, s ++ 42 :: 47 :: rest)).
    + unfold block_comment_step, at_spot. cbn [snd front hd advance tl].
      replace (c =? 0) with false by (destruct (Z.eqb_spec c 0); [destruct Nz; left; assumption | reflexivity]).
      destruct ((c =? 42) && (front (s ++ 42 :: 47 :: rest) =? 47)) eqn:E; [| reflexivity]. exfalso.
      apply andb_prop in E. destruct E as (E1 & E2). apply Z.eqb_eq in E1, E2. subst c.
      destruct s as [| d s]; [discriminate |]. cbn [app front hd] in E2. subst d.
      specialize (H [] (s ++ [42; 47]) eq_refl). apply app_eq_nil in H. destruct H as (_ & H). discriminate.
    + replace (n + S (length s) + 2)%nat with (S n + length s + 2)%nat by lia. apply IH; [intros X; apply Nz; right; exact X |].
      intros a b E. apply (H (c :: a) b). cbn [app]. rewrite E. reflexivity.
Qed.

Lemma block_comment_token : forall before last s rest, ~ In 0 s -> (forall a b, s ++ [42; 47] = a ++ 42 :: 47 :: b -> b = []) ->
  read_as before last 47 (42 :: s ++ 42 :: 47 :: rest) (One Comment) (length s + 4) No_data.
Proof.
  intros before last s rest Nz H. destruct (block_comment_loop s rest 2 Nz H) as (l & K). exists l. intros f L.
  unfold read_token. rewrite not_keyword by (unfold word_char; lia). cbv zeta. cbn [nth Z.eqb Pos.eqb andb orb tl].
  rewrite (K f L). cbn [read_loop]. f_equal. lia.
Qed.

Lemma char_escape_token : forall before last e c rest, In (e, c) escapes -> e <> 102 ->
  read_as before last 39 (92 :: e :: 39 :: rest) (One Value) 4 (Char c true).
Proof.
  intros before last e c rest I N. destruct (escape_known e c I N) as (Ec & Ez).
  assert (K : ends char_step ((1%nat, 92 :: e :: 39 :: rest), 0, 0%nat, true) (4%nat, rest, Char c true)).
  { apply (ends_step _ _ _ _ ((3%nat, 39 :: rest), c, 1%nat, true)).
    - unfold char_step, at_spot. cbn [snd front hd advance tl Z.eqb Pos.eqb]. replace (e =? 0) with false by lia. rewrite Ec. reflexivity.
    - apply ends_done. reflexivity. }
  destruct K as (l & K). exists l. intros f L. unfold read_token. rewrite not_keyword by (unfold word_char; lia). cbv zeta.
  unfold symbol. cbv zeta. cbn [Z.eqb Pos.eqb andb orb]. rewrite (K f L). reflexivity.
Qed.

Lemma at_name_token : forall before last w rest, is_a_word w -> match rest with [] => True | c :: _ => ~ word_char c end ->
  read_as before last 64 (w ++ rest) (One Name) (S (length w)) No_data.
Proof.
  intros before last w rest Hw Hr. destruct w as [| c w]; [destruct Hw |]. destruct Hw as (Hc & Fw).
  assert (Wc : word_char c) by (unfold name_start, word_char in *; lia).
  destruct (name_loop (c :: w) rest 1 ltac:(constructor; assumption) Hr) as (l & K). exists l. intros f L.
  unfold read_token. rewrite not_keyword by (unfold word_char; lia). cbv zeta. unfold symbol. cbv zeta. cbn [Z.eqb Pos.eqb andb orb app nth].
  unfold name_start in Hc. replace (c =? 34) with false by lia. rewrite (proj2 (name_prefix_iff c) Hc).
  cbn [app] in K. rewrite (K f L). reflexivity.
Qed.

(** ** Lexemes *)

Lemma boundary_not_word : forall s, at_boundary s -> match s with [] => True | c :: _ => ~ word_char c end.
Proof. intros [| c s] H; [exact I |]. cbn in H. unfold white, word_char in *. lia. Qed.

Lemma boundary_ends : forall s, at_boundary s -> ends_here s.
Proof. intros [| c s] H; [exact I |]. cbn in H |- *. unfold white, literal_char, word_char in *. lia. Qed.

Lemma lexeme_read : forall w v d rest before last, lexeme w v d -> at_boundary rest ->
  (forall a, w = 47 :: 47 :: a -> match rest with [] => True | c :: _ => line_end c end) ->
  exists c u, w = c :: u /\ ~ white c /\ c <> 0 /\ read_as before last c (u ++ rest) v (length w) d.
Proof.
  intros w v d rest before last L B Cm. destruct L as [w v Hw Hv | w v Hs | f op ds s u l suf t Ho Hp Sp Hs Ft | src str D | c N1 N2 N3 | s F | s Nz F | e c I N | w Hw].
  - destruct w as [| c w]; [destruct Hw |]. destruct Hw as (Hc & Hw). exists c, w. split; [reflexivity |].
    split; [unfold name_start, white in *; lia | split; [unfold name_start in Hc; lia |]].
    apply word_token; try assumption. apply boundary_not_word. exact B.
  - assert (Sy : forall w v rest, is_symbol w v -> at_boundary rest -> exists c u, w = c :: u /\ symbol c (u ++ rest) = Some (length u, v)
               /\ ~ comment_start (w ++ rest) /\ ~ signed_number (w ++ rest)).
    { clear. intros w v rest H B.
      assert (Ww : rest = [] \/ exists c r, rest = c :: r /\ white c) by (destruct rest as [| c r]; [left; reflexivity | right; exists c, r; split; [reflexivity | exact B]]).
      unfold is_symbol, symbols in H. vm_compute in H.
      repeat match type of H with _ \/ _ => destruct H as [H | H] end; try contradiction; injection H as <- <-;
        (do 2 eexists; split; [reflexivity |]);
        destruct Ww as [-> | (c & r & -> & W)]; try unfold white in W;
        (split; [unfold symbol; cbv zeta; cbn [nth app Z.eqb Pos.eqb andb length];
                 repeat match goal with |- context [c =? ?k] => replace (c =? k) with false by lia end; reflexivity |]);
        (split; [intros [(t & X) | (t & X)]; cbn [app] in X; inversion X; subst; try discriminate; lia
                | intros (x & y & t & X & Y & Z0); cbn [app] in X; inversion X; subst; lia]). }
    destruct (Sy w v rest Hs B) as (c & u & -> & S1 & S2 & S3). exists c, u. split; [reflexivity |].
    destruct (symbol_char _ _ _ _ S1) as (_ & Nw & Nz). split; [exact Nw | split; [exact Nz |]].
    exact (symbol_token before last c (u ++ rest) (length u) v S1 S2 S3).
  - destruct (integer_shape f op ds s u l suf Ho Hp Sp Hs) as (c & body & E & Hc & Fb). exists c, body. split; [exact E |].
    split; [unfold white; lia | split; [lia |]]. pose proof (integer_token before last f op ds s u l suf t rest c body Ho Hp Sp Hs Ft (boundary_ends rest B) E) as X.
    rewrite E in X |- *. exact X.
  - exists 34, (src ++ [34]). split; [reflexivity |]. split; [unfold white; lia | split; [lia |]].
    rewrite <- app_assoc. cbn [app]. replace (length (34 :: src ++ [34])) with (S (S (length src))) by (cbn [length]; rewrite app_length; cbn [length]; lia).
    apply string_token. exact D.
  - exists 39, [c; 39]. split; [reflexivity |]. split; [unfold white; lia | split; [lia |]]. cbn [app length]. apply char_token; assumption.
  - exists 47, (47 :: s). split; [reflexivity |]. split; [unfold white; lia | split; [lia |]]. cbn [app length].
    apply line_comment_token; [exact F |]. exact (Cm s eq_refl).
  - exists 47, (42 :: s ++ [42; 47]). split; [reflexivity |]. split; [unfold white; lia | split; [lia |]].
    cbn [app]. rewrite <- app_assoc. cbn [app]. replace (length (47 :: 42 :: s ++ [42; 47])) with (length s + 4)%nat
      by (cbn [length]; rewrite app_length; cbn [length]; lia).
    apply block_comment_token; assumption.
  - exists 39, [92; e; 39]. split; [reflexivity |]. split; [unfold white; lia | split; [lia |]]. cbn [app length]. apply char_escape_token; assumption.
  - exists 64, w. split; [reflexivity |]. split; [unfold white; lia | split; [lia |]]. apply at_name_token; [exact Hw |].
    apply boundary_not_word. exact B.
Qed.

(** ** Texts *)

Lemma written_boundary : forall p s ts, written false p s ts -> at_boundary s.
Proof.
  intros p s ts H. remember false as b eqn:Eb. destruct H as [first p ws Fw | first p ws w v d s ts Fw Ne L Cm W].
  - destruct ws as [| c ws]; [exact I |]. apply Forall_cons_iff in Fw. apply Fw.
  - specialize (Ne Eb). destruct ws as [| c ws]; [congruence |]. apply Forall_cons_iff in Fw. cbn. apply Fw.
Qed.

Definition finishes_with (r : reader) (ts : list token) : Prop :=
  exists f0 c0, forall f c, (f0 <= f)%nat -> (c0 <= c)%nat -> read_all f c r = Tokens ts.

Lemma finishes_with_next : forall r r' t ts, gives r t r' -> finishes_with r' ts -> finishes_with r (t :: ts).
Proof.
  intros r r' t ts (l & K) (f0 & c0 & H). exists (max l f0), (S c0). intros f [| c] Lf Lc; [lia |].
  cbn [read_all]. rewrite (K f ltac:(lia)), (H f c ltac:(lia) ltac:(lia)). reflexivity.
Qed.

Lemma written_read : forall first p s ts, written first p s ts -> forall r, pending r = None -> position r = p -> remaining r = s ->
  finishes_with r ts.
Proof.
  intros first p s ts W. induction W as [first p ws Fw | first p ws w v d s ts Fw Ne L Cm W IH]; intros r P Ep E.
  - destruct (next_end r ws [] P ltac:(rewrite app_nil_r; exact E) Fw eq_refl) as (l & K). exists l, 1%nat.
    intros f [| c] Lf Lc; [lia |]. cbn [read_all]. rewrite (K f Lf). reflexivity.
  - assert (B : at_boundary s) by (eapply written_boundary; exact W).
    destruct (lexeme_read w v d s (before_at (source r) (position r + length ws)) (last_value r) L B Cm) as (c & u & -> & Nw & Nz & R).
    cbn [app] in E. pose proof (token_gives r ws c (u ++ s) v _ d P E Fw Nw Nz R) as G.
    assert (Sk : skipn (p + length ws + length (c :: u)) (source r) = s).
    { rewrite <- !skipn_plus. rewrite <- Ep at 1. fold (remaining r). rewrite E. rewrite skipn_app, skipn_all, Nat.sub_diag. cbn [app].
      change (skipn 0 (c :: u ++ s)) with ((c :: u) ++ s). rewrite skipn_app, skipn_all, Nat.sub_diag. reflexivity. }
    subst p. unfold lexeme_tokens. cbn [app].
    eapply finishes_with_next; [exact G |].
    assert (Sv : second_of v (position r + length ws) (length (c :: u)) = None
                 \/ exists ks, v = Any (Right_shift :: ks)).
    { unfold second_of. destruct v as [| [| [] ks] |]; try (left; reflexivity). right. exists ks. reflexivity. }
    destruct Sv as [Sv | (ks & ->)].
    + replace (match v with Any (Right_shift :: _) => [Token (Any [Empty; Right_angle]) (position r + length ws) (length (c :: u)) No_data] | _ => [] end) with (@nil token)
        by (unfold second_of in Sv; destruct v as [| [| [] ks] |]; try reflexivity; discriminate).
      cbn [app]. rewrite Sv. apply IH; [reflexivity | reflexivity | exact Sk].
    + cbn [second_of last_of_value app]. eapply finishes_with_next.
      * exists 0%nat. intros f _. unfold next. cbn [pending]. reflexivity.
      * apply IH; [reflexivity | reflexivity | exact Sk].
Qed.

Lemma text_read : forall s ts, written true 0 s ts -> reads s ts.
Proof.
  intros s ts W. destruct (written_read true 0 s ts W (start_reader s) eq_refl eq_refl eq_refl) as (f0 & c0 & H). exists f0, c0. apply H; lia.
Qed.
