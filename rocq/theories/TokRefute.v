(** Source texts that the tokeniser does not read as it should. *)

From Coq Require Import String Ascii ZArith List Bool Lia.
Import ListNotations.
From Verif Require Import CppInt StrModel LitModel LitSpec LitProofs TokModel TokSpec TokProofs TokText.
Open Scope Z_scope.

(** A call that gives a token gives no other token. *)
Lemma gives_only : forall r t r' fuel r1 t1, gives r t r' -> (forall more, next (fuel + more) r = Next r1 t1) -> t = t1.
Proof.
  intros r t r' fuel r1 t1 (l & K) H. specialize (K (fuel + l)%nat ltac:(lia)). rewrite (H l) in K. injection K as _ ->. reflexivity.
Qed.

Lemma form_feed : forall str, denotes (fun _ => True) [92; 102] str -> str = [12].
Proof.
  intros str D. inversion D as [| c src s N1 N2 N3 D' E1 E2 | e c src s I O D' E1 E2]; subst.
  - congruence.
  - inversion D'; subst. vm_compute in I. repeat match type of I with _ \/ _ => destruct I as [I | I] end; try contradiction; inversion I. reflexivity.
Qed.

(** The escape for the form feed gives the letter f. *)
Lemma form_feed_read : forall more, next (20 + more) (start_reader [34; 92; 102; 34])
  = Next (Reader [34; 92; 102; 34] 4 (Some (One Value)) None) (Token (One Value) 0 4 (String [102] true)).
Proof. intros more. reflexivity. Qed.

Lemma string_wrong : ~ forall r ws src str rest, pending r = None -> remaining r = ws ++ 34 :: src ++ 34 :: rest -> Forall white ws ->
  denotes (fun _ => True) src str ->
  gives r (Token (One Value) (position r + length ws) (S (S (length src))) (String str true))
    (Reader (source r) (position r + length ws + S (S (length src))) (Some (One Value)) None).
Proof.
  intros H. specialize (H (start_reader [34; 92; 102; 34]) [] [92; 102] [12] [] eq_refl eq_refl (Forall_nil _)).
  assert (D : denotes (fun _ => True) [92; 102] [12]).
  { apply (Denotes_escape _ 102 12 [] []); [vm_compute; tauto | exact I | constructor]. }
  specialize (H D). pose proof (gives_only _ _ _ 20 _ _ H form_feed_read) as E. discriminate.
Qed.

(** The escape for the zero character ends the string. *)
Lemma zero_read : forall more, next (20 + more) (start_reader [34; 97; 92; 48; 98; 34])
  = Next (Reader [34; 97; 92; 48; 98; 34] 6 (Some (One Value)) None) (Token (One Value) 0 6 (String [97] true)).
Proof. intros more. reflexivity. Qed.

Lemma zero_denotes : denotes (fun _ => True) [97; 92; 48; 98] [97; 0; 98].
Proof.
  apply Denotes_plain; [lia | lia | lia |]. apply Denotes_escape; [vm_compute; tauto | exact I |].
  apply Denotes_plain; [lia | lia | lia | constructor].
Qed.

(** A doubled quote in a verbatim string ends it with an error. *)
Lemma doubled_read : forall more, next (20 + more) (start_reader [64; 34; 97; 34; 34; 98; 34])
  = Next (Reader [64; 34; 97; 34; 34; 98; 34] 5 (Some (One Value)) None) (Token (One Value) 0 5 (String [97; 34] false)).
Proof. intros more. reflexivity. Qed.

Lemma verbatim_wrong : ~ forall r ws str rest, pending r = None -> remaining r = ws ++ 64 :: 34 :: doubled str ++ 34 :: rest ->
  Forall white ws -> ~ In 0 str -> match rest with 34 :: _ => False | _ => True end ->
  gives r (Token (One Value) (position r + length ws) (S (S (S (length (doubled str))))) (String str true))
    (Reader (source r) (position r + length ws + S (S (S (length (doubled str))))) (Some (One Value)) None).
Proof.
  intros H. specialize (H (start_reader [64; 34; 97; 34; 34; 98; 34]) [] [97; 34; 98] [] eq_refl eq_refl (Forall_nil _)).
  specialize (H ltac:(cbn; lia) I). pose proof (gives_only _ _ _ 20 _ _ H doubled_read) as E. discriminate.
Qed.

(** A character literal that is not closed. *)
Lemma endless_quote : forall fuel calls, read_all fuel calls (start_reader [39; 97; 10; 98; 39]) = Not_finished.
Proof.
  intros fuel [| calls]; [reflexivity |]. cbn [read_all].
  assert (E : next fuel (start_reader [39; 97; 10; 98; 39]) = Endless).
  { destruct fuel as [| fuel]; [reflexivity |]. unfold next. cbn [pending start_reader source position skipn]. cbv zeta.
    cbn [repeat_step whitespace_step at_spot advance snd fst front hd tl].
    unfold read_token, read_loop.
    assert (U : unclosed [10; 98; 39]).
    { apply Unclosed_line. unfold line_end. lia. }
    cbn. rewrite (unclosed_loops _ U). reflexivity. }
  rewrite E. reflexivity.
Qed.

Lemma terminates_wrong : ~ forall s, exists ts, reads s ts.
Proof.
  intros H. destruct (H [39; 97; 10; 98; 39]) as (ts & f & c & E). rewrite endless_quote in E. discriminate.
Qed.

(** A minus sign after a closing bracket. *)
Lemma bracket_read : read_all 20 10 (start_reader [41; 45; 49])
  = Tokens [Token (One Right_bracket) 0 1 No_data; Token (One Value) 1 2 (Number (Integer I32 (-1) 2))].
Proof. vm_compute. reflexivity. Qed.

Lemma sign_wrong : ~ forall s ts i t1 t2, reads s ts -> nth_error ts i = Some t1 -> nth_error ts (S i) = Some t2 ->
  operand t1 \/ token_value t1 = One Right_bracket \/ token_value t1 = One Right_square ->
  nth (token_start t2) s 0 = 45 -> minus_values (token_value t2).
Proof.
  intros H. specialize (H [41; 45; 49] _ 0%nat _ _ (ex_intro _ 20%nat (ex_intro _ 10%nat bracket_read)) eq_refl eq_refl).
  specialize (H ltac:(right; left; reflexivity) eq_refl). destruct H as [H | [H | H]]; discriminate.
Qed.
