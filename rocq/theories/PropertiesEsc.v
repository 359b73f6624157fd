(** C133: string constants are shown in the form in which they are written. *)
From Coq Require Import List Bool ZArith Lia.
From Verif Require Import TokModel TokSpec EscModel EscSpec EscProofs EscExamples.
Import ListNotations.
Open Scope Z_scope.

(** C133.  The text shown for a string, wherever it stands, is read as one token with
    that string.  Missing: strings with a form feed, a NUL or another character below
    the blank that has no escape, for which it is refuted below. *)
Theorem C133_read_back_partial r ws s rest : ordinary s ->
  pending r = None -> remaining r = ws ++ shown s ++ rest -> Forall white ws ->
  gives r (Token (One Value) (position r + length ws) (length (shown s)) (String s true))
    (Reader (source r) (position r + length ws + length (shown s)) (Some (One Value)) None).
Proof. exact (read_back r ws s rest). Qed.
Print Assumptions C133_read_back_partial.

Example C133_case : ordinary text1 /\
  shown text1 = [34; 104; 92; 110; 92; 34; 92; 92; 92; 116; 20013; 34] /\
  reads (shown text1) [Token (One Value) 0 12 (String text1 true)].
Proof. split; [exact text1_ordinary|]. split; [reflexivity|]. exists 30%nat, 10%nat. vm_compute. reflexivity. Qed.

(** What is shown is the source form of the string: the quotes around its characters,
    each one as it is or as its escape. *)
Theorem C133_form s : ordinary s ->
  exists src, shown s = 34 :: src ++ [34] /\ denotes (fun e => e <> 48 /\ e <> 102) src s.
Proof. exact (shown_form s). Qed.
Print Assumptions C133_form.

(** Every character that has an escape is shown as its escape, and so what is shown is
    one line and can stand between apostrophes as well. *)
Theorem C133_escapes s : (forall c, In c s -> 32 <= c \/ 7 <= c <= 13) ->
  exists src, shown s = 34 :: src ++ [34] /\ all_escaped src s.
Proof. exact (shown_escaped s). Qed.
Print Assumptions C133_escapes.

Example C133_escapes_case : (forall c, In c [12; 39; 65] -> 32 <= c \/ 7 <= c <= 13) /\
  shown [12; 39; 65] = [34; 92; 102; 92; 39; 65; 34].
Proof. split; [intros c H; cbn [In] in H; lia | reflexivity]. Qed.

(** With or without a length, the same text is shown for a string without NUL. *)
Theorem C133_length s : no_nul s -> escape_string true s = escape_string false s.
Proof. exact (same_text s). Qed.
Print Assumptions C133_length.

(** Different strings are shown as different texts, with all control characters. *)
Theorem C133_different s t : no_nul s -> no_nul t -> shown s = shown t -> s = t.
Proof. exact (shown_injective s t). Qed.
Print Assumptions C133_different.

Example C133_different_case : no_nul [1; 92; 110] /\ no_nul [1; 10] /\
  shown [1; 92; 110] = [34; 92; 120; 0; 1; 92; 92; 110; 34] /\ shown [1; 10] = [34; 92; 120; 0; 1; 92; 110; 34].
Proof. repeat split; cbv; intros H; intuition discriminate. Qed.

(** A form feed is shown with an escape that is read as the letter f. *)
Theorem C133_form_feed_refuted : shown [12] = [34; 92; 102; 34] /\
  reads (shown [12]) [Token (One Value) 0 4 (String [102] true)].
Proof. split; [reflexivity|]. exists 20%nat, 10%nat. vm_compute. reflexivity. Qed.
Print Assumptions C133_form_feed_refuted.

(** Any other control character is shown as a text in which the reader finds an error,
    and the string it goes on with is another one. *)
Theorem C133_control_refuted c : 0 < c < 32 -> ~ In c [7; 8; 9; 10; 11; 12; 13] ->
  shown [c] = [34; 92; 120; c / 16; c mod 16; 34] /\
  exists r l x, gives (start_reader (shown [c])) (Token (One Value) 0 l (String x false)) r /\ x <> [c].
Proof. exact (control_refused c). Qed.
Print Assumptions C133_control_refuted.

(** A string is cut at the first NUL. *)
Theorem C133_nul_refuted s t : no_nul s -> shown (s ++ 0 :: t) = shown s.
Proof. exact (shown_cut s t). Qed.
Print Assumptions C133_nul_refuted.

Example C133_nul_case : no_nul [97] /\ shown [97; 0; 98] = shown [97] /\ [97; 0; 98] <> [97].
Proof. repeat split; [cbv; intros H; intuition discriminate | discriminate]. Qed.
