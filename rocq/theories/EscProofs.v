(** Proofs about strings that are shown. *)
From Coq Require Import List Bool ZArith Lia.
From Verif Require Import TokModel TokSpec TokText TokProofs EscModel EscSpec.
Import ListNotations.
Open Scope Z_scope.

Lemma until_all s : no_nul s -> escape_until s = escape_all s.
Proof.
  induction s as [|c s IH]; [reflexivity|]. intros N. cbn [escape_until escape_all].
  destruct (Z.eqb_spec c 0) as [->|]; [exfalso; apply N; now left|].
  rewrite IH; [reflexivity|]. intros H. apply N. now right.
Qed.

Lemma string_all b s : no_nul s -> escape_string b s = escape_all s.
Proof.
  intros N. unfold escape_string. destruct s as [|c s]; [reflexivity|].
  destruct (Z.eqb_spec c 0) as [->|]; [exfalso; apply N; now left|].
  destruct b; [reflexivity | now apply until_all].
Qed.

Ltac escape_cases c :=
  repeat match goal with
  | |- context [?x =? ?k] => destruct (Z.eqb_spec x k); [subst|]
  end.

Lemma escape_denotes c src s : printable c ->
  denotes (fun e => e <> 48 /\ e <> 102) src s ->
  denotes (fun e => e <> 48 /\ e <> 102) (escape c ++ src) (c :: s).
Proof.
  intros P D. unfold escape.
  repeat match goal with
  | |- context [c =? ?k] => destruct (Z.eqb_spec c k) as [->|?];
      [first [ now (apply Denotes_escape; [unfold escapes; cbn [In]; tauto | lia | exact D])
             | (exfalso; unfold printable in P; cbn [In] in P; lia) ] |]
  end.
  unfold printable in P. cbn [In] in P.
  destruct (Z.ltb_spec c 32); [exfalso; lia|]. cbn [app]. apply Denotes_plain; [lia | lia | lia | exact D].
Qed.

Lemma all_denotes s : ordinary s -> denotes (fun e => e <> 48 /\ e <> 102) (escape_all s) s.
Proof.
  induction s as [|c s IH]; intros O; cbn [escape_all]; [constructor|].
  apply escape_denotes; [apply O; now left|]. apply IH. intros d Hd. apply O. now right.
Qed.

Lemma ordinary_no_nul s : ordinary s -> no_nul s.
Proof. intros O H. specialize (O 0 H). unfold printable in O. cbn [In] in O. lia. Qed.

Lemma shown_all s : no_nul s -> shown s = 34 :: escape_all s ++ [34].
Proof. intros N. unfold shown. now rewrite (string_all false s N). Qed.

Lemma read_back r ws s rest : ordinary s -> pending r = None -> remaining r = ws ++ shown s ++ rest ->
  Forall white ws ->
  gives r (Token (One Value) (position r + length ws) (length (shown s)) (String s true))
    (Reader (source r) (position r + length ws + length (shown s)) (Some (One Value)) None).
Proof.
  intros O P R W. rewrite (shown_all s (ordinary_no_nul s O)) in *.
  assert (L : length (34 :: escape_all s ++ [34]) = S (S (length (escape_all s)))).
  { cbn [length]. rewrite app_length. cbn [length]. lia. }
  rewrite L. apply (string_ok r ws (escape_all s) s rest P); [|exact W | now apply all_denotes].
  rewrite R. cbn [app]. now rewrite <- app_assoc.
Qed.

(** *** Different strings are shown differently. *)
Definition decode (s : str) : option (Z * str) :=
  match s with
  | [] => None
  | c :: r =>
      if c =? 92 then
        match r with
        | [] => None
        | d :: r' =>
            if d =? 110 then Some (10, r')
            else if d =? 114 then Some (13, r')
            else if d =? 116 then Some (9, r')
            else if d =? 97 then Some (7, r')
            else if d =? 98 then Some (8, r')
            else if d =? 102 then Some (12, r')
            else if d =? 118 then Some (11, r')
            else if d =? 120 then match r' with a :: b :: r'' => Some (16 * a + b, r'') | _ => None end
            else Some (d, r')
        end
      else Some (c, r)
  end.

Lemma decode_escape c r : decode (escape c ++ r) = Some (c, r).
Proof.
  unfold escape.
  repeat match goal with
  | |- context [if c =? ?k then _ else _] => destruct (Z.eqb_spec c k) as [->|?]; [reflexivity|]
  end.
  destruct (c <? 32); cbn [app decode].
  - change (92 =? 92) with true. cbn [Z.eqb Pos.eqb]. f_equal. f_equal. pose proof (Z.div_mod c 16). lia.
  - destruct (Z.eqb_spec c 92); [contradiction | reflexivity].
Qed.

Lemma escape_nonempty c : escape c <> [].
Proof. intros H. pose proof (decode_escape c []) as D. rewrite H in D. discriminate D. Qed.

Lemma all_injective s : forall t, escape_all s = escape_all t -> s = t.
Proof.
  induction s as [|c s IH]; intros [|d t] E; cbn [escape_all] in E; [reflexivity | | |].
  - symmetry in E. apply app_eq_nil in E. destruct E as [E _]. now apply escape_nonempty in E.
  - apply app_eq_nil in E. destruct E as [E _]. now apply escape_nonempty in E.
  - pose proof (decode_escape c (escape_all s)) as A. rewrite E, decode_escape in A.
    injection A as -> F. f_equal. now apply IH.
Qed.

Lemma shown_injective s t : no_nul s -> no_nul t -> shown s = shown t -> s = t.
Proof.
  intros A B. rewrite (shown_all s A), (shown_all t B). intros [= E]. apply app_inv_tail in E.
  now apply all_injective.
Qed.

Lemma shown_form s : ordinary s ->
  exists src, shown s = 34 :: src ++ [34] /\ denotes (fun e => e <> 48 /\ e <> 102) src s.
Proof.
  intros O. exists (escape_all s). split; [apply shown_all; now apply ordinary_no_nul | now apply all_denotes].
Qed.

Lemma same_text s : no_nul s -> escape_string true s = escape_string false s.
Proof. intros N. now rewrite !string_all. Qed.

Lemma until_cut s t : no_nul s -> escape_until (s ++ 0 :: t) = escape_until s.
Proof.
  induction s as [|c s IH]; [reflexivity|]. intros N. cbn [escape_until app].
  destruct (c =? 0); [reflexivity|]. rewrite IH; [reflexivity|]. intros H. apply N. now right.
Qed.

Lemma shown_cut s t : no_nul s -> shown (s ++ 0 :: t) = shown s.
Proof.
  intros N. unfold shown, escape_string. destruct s as [|c s]; [reflexivity|].
  cbn [app]. destruct (Z.eqb_spec c 0); [reflexivity|].
  change (c :: s ++ 0 :: t) with ((c :: s) ++ 0 :: t). now rewrite until_cut.
Qed.

Lemma refused_by r t r' : (forall more, next (20 + more) r = Next r' t) -> gives r t r'.
Proof. intros H. exists 20%nat. intros fuel L. replace fuel with (20 + (fuel - 20))%nat by lia. apply H. Qed.

Ltac refused_text :=
  match goal with |- exists r l x, gives (start_reader ?s) _ _ /\ _ =>
    let o := eval vm_compute in (next 20 (start_reader s)) in
    match o with Next ?r' (Token _ _ ?l' (String ?x' _)) =>
      exists r', l', x'; split; [apply refused_by; intros more; vm_compute; reflexivity | discriminate]
    end
  end.

Lemma control_refused c : 0 < c < 32 -> ~ In c [7; 8; 9; 10; 11; 12; 13] ->
  shown [c] = [34; 92; 120; c / 16; c mod 16; 34] /\
  exists r l x, gives (start_reader (shown [c])) (Token (One Value) 0 l (String x false)) r /\ x <> [c].
Proof.
  intros R N. cbn [In] in N.
  assert (C : In c [1;2;3;4;5;6;14;15;16;17;18;19;20;21;22;23;24;25;26;27;28;29;30;31]) by (cbn [In]; lia).
  clear R N. cbn [In] in C.
  repeat (destruct C as [<-|C];
    [split; [reflexivity|]; refused_text |]).
  destruct C.
Qed.

Lemma escaped_one c src s : 32 <= c \/ 7 <= c <= 13 -> all_escaped src s ->
  all_escaped (escape c ++ src) (c :: s).
Proof.
  intros P D. unfold escape.
  repeat match goal with
  | |- context [c =? ?k] => destruct (Z.eqb_spec c k) as [->|?];
      [now (apply Escaped_escape; [unfold escapes; cbn [In]; tauto | exact D]) |]
  end.
  destruct (Z.ltb_spec c 32); [exfalso; lia|]. cbn [app]. apply Escaped_plain; [lia | | exact D].
  intros e H1. unfold escapes in H1. cbn [In] in H1.
  repeat (destruct H1 as [H1|H1]; [injection H1; intros; lia|]). exact H1.
Qed.

Lemma shown_escaped s : (forall c, In c s -> 32 <= c \/ 7 <= c <= 13) ->
  exists src, shown s = 34 :: src ++ [34] /\ all_escaped src s.
Proof.
  intros O. exists (escape_all s). split.
  - apply shown_all. intros H. specialize (O 0 H). lia.
  - induction s as [|c s IH]; [constructor|]. cbn [escape_all]. apply escaped_one; [apply O; now left|].
    apply IH. intros d Hd. apply O. now right.
Qed.
