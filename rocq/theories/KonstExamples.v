(* Programs for PropertiesKonst.v. *)
From Coq Require Import ZArith List Bool Arith Lia.
From Coq Require Import Relations.Relation_Operators.
From Verif Require Import CppInt ArithModel ExprModel KonstModel KonstSpec KonstProofs.
Import ListNotations.
Open Scope Z_scope.

(* The fields 0, 1, ... of a program: const, value type, initialiser *)
Definition row : Type := bool * vty * option kexp.

Definition build (ts : list ktype) (rows : list row) : prog :=
  {| ptypes := ts;
     pconst := fun f => match nth_error rows f with Some (c, _, _) => c | None => false end;
     pvt := fun f => match nth_error rows f with Some (_, t, _) => t | None => Vi I32 end;
     pinit := fun f => match nth_error rows f with Some (_, _, i) => i | None => None end |}.

Definition properb (v : tval) : bool :=
  match fst v with Vi t => in_rangeb t (snd v) | Vb => (snd v =? 0) || (snd v =? 1) end.

Fixpoint numbersb (e : kexp) : bool :=
  match e with
  | KNum v => properb v
  | KField _ | KNone => true
  | KBin _ e1 e2 | KCall e1 e2 => numbersb e1 && numbersb e2
  | KUn _ e1 | KCast _ e1 => numbersb e1
  | KCond c e1 e2 => numbersb c && numbersb e1 && numbersb e2
  end.

Lemma numbersb_proper : forall e, numbersb e = true -> proper_numbers e.
Proof.
  induction e; cbn [numbersb proper_numbers]; rewrite ?andb_true_iff; try tauto.
  unfold properb, proper. destruct (fst v).
  - apply in_rangeb_iff.
  - rewrite orb_true_iff, !Z.eqb_eq. tauto.
Qed.

Definition vtyb (a b : vty) : bool :=
  match a, b with Vi s, Vi t => ity_eqb s t | Vb, Vb => true | _, _ => false end.

Lemma vtyb_eq : forall a b, vtyb a b = true -> a = b.
Proof.
  intros [s|] [t|]; cbn [vtyb]; try discriminate; auto. intros E. apply ity_eqb_eq in E. now subst.
Qed.

Fixpoint onceb (l : list fid) : bool :=
  match l with [] => true | f :: r => negb (existsb (Nat.eqb f) r) && onceb r end.

Lemma onceb_nodup : forall l, onceb l = true -> NoDup l.
Proof.
  induction l as [|f r IH]; cbn [onceb]; [constructor|].
  rewrite andb_true_iff, negb_true_iff. intros [A B]. constructor; auto.
  intros I. assert (X : existsb (Nat.eqb f) r = true) by (apply existsb_exists; exists f; split; auto; apply Nat.eqb_refl).
  congruence.
Qed.

Definition sourceb (ts : list ktype) (rows : list row) : bool :=
  onceb (concat (map kfields ts)) &&
  forallb (fun T => match kenum T with
    | None => true
    | Some t => forallb (fun f => pconst (build ts rows) f && vtyb (pvt (build ts rows) f) (Vi t)) (kfields T)
    end) ts &&
  forallb (fun r : row => match snd r with
    | None => true
    | Some e => numbersb e && forallb (fun g => existsb (Nat.eqb g) (concat (map kfields ts))) (names e)
    end) rows.

Lemma sourceb_source : forall ts rows, sourceb ts rows = true -> source (build ts rows).
Proof.
  intros ts rows Q. unfold sourceb in Q. rewrite !andb_true_iff in Q. destruct Q as [[A B] C].
  rewrite forallb_forall in B, C.
  assert (R : forall f e, pinit (build ts rows) f = Some e -> exists r, In r rows /\ snd r = Some e).
  { intros f e E. cbn in E. destruct (nth_error rows f) as [[[c t] i]|] eqn:N; [|discriminate].
    apply nth_error_In in N. eexists. split; [exact N|]. exact E. }
  constructor.
  - apply onceb_nodup. exact A.
  - intros T t f [IT IF] K. specialize (B T IT). rewrite K in B. rewrite forallb_forall in B.
    specialize (B f IF). apply andb_true_iff in B. destruct B as [B1 B2]. split; auto. apply vtyb_eq. exact B2.
  - intros f g (e & E & O). destruct (R f e E) as (r & IR & ER). specialize (C r IR). rewrite ER in C.
    apply andb_true_iff in C. destruct C as [_ C]. rewrite forallb_forall in C.
    apply names_occurs in O. specialize (C g O). apply existsb_exists in C.
    destruct C as (x & I & X). apply Nat.eqb_eq in X. subst x. exact I.
  - intros f e E. destruct (R f e E) as (r & IR & ER). specialize (C r IR). rewrite ER in C.
    apply andb_true_iff in C. apply numbersb_proper. tauto.
Qed.

Definition fld (n : nat) : kexp := KField n.

Definition int (z : Z) : kexp := KNum (Vi I32, z).

(* enum Color : int  { Red, Green = 5, Blue }
   enum Mask  : byte { A = 1, B = A * 2, C }
   class Limits { const int Max = Color.Blue + Step; static int now; const int Step = 3; } *)
Definition colors : prog := build
  [{| kenum := Some I32; kfields := [0; 1; 2]%nat |};
   {| kenum := Some U8; kfields := [3; 4; 5]%nat |};
   {| kenum := None; kfields := [6; 7; 8]%nat |}]
  [(true, Vi I32, None); (true, Vi I32, Some (int 5)); (true, Vi I32, None);
   (true, Vi U8, Some (int 1)); (true, Vi U8, Some (KBin (OAl Mul) (fld 3) (int 2))); (true, Vi U8, None);
   (true, Vi I32, Some (KBin (OAl Add) (fld 2) (fld 8))); (false, Vi I32, None);
   (true, Vi I32, Some (int 3))].

Lemma colors_source : source colors.
Proof. apply sourceb_source. reflexivity. Qed.

Lemma colors_mentions : forall f g, mentions colors f g ->
  (f = 4 /\ g = 3)%nat \/ (f = 6 /\ g = 2)%nat \/ (f = 6 /\ g = 8)%nat.
Proof.
  intros f g (e & E & O).
  do 9 (destruct f as [|f]; [cbn in E; try discriminate E; injection E as <-; cbn in O; lia|]).
  cbn in E. destruct f; discriminate E.
Qed.

Lemma colors_mentions_trans : forall f g, clos_trans _ (mentions colors) f g -> mentions colors f g.
Proof.
  intros f g C. induction C as [|f h g A IH1 B IH2]; auto. exfalso.
  destruct (colors_mentions _ _ IH1) as [[_ ->]|[[_ ->]|[_ ->]]];
    destruct (colors_mentions _ _ IH2) as [[X _]|[[X _]|[X _]]]; discriminate X.
Qed.

Lemma colors_exact_step : exact colors 8%nat.
Proof. left. exists (int 3). split; [reflexivity|]. intros v V. inversion V. reflexivity. Qed.

Lemma colors_exact_max : exact colors 6%nat.
Proof.
  left. exists (KBin (OAl Add) (fld 2) (fld 8)). split; [reflexivity|].
  intros v V. inversion V as [| |? ? ? v1 v2 ? V1 V2 F| | | |]; subst.
  inversion V1 as [|? ? C1 M1| | | | |]; subst. inversion V2 as [|? ? C2 M2| | | | |]; subst.
  pose proof (means_type colors colors_source _ _ M1) as T1.
  pose proof (means_type colors colors_source _ _ M2) as T2.
  destruct v1 as [u1 z1], v2 as [u2 z2]. cbn [fst] in T1, T2. subst. cbn [colors build pvt nth_error] in F.
  unfold fold_binary, to_binop in F. cbn in F.
  match type of F with of_res ?r = _ => destruct r as [[t z]|] eqn:R end; cbn in F; [|discriminate].
  inversion F; subst.
  unfold binary_operator in R. cbn in R.
  match type of R with context [in_rangeb ?t ?q] => destruct (in_rangeb t q) end; cbn in R; inversion R; reflexivity.
Qed.

Lemma colors_settled : forall f, In f [2; 3]%nat -> settled colors f.
Proof.
  intros f I.
  assert (X : exists T, declares colors T f /\ forall c, In c (kfields T) -> In f (c :: []) \/ (c < f)%nat \/ (f < c)%nat).
  { destruct I as [<-|[<-|[]]].
    - exists {| kenum := Some I32; kfields := [0; 1; 2]%nat |}. split; [split; cbn; tauto|]. intros c _. cbn. lia.
    - exists {| kenum := Some U8; kfields := [3; 4; 5]%nat |}. split; [split; cbn; tauto|]. intros c _. cbn. lia. }
  destruct I as [<-|[<-|[]]].
  - apply (settled_at colors {| kenum := Some I32; kfields := [0; 1; 2]%nat |}); [split; cbn; tauto|].
    intros l1 c l2 E _ d M. exfalso.
    assert (In c [0; 1; 2]%nat) by (cbn [kfields] in E; rewrite E; apply in_or_app; right; left; auto).
    destruct (colors_mentions _ _ M) as [[-> _]|[[-> _]|[-> _]]]; cbn in H; lia.
  - apply (settled_at colors {| kenum := Some U8; kfields := [3; 4; 5]%nat |}); [split; cbn; tauto|].
    intros l1 c l2 E J d M. exfalso. cbn [kfields] in E.
    destruct l1 as [|a l1]; cbn [app] in E; inversion E; subst.
    + destruct (colors_mentions _ _ M) as [[X' _]|[[X' _]|[X' _]]]; discriminate X'.
    + assert (Y : In 3%nat [4; 5]%nat) by (rewrite H1; apply in_or_app; right; exact J).
      cbn in Y. lia.
Qed.

Lemma colors_orderly : orderly colors.
Proof.
  split.
  - intros f g C M CG. apply colors_mentions_trans in M.
    destruct (colors_mentions _ _ M) as [[-> ->]|[[-> ->]|[-> ->]]].
    + left. split; [apply colors_settled; cbn; tauto|]. exists [0; 1; 2]%nat, [], [5; 6; 7; 8]%nat. reflexivity.
    + left. split; [apply colors_settled; cbn; tauto|]. exists [0; 1]%nat, [3; 4; 5]%nat, [7; 8]%nat. reflexivity.
    + right. apply colors_exact_step.
  - intros T f [IT IF] K C. cbn in IT. destruct IT as [<-|[<-|[<-|[]]]]; try discriminate K.
    cbn in IF. destruct IF as [<-|[<-|[<-|[]]]].
    + apply colors_exact_max.
    + discriminate C.
    + apply colors_exact_step.
Qed.

Lemma colors_small : no_negative_ulong colors.
Proof.
  intros T f e v [IT _] K. cbn in IT. destruct IT as [<-|[<-|[<-|[]]]]; discriminate K.
Qed.

Lemma colors_constants : names_constants colors.
Proof.
  intros f g _ M. destruct (colors_mentions _ _ M) as [[_ ->]|[[_ ->]|[_ ->]]];
    (split; [reflexivity|]).
  - left. discriminate.
  - right. exists {| kenum := Some I32; kfields := [0; 1; 2]%nat |}, I32. split; [split; cbn; tauto | reflexivity].
  - left. discriminate.
Qed.

(* The values of the first fields of a program after compilation *)
Definition values (n : nat) (o : outcome) : option (list (option kexp) * list (kerror * fid)) :=
  match o with Finished s log => Some (map s (seq 0 n), log) | _ => None end.

(* enum { A = C, B = 5, C } *)
Definition forward : prog := build
  [{| kenum := Some I32; kfields := [0; 1; 2]%nat |}]
  [(true, Vi I32, Some (fld 2)); (true, Vi I32, Some (int 5)); (true, Vi I32, None)].

(* enum : ulong { A = -1 } *)
Definition negative : prog := build
  [{| kenum := Some U64; kfields := [0%nat] |}] [(true, Vi U64, Some (int (-1)))].

(* class { const byte b = 300; } *)
Definition narrow : prog := build
  [{| kenum := None; kfields := [0%nat] |}] [(true, Vi U8, Some (int 300))].

(* class { const long x = ~E.A; }  enum E : uint { A = 5 } *)
Definition complement : prog := build
  [{| kenum := None; kfields := [0%nat] |}; {| kenum := Some U32; kfields := [1%nat] |}]
  [(true, Vi I64, Some (KCast (Vi I64) (KUn OBNot (fld 1)))); (true, Vi U32, Some (int 5))].

(* enum { A = 3UL } *)
Definition unsigned : prog := build
  [{| kenum := Some I32; kfields := [0%nat] |}] [(true, Vi I32, Some (KNum (Vi U64, 3)))].

(* class { static int g; const int x = g; } *)
Definition variable : prog := build
  [{| kenum := None; kfields := [0; 1]%nat |}]
  [(false, Vi I32, None); (true, Vi I32, Some (fld 0))].

(* enum A { X = B.Z, Y }  enum B { Z = A.Y + 1 }  enum C { V = A.X, W } *)
Definition circle : prog := build
  [{| kenum := Some I32; kfields := [0; 1]%nat |}; {| kenum := Some I32; kfields := [2%nat] |};
   {| kenum := Some I32; kfields := [3; 4]%nat |}]
  [(true, Vi I32, Some (fld 2)); (true, Vi I32, None);
   (true, Vi I32, Some (KBin (OAl Add) (fld 1) (int 1)));
   (true, Vi I32, Some (fld 0)); (true, Vi I32, None)].

Lemma forward_means : means forward 0%nat (Vi I32, 6).
Proof.
  assert (I0 : In {| kenum := Some I32; kfields := [0; 1; 2]%nat |} (ptypes forward)) by (left; reflexivity).
  change (Vi I32, 6) with (Vi I32, snd (Vi I32, 6)).
  apply (means_enum_own forward {| kenum := Some I32; kfields := [0; 1; 2]%nat |} I32 0%nat (fld 2) (Vi I32, 6));
    try reflexivity; [split; [exact I0 | left; reflexivity] | | unfold in_range; cbn; lia].
  apply value_field; [reflexivity|].
  change 6 with (5 + 1).
  apply (means_enum_next forward {| kenum := Some I32; kfields := [0; 1; 2]%nat |} I32 [0%nat] 1%nat 2%nat [] 5);
    try reflexivity; [exact I0 | | unfold in_range; cbn; lia].
  change (Vi I32, 5) with (Vi I32, snd (Vi I32, 5)).
  apply (means_enum_own forward {| kenum := Some I32; kfields := [0; 1; 2]%nat |} I32 1%nat (int 5) (Vi I32, 5));
    try reflexivity; [split; [exact I0 | right; left; reflexivity] | constructor | unfold in_range; cbn; lia].
Qed.

Lemma forward_small : no_negative_ulong forward.
Proof. intros T f e v [IT _] K. cbn in IT. destruct IT as [<-|[]]; discriminate K. Qed.

Lemma forward_source : source forward.
Proof. apply sourceb_source. reflexivity. Qed.

Lemma negative_means : forall v, ~ means negative 0%nat v.
Proof.
  intros v M.
  assert (I0 : forall T, In T (ptypes negative) -> T = {| kenum := Some U64; kfields := [0%nat] |}).
  { intros T [<-|[]]. reflexivity. }
  inversion M; subst.
  - discriminate H2.
  - discriminate H2.
  - injection H1 as <-. inversion H2; subst. destruct H as [X _]. rewrite (I0 _ X) in H0. injection H0 as <-.
    unfold in_range in H3. cbn in H3. lia.
  - discriminate H1.
  - destruct H as [X _]. rewrite (I0 _ X) in H0. discriminate H0.
Qed.

Lemma narrow_means : forall v, ~ means narrow 0%nat v.
Proof.
  intros v M.
  assert (I0 : forall T, In T (ptypes narrow) -> T = {| kenum := None; kfields := [0%nat] |}).
  { intros T [<-|[]]. reflexivity. }
  inversion M; subst.
  - discriminate H2.
  - discriminate H2.
  - destruct H as [X _]. rewrite (I0 _ X) in H0. discriminate H0.
  - discriminate H1.
  - injection H1 as <-. inversion H2; subst. unfold fits, in_range in H3. cbn in H3. lia.
Qed.

Lemma complement_means : means complement 0%nat (Vi I64, 4294967290).
Proof.
  assert (I0 : In {| kenum := None; kfields := [0%nat] |} (ptypes complement)) by (left; reflexivity).
  assert (I1 : In {| kenum := Some U32; kfields := [1%nat] |} (ptypes complement)) by (right; left; reflexivity).
  change (Vi I64, 4294967290) with (pvt complement 0%nat, snd (Vi I64, 4294967290)).
  apply (means_const_own complement {| kenum := None; kfields := [0%nat] |} 0%nat
           (KCast (Vi I64) (KUn OBNot (fld 1))) (Vi I64, 4294967290));
    try reflexivity; [split; [exact I0 | left; reflexivity] | | unfold fits, in_range; cbn; lia].
  change (Vi I64, 4294967290) with (Vi I64, vcast (Vi I64) (snd (Vi U32, 4294967290))).
  apply value_cast. apply (value_un complement OBNot (fld 1) (Vi U32, 5)); [|reflexivity].
  apply value_field; [reflexivity|].
  change (Vi U32, 5) with (Vi U32, snd (Vi I32, 5)).
  apply (means_enum_own complement {| kenum := Some U32; kfields := [1%nat] |} U32 1%nat (int 5) (Vi I32, 5));
    try reflexivity; [split; [exact I1 | left; reflexivity] | constructor | unfold in_range; cbn; lia].
Qed.

Lemma complement_small : no_negative_ulong complement.
Proof. intros T f e v [IT _] K. cbn in IT. destruct IT as [<-|[<-|[]]]; discriminate K. Qed.

Lemma unsigned_means : means unsigned 0%nat (Vi I32, 3).
Proof.
  change (Vi I32, 3) with (Vi I32, snd (Vi U64, 3)).
  apply (means_enum_own unsigned {| kenum := Some I32; kfields := [0%nat] |} I32 0%nat (KNum (Vi U64, 3)) (Vi U64, 3));
    try reflexivity; [split; left; reflexivity | constructor | unfold in_range; cbn; lia].
Qed.

(* One round over a program that is not finished leaves it as it is. *)
Lemma variable_round : forall b n s, s 0%nat = None -> s 1%nat = Some (fld 0) ->
  walk variable n [{| itype := {| kenum := None; kfields := [0; 1]%nat |}; ifrom := 1; istub := b |}] s [] = Running.
Proof.
  intros b. induction n as [|n IH]; intros s E0 E1; [reflexivity|].
  cbn [walk itype ifrom istub]. unfold continue_. cbn [kenum kfields skipn pass pinits plog pstub pbreak].
  assert (FI : fill variable None s b 1%nat = Break).
  { cbn [fill]. unfold fill_general, is_circular, depth. rewrite E1.
    change (length (all_fields variable)) with 2%nat. cbn [circular existsb orb].
    unfold next_fields. rewrite E1. cbn [fld names existsb circular Nat.eqb orb]. rewrite E0.
    change (previous variable 0%nat) with (@None fid). cbn [existsb orb].
    unfold exec. cbn [exec_with]. change (depth variable) with 3%nat. cbn [look].
    change (pconst variable 0%nat) with false. cbv iota. unfold not_constant. change (depth variable) with 3%nat.
    cbn [all_initialized]. rewrite E1. cbn [names fld each]. unfold executes. rewrite E0. reflexivity. }
  change (pconst variable 1%nat) with true. cbn [negb andb]. rewrite FI. cbn [pass pbreak pinits plog pstub app].
  apply IH; assumption.
Qed.

Lemma variable_running : forall n, compile_constants variable n = Running.
Proof.
  intros [|n]; [reflexivity|]. unfold compile_constants.
  change (map fresh (ptypes variable)) with [fresh {| kenum := None; kfields := [0; 1]%nat |}].
  cbn [walk].
  replace (continue_ variable _ _ _ _ _) with
    (Some {| pinits := pinit variable; plog := []; pstub := {| svalue := 0; snext := true |}; pbreak := Some 1%nat |}) by reflexivity.
  cbn [pbreak pinits plog pstub app fresh itype]. apply variable_round; reflexivity.
Qed.

(* const int X = f() + Y;  const int Y; *)
Definition default : prog := build
  [{| kenum := None; kfields := [0; 1]%nat |}]
  [(true, Vi I32, Some (KCall (fld 1) KNone)); (true, Vi I32, None)].

Lemma default_round : forall b n s, s 1%nat = None -> s 0%nat = Some (KCall (fld 1) KNone) ->
  walk default n [{| itype := {| kenum := None; kfields := [0; 1]%nat |}; ifrom := 0; istub := b |}] s [] = Running.
Proof.
  intros b. induction n as [|n IH]; intros s E1 E0; [reflexivity|].
  cbn [walk itype ifrom istub]. unfold continue_. cbn [kenum kfields skipn pass pinits plog pstub pbreak].
  assert (FI : fill default None s b 0%nat = Break).
  { cbn [fill]. unfold fill_general, is_circular, depth. rewrite E0.
    change (length (all_fields default)) with 2%nat. cbn [circular existsb orb].
    unfold next_fields. rewrite E0. cbn [fld names existsb circular Nat.eqb orb app]. rewrite E1.
    change (previous default 1%nat) with (@None fid). cbn [existsb orb].
    unfold exec. cbn [exec_with]. unfold not_constant. change (depth default) with 3%nat.
    cbn [all_initialized]. rewrite E0. cbn [names fld each app]. unfold executes. rewrite E1. reflexivity. }
  change (pconst default 0%nat) with true. cbn [negb andb]. rewrite FI. cbn [pass pbreak pinits plog pstub app].
  rewrite E1. cbn [andb pbreak pinits plog pstub app]. apply IH; assumption.
Qed.

Lemma default_running : forall n, compile_constants default n = Running.
Proof. intros n. apply default_round; reflexivity. Qed.

Lemma circle_circle : clos_trans _ (depends circle) 0%nat 0%nat.
Proof.
  assert (A : depends circle 0%nat 2%nat) by (left; exists (fld 2); split; reflexivity).
  assert (B : depends circle 2%nat 1%nat) by (left; eexists; split; [reflexivity | left; reflexivity]).
  assert (C : depends circle 1%nat 0%nat).
  { right. split; [reflexivity|]. exists {| kenum := Some I32; kfields := [0; 1]%nat |}, I32, [], [].
    split; [left; reflexivity|]. split; reflexivity. }
  eapply t_trans; [apply t_step; exact A|]. eapply t_trans; [apply t_step; exact B|]. apply t_step. exact C.
Qed.

(* enum A { X = f(B.Z) }  enum B { Z } *)
Definition late : prog := build
  [{| kenum := Some I32; kfields := [0%nat] |}; {| kenum := Some I32; kfields := [1%nat] |}]
  [(true, Vi I32, Some (KCall (fld 1) KNone)); (true, Vi I32, None)].

Lemma late_constants : names_constants late.
Proof.
  intros f g _ (e & E & O). destruct f as [|[|[|f]]]; cbn in E; try discriminate E.
  injection E as <-. cbn in O. destruct O as [<-|[]]. split; [reflexivity|]. right.
  exists {| kenum := Some I32; kfields := [1%nat] |}, I32. split; [split|]; cbn; tauto.
Qed.
