(* Concrete nets for PropertiesNet.v. *)
From Coq Require Import ZArith List Bool Arith Lia.
From Verif Require Import NetModel NetSpec.
Import ListNotations.
Local Open Scope nat_scope.

Definition tok (v : Z) (next : list nat) (e : option Z) : node := Node (KToken v) next e false false.
Definition ref (b : Z) (next : list nat) (e : option Z) : node := Node (KRef b) next e true false.
(* what no link leads to *)
Definition spare : node := Node (KToken (-1)) [] (Some (-1)%Z) false false.

(* No weights, nothing invisible: all leaves differ by their depth. *)
Definition plain_world : world := World (fun l => Z.of_nat (length (l_rest l))) (fun _ _ => true) (fun _ => false).
(* Here token 32 is invisible. *)
Definition blank_world : world := World (fun l => Z.of_nat (length (l_rest l))) (fun _ _ => true) (fun v => Z.eqb v 32).

(* $: (statement ";")+    statement: "a" tail?    tail: "b"+
   with a = 97, b = 98, ";" = 59, statement = 1, tail = 2 *)
Definition lists : net := Net
  (fun n => match n with
            | 0 => ref 1 [1] None
            | 1 => tok 59 [0] (Some 0%Z)
            | 2 => tok 97 [3] (Some 1%Z)
            | 3 => ref 2 [] (Some 1%Z)
            | 4 => tok 98 [4] (Some 2%Z)
            | _ => spare
            end)
  (fun b => if Z.eqb b 0 then Some [0] else if Z.eqb b 1 then Some [2]
            else if Z.eqb b 2 then Some [4] else None).

Definition lists_own (n : nat) : Z :=
  match n with 0 | 1 => 0%Z | 2 | 3 => 1%Z | 4 => 2%Z | _ => (-1)%Z end.

Lemma lists_begins : forall b n, begins lists b n ->
  (b = 0%Z /\ n = 0) \/ (b = 1%Z /\ n = 2) \/ (b = 2%Z /\ n = 4).
Proof.
  intros b n [s [ES I]]. cbn [lists nt_start] in ES.
  destruct (Z.eqb b 0) eqn:E0; [injection ES as <-; destruct I as [<- | []]; left; apply Z.eqb_eq in E0; auto |].
  destruct (Z.eqb b 1) eqn:E1; [injection ES as <-; destruct I as [<- | []]; right; left; apply Z.eqb_eq in E1; auto |].
  destruct (Z.eqb b 2) eqn:E2; [injection ES as <-; destruct I as [<- | []]; right; right; apply Z.eqb_eq in E2; auto |].
  discriminate ES.
Qed.

Lemma lists_tidy : tidy lists.
Proof.
  exists lists_own. split; [| split].
  - intros b n H. destruct (lists_begins b n H) as [[-> ->] | [[-> ->] | [-> ->]]]; reflexivity.
  - intros [|[|[|[|[|n]]]]] m I; cbn in I; try (destruct I as [<- | []]; reflexivity); destruct I.
  - intros [|[|[|[|[|n]]]]] b E; cbn in E; try discriminate E; injection E as <-; reflexivity.
Qed.

Lemma lists_no_dead_ends : no_dead_ends lists.
Proof.
  split; [exists 0, [0]; split; [reflexivity | left; reflexivity] |].
  intros [|[|[|[|[|n]]]]].
  - apply (finish_later lists 0 1); [left; reflexivity |]. apply (finish_here lists 1 0%Z). reflexivity.
  - apply (finish_here lists 1 0%Z). reflexivity.
  - apply (finish_here lists 2 1%Z). reflexivity.
  - apply (finish_here lists 3 1%Z). reflexivity.
  - apply (finish_here lists 4 2%Z). reflexivity.
  - apply (finish_here lists _ (-1)%Z). reflexivity.
Qed.

Lemma lists_grounded : grounded lists 2.
Proof.
  assert (H : forall b n b', begins lists b n -> nd_key (nt_node lists n) = KRef b' -> b = 0%Z /\ b' = 1%Z).
  { intros b n b' H E. destruct (lists_begins b n H) as [[-> ->] | [[-> ->] | [-> ->]]]; cbn in E;
      try discriminate E. injection E as <-. auto. }
  split; exists (fun b => if Z.eqb b 0 then 1 else 0); (split; [intros b; destruct (Z.eqb b 0); lia |]);
    intros b n b' HB HK _; destruct (H b n b' HB HK) as [-> ->]; cbn; lia.
Qed.

(* What can come after each place. *)
Definition lists_after (p : place) : list (list Z * nat) :=
  match p with
  | Top | At 1 => [([], 0); ([1%Z], 2)]
  | At 0 => [([], 1)]
  | At 2 => [([], 3); ([2%Z], 4)]
  | At 4 => [([], 4)]
  | _ => []
  end.

Lemma lists_reach : forall p path n, reach lists p path n -> In (path, n) (lists_after p).
Proof.
  intros p path n H. induction H as [n I | path r b n H IH EK HB].
  - destruct p as [|[|[|[|[|[|p]]]]]]; cbn in I; try (destruct I as [<- | []]; left; reflexivity); destruct I.
  - destruct (lists_begins b n HB) as [[-> ->] | [[-> ->] | [-> ->]]];
      destruct p as [|[|[|[|[|[|p]]]]]]; cbn in IH;
      repeat (destruct IH as [E | IH]; [injection E as <- <-; cbn in EK; try discriminate EK |]);
      try destruct IH; cbn; auto.
Qed.

Lemma lists_follows : forall k b, follows lists k b -> k = KToken 59 /\ (b = 1%Z \/ b = 2%Z).
Proof.
  intros k b H. induction H as [b r path n EK HR EN | b r b' EK EN H [IH1 IH2]].
  - apply lists_reach in HR.
    destruct r as [|[|[|[|[|r]]]]]; cbn in EK; try discriminate EK; injection EK as <-; cbn in HR.
    + destruct HR as [E | []]. injection E as _ <-. cbn in EN. auto.
    + destruct HR.
  - split; [exact IH1 |].
    destruct r as [|[|[|[|[|r]]]]]; cbn in EK; try discriminate EK; injection EK as <-; auto.
Qed.

Lemma lists_ll1 : ll1 lists.
Proof.
  constructor.
  - intros n b E. destruct n as [|[|[|[|[|n]]]]]; cbn in E; try discriminate E; injection E as <-;
      cbn; repeat split; discriminate.
  - intros p p1 n1 p2 n2 H1 H2 E. apply lists_reach in H1. apply lists_reach in H2.
    destruct p as [|[|[|[|[|[|p]]]]]]; cbn in H1, H2;
      repeat (destruct H1 as [E1 | H1]; [injection E1 as <- <- |]); try destruct H1;
      repeat (destruct H2 as [E2 | H2]; [injection E2 as <- <- |]); try destruct H2;
      cbn in E; try discriminate E; auto.
  - intros n b path r E H F. apply lists_reach in H. destruct (lists_follows _ _ F) as [F1 F2].
    destruct n as [|[|[|[|[|n]]]]]; cbn in E; try discriminate E; injection E as <-; cbn in H;
      repeat (destruct H as [E1 | H]; [injection E1 as <- <- |]); try destruct H;
      cbn in F1; try discriminate F1; destruct F2 as [F2 | F2]; discriminate F2.
Qed.

(* a b b ; a ; *)
Definition lists_program : list key :=
  [KToken 97; KToken 98; KToken 98; KToken 59; KToken 97; KToken 59].

Definition lists_reports : list report :=
  [Report 2 1 3; Report 1 0 3; Report 1 4 5].

Lemma lists_sentence : sentence lists (numbered lists_program) 6 lists_reports.
Proof.
  exists 1. split; [| reflexivity].
  change (numbered lists_program) with
    (((([(0, KToken 97)] ++ ([(1, KToken 98)] ++ [(2, KToken 98)])) ++ [(3, KToken 59)]) ++ [(4, KToken 97)]) ++ [(5, KToken 59)]).
  change lists_reports with
    ((((([] ++ (([] ++ []) ++ [Report 2 1 3])) ++ [Report 1 0 3]) ++ []) ++ ([] ++ [Report 1 4 5])) ++ []).
  apply (walk_next lists 0%Z 0 1); [| left; reflexivity | exact (match_element lists 1 5 6)].
  apply (walk_next lists 0%Z 1 0); [| left; reflexivity |].
  - apply (walk_next lists 0%Z 0 1); [| left; reflexivity | exact (match_element lists 1 3 _)].
    apply walk_start; [exists [0]; split; [reflexivity | left; reflexivity] |].
    apply (match_branch lists 0 1%Z 3); [reflexivity | | reflexivity].
    apply (walk_next lists 1%Z 2 3); [| left; reflexivity |].
    + apply walk_start; [exists [2]; split; [reflexivity | left; reflexivity] |].
      exact (match_element lists 2 0 _).
    + apply (match_branch lists 3 2%Z 4); [reflexivity | | reflexivity].
      apply (walk_next lists 2%Z 4 4); [| left; reflexivity | exact (match_element lists 4 2 _)].
      apply walk_start; [exists [4]; split; [reflexivity | left; reflexivity] |].
      exact (match_element lists 4 1 _).
  - apply (match_branch lists 0 1%Z 2); [reflexivity | | reflexivity].
    apply walk_start; [exists [2]; split; [reflexivity | left; reflexivity] |].
    exact (match_element lists 2 4 _).
Qed.

(* The same program with a blank and with a token that can be read in two ways. *)
Definition lists_elements : list element :=
  [One (KToken 97); One (KToken 32); Several [KToken 99; KToken 98]; One (KToken 59)].

(* A sentence of [lists] ends with ";". *)
Lemma lists_last : forall w next rs, sentence lists w next rs -> exists w' i, w = w' ++ [(i, KToken 59)].
Proof.
  intros w next rs [n [HW EN]].
  assert (N1 : n = 1).
  { assert (OWN : lists_own n = 0%Z).
    { clear EN. remember root_value as b eqn:EB. revert EB.
      induction HW as [b n w next rs HBe HM | b m n w1 w2 next rs1 rs2 HW IH HI HM]; intros EB.
      - subst b. destruct (lists_begins _ _ HBe) as [[E ->] | [[E ->] | [E ->]]]; [reflexivity | discriminate E | discriminate E].
      - specialize (IH EB). destruct m as [|[|[|[|[|m]]]]]; cbn in IH; try discriminate IH;
          cbn in HI; destruct HI as [<- | []]; reflexivity. }
    destruct n as [|[|[|[|[|n]]]]]; cbn in OWN; try discriminate OWN; cbn in EN; [discriminate EN | reflexivity]. }
  subst n.
  assert (M : forall w next rs, matches lists 1 w next rs -> exists i, w = [(i, KToken 59)]).
  { intros w0 nx rs0 HM. inversion HM as [n i nx0 | n b m w1 nx1 rs1 EK HW1 EE]; subst.
    - exists i. reflexivity.
    - cbn in EK. discriminate EK. }
  inversion HW as [b n w0 nx rs0 HBe HM | b m n w1 w2 nx rs1 rs2 HW1 HI HM]; subst.
  - destruct (lists_begins _ _ HBe) as [[_ E] | [[_ E] | [_ E]]]; discriminate E.
  - destruct (M _ _ _ HM) as [i ->]. exists w1, i. reflexivity.
Qed.

(* $: z    z: x y    x: "a" y?    y: "b"
   z = 1, x = 2, y = 3 *)
Definition optional : net := Net
  (fun n => match n with
            | 0 => ref 1 [] (Some 0%Z)
            | 1 => ref 2 [2] None
            | 2 => ref 3 [] (Some 1%Z)
            | 3 => tok 97 [4] (Some 2%Z)
            | 4 => ref 3 [] (Some 2%Z)
            | 5 => tok 98 [] (Some 3%Z)
            | _ => spare
            end)
  (fun b => if Z.eqb b 0 then Some [0] else if Z.eqb b 1 then Some [1]
            else if Z.eqb b 2 then Some [3] else if Z.eqb b 3 then Some [5] else None).

Definition optional_own (n : nat) : Z :=
  match n with 0 => 0%Z | 1 | 2 => 1%Z | 3 | 4 => 2%Z | 5 => 3%Z | _ => (-1)%Z end.

Lemma optional_begins : forall b n, begins optional b n ->
  (b = 0%Z /\ n = 0) \/ (b = 1%Z /\ n = 1) \/ (b = 2%Z /\ n = 3) \/ (b = 3%Z /\ n = 5).
Proof.
  intros b n [s [ES I]]. cbn [optional nt_start] in ES.
  destruct (Z.eqb b 0) eqn:E0; [injection ES as <-; destruct I as [<- | []]; apply Z.eqb_eq in E0; auto |].
  destruct (Z.eqb b 1) eqn:E1; [injection ES as <-; destruct I as [<- | []]; apply Z.eqb_eq in E1; auto |].
  destruct (Z.eqb b 2) eqn:E2; [injection ES as <-; destruct I as [<- | []]; apply Z.eqb_eq in E2; auto |].
  destruct (Z.eqb b 3) eqn:E3; [injection ES as <-; destruct I as [<- | []]; apply Z.eqb_eq in E3; auto |].
  discriminate ES.
Qed.

Lemma optional_tidy : tidy optional.
Proof.
  exists optional_own. split; [| split].
  - intros b n H. destruct (optional_begins b n H) as [[-> ->] | [[-> ->] | [[-> ->] | [-> ->]]]]; reflexivity.
  - intros [|[|[|[|[|[|n]]]]]] m I; cbn in I; try (destruct I as [<- | []]; reflexivity); destruct I.
  - intros [|[|[|[|[|[|n]]]]]] b E; cbn in E; try discriminate E; injection E as <-; reflexivity.
Qed.

Lemma optional_grounded : grounded optional 2.
Proof.
  assert (H : forall b n b', begins optional b n -> nd_key (nt_node optional n) = KRef b' ->
            (b = 0%Z /\ b' = 1%Z) \/ (b = 1%Z /\ b' = 2%Z)).
  { intros b n b' H E. destruct (optional_begins b n H) as [[-> ->] | [[-> ->] | [[-> ->] | [-> ->]]]];
      cbn in E; try discriminate E; injection E as <-; auto. }
  split; exists (fun b => if Z.eqb b 0 then 2 else if Z.eqb b 1 then 1 else 0);
    (split; [intros b; destruct (Z.eqb b 0); [lia | destruct (Z.eqb b 1); lia] |]);
    intros b n b' HB HK _; destruct (H b n b' HB HK) as [[-> ->] | [-> ->]]; cbn; lia.
Qed.

Definition optional_program : list key := [KToken 97; KToken 98].

Lemma optional_sentence : sentence optional (numbered optional_program) 2
  [Report 2 0 1; Report 3 1 2; Report 1 0 2].
Proof.
  exists 0. split; [| reflexivity].
  change (numbered optional_program) with ([(0, KToken 97)] ++ [(1, KToken 98)]).
  change [Report 2 0 1; Report 3 1 2; Report 1 0 2] with
    ((([] ++ [Report 2 0 1]) ++ ([] ++ [Report 3 1 2])) ++ [Report 1 0 2]).
  apply walk_start; [exists [0]; split; [reflexivity | left; reflexivity] |].
  apply (match_branch optional 0 1%Z 2); [reflexivity | | reflexivity].
  apply (walk_next optional 1%Z 1 2); [| left; reflexivity |].
  - apply walk_start; [exists [1]; split; [reflexivity | left; reflexivity] |].
    apply (match_branch optional 1 2%Z 3); [reflexivity | | reflexivity].
    apply walk_start; [exists [3]; split; [reflexivity | left; reflexivity] |].
    exact (match_element optional 3 0 _).
  - apply (match_branch optional 2 3%Z 5); [reflexivity | | reflexivity].
    apply walk_start; [exists [5]; split; [reflexivity | left; reflexivity] |].
    exact (match_element optional 5 1 _).
Qed.

(* $: A    A: A | "x"      A = 1, x = 120 *)
Definition unit_cycle : net := Net
  (fun n => match n with
            | 0 => ref 1 [] (Some 0%Z)
            | 1 => Node (KRef 1) [] (Some 1%Z) false true
            | 2 => tok 120 [] (Some 1%Z)
            | _ => spare
            end)
  (fun b => if Z.eqb b 0 then Some [0] else if Z.eqb b 1 then Some [1; 2] else None).

(* $: A    A: B "x"    B: A "y" | "z", with both references expanded *)
Definition left_cycle : net := Net
  (fun n => match n with
            | 0 => ref 1 [] (Some 0%Z)
            | 1 => ref 2 [2] None
            | 2 => tok 120 [] (Some 1%Z)
            | 3 => ref 1 [4] None
            | 4 => tok 121 [] (Some 2%Z)
            | 5 => tok 122 [] (Some 2%Z)
            | _ => spare
            end)
  (fun b => if Z.eqb b 0 then Some [0] else if Z.eqb b 1 then Some [1]
            else if Z.eqb b 2 then Some [3; 5] else None).

Lemma unit_cycle_tidy : tidy unit_cycle.
Proof.
  exists (fun n => match n with 0 => 0%Z | 1 | 2 => 1%Z | _ => (-1)%Z end). split; [| split].
  - intros b n [s [ES I]]. cbn [unit_cycle nt_start] in ES.
    destruct (Z.eqb b 0) eqn:E0; [injection ES as <-; destruct I as [<- | []]; apply Z.eqb_eq in E0; auto |].
    destruct (Z.eqb b 1) eqn:E1; [| discriminate ES].
    apply Z.eqb_eq in E1. injection ES as <-. destruct I as [<- | [<- | []]]; auto.
  - intros [|[|[|n]]] m I; destruct I.
  - intros [|[|[|n]]] b E; cbn in E; injection E as <-; reflexivity.
Qed.

Lemma left_cycle_tidy : tidy left_cycle.
Proof.
  exists (fun n => match n with 0 => 0%Z | 1 | 2 => 1%Z | 3 | 4 | 5 => 2%Z | _ => (-1)%Z end). split; [| split].
  - intros b n [s [ES I]]. cbn [left_cycle nt_start] in ES.
    destruct (Z.eqb b 0) eqn:E0; [injection ES as <-; destruct I as [<- | []]; apply Z.eqb_eq in E0; auto |].
    destruct (Z.eqb b 1) eqn:E1; [injection ES as <-; destruct I as [<- | []]; apply Z.eqb_eq in E1; auto |].
    destruct (Z.eqb b 2) eqn:E2; [| discriminate ES].
    apply Z.eqb_eq in E2. injection ES as <-. destruct I as [<- | [<- | []]]; auto.
  - intros [|[|[|[|[|[|n]]]]]] m I; cbn in I; try (destruct I as [<- | []]; reflexivity); destruct I.
  - intros [|[|[|[|[|[|n]]]]]] b E; cbn in E; try discriminate E; injection E as <-; reflexivity.
Qed.

Lemma unit_cycle_pop : forall fuel i c n s acts, n = 1 \/ n = 2 ->
  pop fuel unit_cycle i (Frame (At n) s 0) [Frame Top [Top] c] acts = Overflow.
Proof.
  intros fuel i c. induction fuel as [|f IH]; intros n s acts Hn; [destruct Hn as [-> | ->]; reflexivity |].
  destruct f as [|f]; [destruct Hn as [-> | ->]; reflexivity |].
  assert (E : pop (S (S f)) unit_cycle i (Frame (At n) s 0) [Frame Top [Top] c] acts =
    (ls <- each (fun u =>
              let acts1 := Matched 1 c i :: acts in
              if Nat.eqb (u_step u) 0
              then pop (S f) unit_cycle i (Frame (to_place u) [At 0; At 1] c) [] acts1
              else pop (S f) unit_cycle i (Frame (to_place u) [At 0; At 1] 0) [Frame Top [Top] c] acts1)
            [Unit (ToNode 0) []; Unit (ToNode 1) [1%Z]] ;; Ok (concat ls)))
    by (destruct Hn as [-> | ->]; reflexivity).
  rewrite E. clear E. cbn [each]. cbn beta zeta.
  change (Nat.eqb (u_step (Unit (ToNode 0) [])) 0) with true.
  change (Nat.eqb (u_step (Unit (ToNode 1) [1%Z])) 0) with false.
  cbn [to_place u_to].
  rewrite (IH 1 [At 0; At 1] (Matched 1 c i :: acts) (or_introl eq_refl)).
  reflexivity.
Qed.

Lemma unit_cycle_overflow : forall fuel, analyze fuel unit_cycle plain_world [One (KToken 120)] = Overflow.
Proof.
  intros [|[|f]]; [reflexivity | reflexivity |].
  assert (E : go_all (S (S f)) unit_cycle plain_world 0 [One (KToken 120)] start =
              Ok (State [Leaf (Frame (At 2) [At 2] 0) [Frame Top [Top] 0] []] [])) by reflexivity.
  unfold analyze. rewrite E. cbn [bind]. unfold go_end. cbn [s_leaves each l_top l_rest l_acts].
  rewrite (unit_cycle_pop (S (S f)) _ 0 2 [At 2] [] (or_intror eq_refl)). reflexivity.
Qed.

Lemma unit_cycle_sentence : sentence unit_cycle (numbered [KToken 120]) 1 [Report 1 0 1].
Proof.
  exists 0. split; [| reflexivity].
  apply walk_start; [exists [0]; split; [reflexivity | left; reflexivity] |].
  apply (match_branch unit_cycle 0 1%Z 2 [(0, KToken 120)] 1 []); [reflexivity | | reflexivity].
  apply walk_start; [exists [1; 2]; split; [reflexivity | right; left; reflexivity] |].
  exact (match_element unit_cycle 2 0 1).
Qed.

Lemma left_cycle_expand : forall fuel path b, b = 1%Z \/ b = 2%Z ->
  expand fuel left_cycle path (if Z.eqb b 1 then [1] else [3; 5]) = Overflow.
Proof.
  induction fuel as [|f IH]; intros path b Hb; [destruct Hb as [-> | ->]; reflexivity |].
  destruct Hb as [-> | ->].
  - pose proof (IH (path ++ [2%Z]) 2%Z (or_intror eq_refl)) as H.
    change (if Z.eqb 2 1 then [1] else [3; 5]) with [3; 5] in H.
    change (if Z.eqb 1 1 then [1] else [3; 5]) with [1].
    change (expand (S f) left_cycle path [1]) with
      (deeper <- expand f left_cycle (path ++ [2%Z]) [3; 5] ;;
       rest <- Ok [] ;; Ok (Unit (ToNode 1) path :: deeper ++ rest)).
    rewrite H. reflexivity.
  - pose proof (IH (path ++ [1%Z]) 1%Z (or_introl eq_refl)) as H.
    change (if Z.eqb 1 1 then [1] else [3; 5]) with [1] in H.
    change (if Z.eqb 2 1 then [1] else [3; 5]) with [3; 5].
    change (expand (S f) left_cycle path [3; 5]) with
      (deeper <- expand f left_cycle (path ++ [1%Z]) [1] ;;
       rest <- Ok [Unit (ToNode 5) path] ;; Ok (Unit (ToNode 3) path :: deeper ++ rest)).
    rewrite H. reflexivity.
Qed.

Lemma left_cycle_overflow : forall fuel w e els, keys_of e <> [] -> analyze fuel left_cycle w (e :: els) = Overflow.
Proof.
  intros fuel w e els NE. unfold analyze. cbn [go_all]. unfold go_element, start. cbn [s_leaves each].
  unfold push_leaf. cbn [l_top l_rest l_acts f_place f_set].
  assert (E : forall k, units_of fuel left_cycle Top k = Overflow).
  { intros k. unfold units_of, reachable. change (links left_cycle Top) with [0].
    destruct fuel as [|f]; [reflexivity |].
    change (expand (S f) left_cycle [] [0]) with
      (deeper <- expand f left_cycle [1%Z] [1] ;;
       rest <- Ok [] ;; Ok (Unit (ToNode 0) [] :: deeper ++ rest)).
    pose proof (left_cycle_expand f [1%Z] 1%Z (or_introl eq_refl)) as H.
    change (if Z.eqb 1 1 then [1] else [3; 5]) with [1] in H. rewrite H. reflexivity. }
  unfold items_of. destruct (keys_of e) as [|k ks]; [exfalso; apply NE; reflexivity |].
  cbn [each]. unfold item_of at 1. unfold enter. cbn [each]. rewrite E. reflexivity.
Qed.

(* The first half of a statement is not a sentence. *)
Lemma lists_half : forall wd ch next rs,
  reads (fun _ => false) 0 [One (KToken 97)] wd ch -> ~ sentence lists wd next rs.
Proof.
  intros wd ch next rs HR HS. destruct (lists_last _ _ _ HS) as [w' [i E]].
  assert (EW : wd = [(0, KToken 97)]).
  { clear E HS. inversion HR as [| i0 e k els w c Ik HR' | i0 e k els w c Ik HI HR']; subst.
    - inversion HR'; subst. destruct Ik as [<- | []]. reflexivity.
    - discriminate HI. }
  rewrite EW in E. destruct w' as [|x [|y r]]; discriminate E.
Qed.
