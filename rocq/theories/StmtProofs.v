(** Lemmas for the statement compiler. *)
From Coq Require Import List Bool Arith ZArith Lia Permutation Sorted.
From Verif Require Import StmtModel StmtSpec.
Import ListNotations.

Section Proofs.
Context {St : Type}.
Notation stmt := (@stmt St).
Notation block := (@block St).
Notation cases := (@cases St).
Notation code := (@code St).
Notation instr := (@instr St).

Scheme stmt_mi := Induction for StmtModel.stmt Sort Prop
  with block_mi := Induction for StmtModel.block Sort Prop
  with cases_mi := Induction for StmtModel.cases Sort Prop.
Combined Scheme stmt_mutind from stmt_mi, block_mi, cases_mi.

Notation "'do' x <- e ; k" :=
  (match e with Some x => k | None => None end) (at level 200, x pattern, k at level 200).

(** *** Unfolding equations *)
Lemma compile_group o (b : block) bk ct n :
  compile o (SGroup b) bk ct n = compile_block o (o_remove o) b bk ct n.
Proof. reflexivity. Qed.
Lemma compile_switch o e (cs : cases) bk ct n :
  compile o (SSwitch e cs) bk ct n =
    match o_switch_if o, number_of_rows cs with
    | true, O =>                                          
      do (a, n1) <- compile_nth o (Some 0%nat) cs (Some n) ct (S n);
      Some (IAct (fun s => snd (eval_sel e s)) :: a ++ [ILabel n], n1)
    | true, S O =>                                        
      let ki := option_map fst (last_value cs) in
      let ke := find_default cs in
      let v := match last_value cs with Some (_, v) => v | None => 0%Z end in
      if same_body ki ke cs then
        do (a, n1) <- compile_nth o ki cs (Some n) ct (S n);
        Some (IAct (fun s => snd (eval_sel e s)) :: a ++ [ILabel n], n1)
      else
        match folded o (Some (sel_equals e v)) with
        | Some true =>
          do (a, n1) <- compile_nth o ki cs (Some n) ct (S n); Some (a ++ [ILabel n], n1)
        | Some false =>
          do (a, n1) <- compile_nth o ke cs (Some n) ct (S n); Some (a ++ [ILabel n], n1)
        | None =>
          do (a, n1) <- compile_nth o ki cs (Some n) ct (S (S n));
          do (b, n2) <- compile_nth o ke cs (Some n) ct n1;
          Some (ICond (eval_cond (sel_equals e v)) :: IJmp JFalse (S n) :: a
                ++ ILabel (S n) :: b ++ [ILabel n], n2)
        end
    | _, _ =>                                             
      if distinct (case_values cs) && (default_count cs <=? 1)%nat then
        do (a, rows, d, n1) <- compile_cases o cs (Some n) ct (S (S n));
        Some (ISel (eval_sel e)
              :: ISwitch (sort_rows rows) (match d with Some l => l | None => S n end)
              :: a ++ ILabel n :: match d with Some _ => [] | None => [ILabel (S n)] end, n1)
      else None                                           
    end.
Proof. reflexivity. Qed.
Lemma compile_bcons o stop (s : stmt) (r : block) bk ct n :
  compile_block o stop (BCons s r) bk ct n =
    do (a, n1) <- compile o s bk ct n;
    if stop && unreached (exit_type s) then Some (a, n1)
    else do (c, n2) <- compile_block o stop r bk ct n1; Some (a ++ c, n2).
Proof. reflexivity. Qed.
Lemma compile_ccons o ls b (r : cases) bk ct n :
  compile_cases o (CCons ls b r) bk ct n =
    do (a, n1) <- compile_block o false b bk ct (S n);
    do (c, rows, d, n2) <- compile_cases o r bk ct n1;
    Some (ILabel n :: a ++ c,
          flat_map (fun l => match l with Some v => [(v, n)] | None => [] end) ls ++ rows,
          (if has_default ls then Some n else d), n2).
Proof. reflexivity. Qed.
Lemma compile_nth_cons o k ls b (r : cases) bk ct n :
  compile_nth o k (CCons ls b r) bk ct n =
    match k with
    | None => Some ([], n)
    | Some O => compile_block o false b bk ct n
    | Some (S k') => compile_nth o (Some k') r bk ct n
    end.
Proof. destruct k as [[|]|]; reflexivity. Qed.

(** *** Counting labels *)

Definition lab (l : nat) (i : instr) : nat :=
  match i with ILabel l' => if Nat.eqb l l' then 1 else 0 | _ => 0 end.
Fixpoint cnt (l : nat) (c : code) : nat :=
  match c with [] => 0 | i :: r => lab l i + cnt l r end.

Lemma cnt_app l a b : cnt l (a ++ b) = cnt l a + cnt l b.
Proof. induction a as [|i a IH]; cbn [app cnt]; lia. Qed.

Definition ind (n n' l : nat) : nat := if (n <=? l) && (l <? n') then 1 else 0.

Lemma ind_spec n n' l :
  (n <= l < n' /\ ind n n' l = 1) \/ (~ (n <= l < n') /\ ind n n' l = 0).
Proof.
  unfold ind. destruct (Nat.leb_spec n l), (Nat.ltb_spec l n'); cbn [andb]; lia.
Qed.

Definition fresh (n n' : nat) (c : code) : Prop :=
  n <= n' /\ forall l, cnt l c <= ind n n' l.

Ltac kill_ind :=
  repeat match goal with
  | |- context [ind ?a ?b ?l] => destruct (ind_spec a b l) as [[? ?]|[? ?]]; 
      let e := fresh "ie" in set (e := ind a b l) in *; clearbody e
  | H : context [ind ?a ?b ?l] |- _ => destruct (ind_spec a b l) as [[? ?]|[? ?]]; 
      let e := fresh "ie" in set (e := ind a b l) in *; clearbody e
  end.

(** Labels an instruction jumps to. *)
Definition uses_i (l : nat) (i : instr) : Prop :=
  match i with
  | IJmp _ l' => l = l'
  | ISwitch rows d => In l (map snd rows) \/ l = d
  | _ => False
  end.
Definition uses (l : nat) (c : code) : Prop := exists i, In i c /\ uses_i l i.

Lemma uses_app l a b : uses l (a ++ b) <-> uses l a \/ uses l b.
Proof.
  unfold uses; split.
  - intros (i & Hi & U). apply in_app_or in Hi as [|]; eauto.
  - intros [(i & Hi & U)|(i & Hi & U)]; exists i; split; auto; apply in_or_app; auto.
Qed.
Lemma uses_cons l i a : uses l (i :: a) <-> uses_i l i \/ uses l a.
Proof.
  unfold uses; split.
  - intros (j & [->|Hj] & U); eauto.
  - intros [U|(j & Hj & U)]; [exists i|exists j]; cbn [In]; auto.
Qed.
Lemma uses_nil l : uses l [] <-> False.
Proof. unfold uses; split; [intros (? & [] & _)|tauto]. Qed.

Definition closed (bk ct : option nat) (c : code) : Prop :=
  forall l, uses l c -> 1 <= cnt l c \/ bk = Some l \/ ct = Some l.

(** A switch row comes from a label of its own code. *)
Definition rows_closed (rows : list (Z * nat)) (d : option nat) (c : code) : Prop :=
  (forall l, In l (map snd rows) -> 1 <= cnt l c) /\
  (forall l, d = Some l -> 1 <= cnt l c).

Lemma insert_row_perm r rows : Permutation (insert_row r rows) (r :: rows).
Proof.
  induction rows as [|h t IH]; cbn [insert_row]; [reflexivity|].
  destruct (Z.ltb _ _); [reflexivity|].
  rewrite IH. apply perm_swap.
Qed.
Lemma sort_rows_perm rows : Permutation (sort_rows rows) rows.
Proof.
  induction rows as [|r t IH]; cbn [sort_rows fold_right]; [reflexivity|].
  fold (sort_rows t). rewrite insert_row_perm, IH. reflexivity.
Qed.

Lemma rows_of_ls (ls : list (option Z)) (n : nat) l :
  In l (map snd (flat_map (fun x => match x with Some v => [(v, n)] | None => [] end) ls)) -> l = n.
Proof.
  induction ls as [|[v|] ls IH]; cbn [flat_map map In app snd]; intuition.
Qed.

Lemma some_pair {A B : Type} (a c : A) (b d : B) : Some (a, b) = Some (c, d) -> a = c /\ b = d.
Proof. intro H. inversion H. auto. Qed.

Ltac simp_cnt :=
  repeat (rewrite cnt_app || (progress cbn [cnt lab app])).
Ltac simp_uses U :=
  repeat (rewrite uses_app in U || rewrite uses_cons in U || rewrite uses_nil in U
          || (progress cbn [uses_i app] in U)).

Ltac solve_fresh :=
  split; [repeat match goal with H : fresh _ _ _ |- _ => destruct H as [? _] end; lia|];
  let l := fresh "l" in intro l; simp_cnt;
  repeat match goal with
  | H : fresh _ _ _ |- _ => destruct H as [? H]; specialize (H l)
  end;
  repeat match goal with |- context [Nat.eqb ?x ?y] => destruct (Nat.eqb_spec x y) end;
  kill_ind; lia.

Ltac solve_closed :=
  let l := fresh "l" in let U := fresh "U" in
  intros l U; simp_uses U; simp_cnt;
  repeat match goal with H : closed _ _ _ |- _ => specialize (H l) end;
  repeat match goal with H : ?P \/ ?Q |- _ => destruct H end; subst;
  try tauto;
  repeat match goal with
  | H : uses l ?c -> _, H' : uses l ?c |- _ => specialize (H H')
  end;
  repeat match goal with
  | H : ?P \/ ?Q |- _ => destruct H
  | H : Some _ = Some _ |- _ => injection H as ?
  | H : None = Some _ |- _ => discriminate H
  end; subst;
  rewrite ?Nat.eqb_refl; auto; try (left; lia); try tauto.

Ltac both := split; [solve_fresh|solve_closed].

Lemma compile_labels o :
  (forall s bk ct n c n', compile o s bk ct n = Some (c, n') ->
     fresh n n' c /\ closed bk ct c) /\
  (forall b stop bk ct n c n', compile_block o stop b bk ct n = Some (c, n') ->
     fresh n n' c /\ closed bk ct c) /\
  (forall cs,
     (forall bk ct n c rows d n', compile_cases o cs bk ct n = Some (c, rows, d, n') ->
        fresh n n' c /\ closed bk ct c /\ rows_closed rows d c) /\
     (forall k bk ct n c n', compile_nth o k cs bk ct n = Some (c, n') ->
        fresh n n' c /\ closed bk ct c)).
Proof.
  apply stmt_mutind.
  - (* SEmpty *) intros bk ct n c n' H; cbn [compile] in H. apply some_pair in H as [<- <-]. both.
  - intros f bk ct n c n' H; cbn [compile] in H. apply some_pair in H as [<- <-]. both.
  - intros b IH bk ct n c n' H; rewrite compile_group in H. eauto.
  - intros cd t IHt e IHe bk ct n c n' H; cbn [compile] in H.
    destruct (folded o (Some cd)) as [[]|]; eauto.
    destruct (compile o t bk ct (S (S n))) as [[a n1]|] eqn:Ea; [|discriminate].
    destruct (compile o e bk ct n1) as [[b n2]|] eqn:Eb; [|discriminate].
    apply some_pair in H as [<- <-].
    apply IHt in Ea as [Fa Ca]. apply IHe in Eb as [Fb Cb]. both.
  - intros cd b IH bk ct n c n' H; cbn [compile] in H.
    assert (G : Some false = folded o cd /\ c = [] /\ n' = n \/
      exists a n1, compile o b (Some (S n)) (Some n) (S (S n)) = Some (a, n1) /\
        exists x, ((x = []) \/ (exists f, x = [ICond f; IJmp JFalse (S n)])) /\
          c = ILabel n :: x ++ a ++ [IJmp JAlways n; ILabel (S n)] /\ n' = n1).
    { destruct (folded o cd) as [[]|].
      - right. destruct (compile o b (Some (S n)) (Some n) (S (S n))) as [[a n1]|]; [|discriminate].
        apply some_pair in H as [<- <-]. exists a, n1. split; auto. exists []. split; auto.
      - left. apply some_pair in H as [<- <-]. auto.
      - right. destruct (compile o b (Some (S n)) (Some n) (S (S n))) as [[a n1]|]; [|discriminate].
        apply some_pair in H as [<- <-]. exists a, n1. split; auto.
        destruct cd as [cd|]; [|exists []; auto].
        exists [ICond (eval_cond cd); IJmp JFalse (S n)]. eauto. }
    destruct G as [(_ & -> & ->)|(a & n1 & Ea & x & Hx & -> & ->)]; [both|].
    apply IH in Ea as [Fa Ca]. destruct Hx as [->|[f ->]]; both.
  - intros b IH cd bk ct n c n' H; cbn [compile] in H.
    destruct (compile o b (Some (S n)) (Some n) (S (S n))) as [[a n1]|] eqn:Ea; [|discriminate].
    apply some_pair in H as [<- <-]. apply IH in Ea as [Fa Ca].
    destruct (folded o cd) as [[]|], cd; both.
  - intros b IH cd bk ct n c n' H; cbn [compile] in H.
    destruct (compile o b (Some (S n)) (Some n) (S (S n))) as [[a n1]|] eqn:Ea; [|discriminate].
    apply some_pair in H as [<- <-]. apply IH in Ea as [Fa Ca].
    destruct (folded o cd) as [[]|], cd; both.
  - intros i cd inc b IH bk ct n c n' H; cbn [compile] in H.
    assert (G : c = match i with Some f => [IAct f] | None => [] end /\ n' = n \/
      exists a n1, compile o b (Some (S n)) (Some n) (S (S (S n))) = Some (a, n1) /\
        exists x, ((x = []) \/ (exists f, x = [ICond f; IJmp JFalse (S n)])) /\
          c = match i with Some f => [IAct f] | None => [] end
            ++ match inc with Some _ => [IJmp JAlways (S (S n))] | None => [] end
            ++ [ILabel n]
            ++ match inc with Some f => [IAct f] | None => [] end
            ++ [ILabel (S (S n))] ++ x ++ a ++ [IJmp JAlways n; ILabel (S n)] /\ n' = n1).
    { destruct (folded o cd) as [[]|].
      - right. destruct (compile o b _ _ _) as [[a n1]|]; [|discriminate].
        apply some_pair in H as [<- <-]. exists a, n1. split; auto. exists []. split; auto.
      - left. apply some_pair in H as [<- <-]. auto.
      - right. destruct (compile o b _ _ _) as [[a n1]|]; [|discriminate].
        apply some_pair in H as [<- <-]. exists a, n1. split; auto.
        destruct cd as [cd|]; [|exists []; auto].
        exists [ICond (eval_cond cd); IJmp JFalse (S n)]. eauto. }
    destruct G as [(-> & ->)|(a & n1 & Ea & x & Hx & -> & ->)].
    { destruct i; both. }
    apply IH in Ea as [Fa Ca]. destruct Hx as [->|[f ->]], i, inc; both.
  - intros bk ct n c n' H; cbn [compile] in H. destruct bk; [|discriminate].
    apply some_pair in H as [<- <-]. both.
  - intros bk ct n c n' H; cbn [compile] in H. destruct ct; [|discriminate].
    apply some_pair in H as [<- <-]. both.
  - intros f bk ct n c n' H; cbn [compile] in H. apply some_pair in H as [<- <-]. both.
  - intros f bk ct n c n' H; cbn [compile] in H. apply some_pair in H as [<- <-]. both.
  - (* switch *)
    intros e cs [IHc IHn] bk ct n c n' H; rewrite compile_switch in H.
    assert (SW : (if distinct (case_values cs) && (default_count cs <=? 1)
        then match compile_cases o cs (Some n) ct (S (S n)) with
             | Some (a, rows, d, n1) =>
               Some (ISel (eval_sel e)
                 :: ISwitch (sort_rows rows) (match d with Some l => l | None => S n end)
                 :: a ++ ILabel n :: match d with Some _ => [] | None => [ILabel (S n)] end, n1)
             | None => None end
        else None) = Some (c, n') -> fresh n n' c /\ closed bk ct c).
    { clear H. intro H.
      destruct (distinct _ && _); [|discriminate].
      destruct (compile_cases o cs (Some n) ct (S (S n))) as [[[[a rows] d] n1]|] eqn:E; [|discriminate].
      apply some_pair in H as [<- <-].
      apply IHc in E as (Fa & Ca & R1 & R2).
      assert (R1' : forall l, In l (map snd (sort_rows rows)) -> 1 <= cnt l a).
      { intros l Hl. apply R1. 
        apply (Permutation_in _ (Permutation_map snd (sort_rows_perm rows))); auto. }
      destruct d as [d|].
      - split; [solve_fresh|].
        intros l U; simp_uses U; simp_cnt. specialize (Ca l). specialize (R1' l). specialize (R2 l).
        destruct U as [[]|[[U|U]|[U|[[]|[]]]]].
        + specialize (R1' U). left; lia.
        + subst. specialize (R2 eq_refl). left; lia.
        + destruct (Ca U) as [|[E|]]; auto; [left; lia|].
          injection E as ->. rewrite Nat.eqb_refl. left; lia.
      - split; [solve_fresh|].
        intros l U; simp_uses U; simp_cnt. specialize (Ca l). specialize (R1' l).
        destruct U as [[]|[[U|U]|[U|[[]|[[]|[]]]]]].
        + specialize (R1' U). left; lia.
        + subst. rewrite Nat.eqb_refl. left; lia.
        + destruct (Ca U) as [|[E|]]; auto; [left; lia|].
          injection E as ->. rewrite Nat.eqb_refl. left; lia. }
    destruct (o_switch_if o), (number_of_rows cs) as [|[|k]]; auto.
    + destruct (compile_nth o _ cs (Some n) ct (S n)) as [[a n1]|] eqn:E; [|discriminate].
      apply some_pair in H as [<- <-]. apply IHn in E as [Fa Ca]. both.
    + cbv zeta in H. destruct (same_body _ _ cs).
      { destruct (compile_nth o _ cs (Some n) ct (S n)) as [[a n1]|] eqn:E; [|discriminate].
        apply some_pair in H as [<- <-]. apply IHn in E as [Fa Ca]. both. }
      destruct (folded o _) as [[]|].
      * destruct (compile_nth o _ cs (Some n) ct (S n)) as [[a n1]|] eqn:E; [|discriminate].
        apply some_pair in H as [<- <-]. apply IHn in E as [Fa Ca]. both.
      * destruct (compile_nth o _ cs (Some n) ct (S n)) as [[a n1]|] eqn:E; [|discriminate].
        apply some_pair in H as [<- <-]. apply IHn in E as [Fa Ca]. both.
      * destruct (compile_nth o (option_map fst (last_value cs)) cs (Some n) ct (S (S n)))
          as [[a n1]|] eqn:E; [|discriminate].
        destruct (compile_nth o (find_default cs) cs (Some n) ct n1) as [[b n2]|] eqn:E2; [|discriminate].
        apply some_pair in H as [<- <-]. apply IHn in E as [Fa Ca]. apply IHn in E2 as [Fb Cb]. both.
  - intros stop bk ct n c n' H; cbn [compile_block] in H. apply some_pair in H as [<- <-]. both.
  - intros s IHs b IHb stop bk ct n c n' H; rewrite compile_bcons in H.
    destruct (compile o s bk ct n) as [[a n1]|] eqn:Ea; [|discriminate].
    apply IHs in Ea as [Fa Ca].
    destruct (stop && unreached (exit_type s)).
    { apply some_pair in H as [<- <-]. auto. }
    destruct (compile_block o stop b bk ct n1) as [[b' n2]|] eqn:Eb; [|discriminate].
    apply IHb in Eb as [Fb Cb]. apply some_pair in H as [<- <-]. both.
  - split.
    + intros bk ct n c rows d n' H; cbn [compile_cases] in H.
      injection H as <- <- <- <-. split; [solve_fresh|split; [solve_closed|split; [intros l []|discriminate]]].
    + intros k bk ct n c n' H; cbn [compile_nth] in H. apply some_pair in H as [<- <-]. both.
  - intros ls b IHb r [IHc IHn]. split.
    + intros bk ct n c rows d n' H; rewrite compile_ccons in H.
      destruct (compile_block o false b bk ct (S n)) as [[a n1]|] eqn:Ea; [|discriminate].
      destruct (compile_cases o r bk ct n1) as [[[[c1 rows1] d1] n2]|] eqn:Er; [|discriminate].
      injection H as <- <- <- <-.
      apply IHb in Ea as [Fa Ca]. apply IHc in Er as (Fr & Cr & R1 & R2).
      split; [|split].
      * solve_fresh.
      * solve_closed.
      * split.
        -- intros l Hl. rewrite map_app in Hl. simp_cnt.
           apply in_app_or in Hl as [Hl|Hl].
           ++ apply rows_of_ls in Hl. subst. rewrite Nat.eqb_refl. lia.
           ++ specialize (R1 l Hl). lia.
        -- intros l Hl. simp_cnt. destruct (has_default ls).
           ++ injection Hl as ->. rewrite Nat.eqb_refl. lia.
           ++ specialize (R2 l Hl). lia.
    + intros k bk ct n c n' H; rewrite compile_nth_cons in H.
      destruct k as [[|k]|]; eauto.
      apply some_pair in H as [<- <-]. both.
Qed.

End Proofs.
