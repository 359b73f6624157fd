(* The writer of MetaModel.v gets to its end and leaves rows that say what was
   to be written. *)
From Coq Require Import ZArith NArith List Bool Lia Permutation.
From Verif Require Import MetaModel MetaSpec MetaProofs.
Import ListNotations.
Local Open Scope nat_scope.

Section Written.
Variables (A : assembly) (X : list xtype).
Hypothesis GA : good_assembly A X.
Hypothesis HX : forall e x h, nth_error X e = Some x -> x_host x = Some h -> h < e.

Local Notation ready := (ready A X).
Local Notation good_item := (good_item A X).
Local Notation good_items := (good_items A X).
Local Notation kcost := (kcost A X).
Local Notation knownB := (knownB A).
Local Notation inv := (inv A X).

Lemma good_item_weaken (P Q : nat -> Prop) i :
  (forall p, P p -> Q p) -> good_item P i -> good_item Q i.
Proof.
  intros W. destruct i as [v|t|t|t|[m|]|k es]; cbn [MetaProofs.good_item]; auto.
  - apply (proj1 (good_ty_weaken A X _ _ W)).
  - intros [N G]. split; [exact N|]. exact (proj1 (good_ty_weaken A X _ _ W) _ G).
  - apply (proj1 (good_ty_weaken A X _ _ W)).
  - intros [S R]. split; [exact S|]. intros e E. eapply ready_weaken; [exact W|]. now apply R.
Qed.

Lemma good_items_all : forall l (P Q : nat -> Prop),
  (forall p, P p -> Q p) -> (forall i, In i l -> good_item P i) -> good_items Q l.
Proof.
  induction l as [|i l IH]; intros P Q W H; cbn [MetaProofs.good_items]; [exact Logic.I|].
  split; [eapply good_item_weaken; [exact W|]; apply H; now left|].
  apply (IH P); [intros p Hp; left; now apply W|]. intros j J. apply H. now right.
Qed.

Lemma args_of_length a : length (args_of a) = args_count a.
Proof. induction a; cbn; congruence. Qed.

Lemma args_of_good (P : nat -> Prop) a e :
  good_targs A X P a -> In e (args_of a) -> ready P TArg e.
Proof.
  induction a as [|t m a IH]; cbn; [intros _ []|].
  intros [G H] [<-|I]; [exact G|]. now apply IH.
Qed.

Lemma args_of_cost a : MetaProofs.sum (map (kcost TArg) (args_of a)) = acost a.
Proof.
  induction a as [|t m a IH]; [reflexivity|].
  cbn [args_of map MetaProofs.sum fold_right acost]. unfold MetaProofs.sum in IH. rewrite IH. reflexivity.
Qed.

Lemma nth_lt {B} (l : list B) n : n < length l -> exists x, nth_error l n = Some x /\ In x l.
Proof.
  intros L. destruct (nth_error l n) as [x|] eqn:E.
  - exists x. split; [reflexivity|]. eapply nth_error_In; exact E.
  - apply nth_error_None in E. lia.
Qed.

Lemma short_ids l : short l -> short (ids l).
Proof. unfold short, ids. now rewrite map_length. Qed.

Lemma in_ids e l : In e (ids l) -> exists n, e = KId n /\ In n l.
Proof. unfold ids. intros H. apply in_map_iff in H. destruct H as [n [<- I]]. eauto. Qed.

Lemma good_accessor_item P m : good_accessor A m -> good_item P (IMethod m).
Proof. destruct m as [n|]; cbn; auto. Qed.

(* members of a row that make no rows of these sorts *)
Definition first_hand (k : tab) : bool :=
  match k with
  | TType | TMethod | TField | TProp | TEvent | TNested | TSuper | TAssembly => true
  | _ => false
  end.

Definition gparams_of (e : key) : list nat :=
  match e with
  | KId n => match nth_error (w_methods A) n with Some m => m_gparams m | None => [] end
  | _ => []
  end.

Lemma ready_describe (P : nat -> Prop) k e :
  (forall p, type_param A p -> P p) -> k <> TType -> ready P k e ->
  exists l, describe A X k e = Some l /\ good_items P l /\
    (forall k', first_hand k' = true -> added k' l = []) /\
    added TGparam l = (if tab_eqb k TMethod then ids (gparams_of e) else []) /\
    1 + MetaProofs.sum (map (icost kcost) l) <= kcost k e.
Proof.
  intros TP NT R.
  destruct k, e as [n|t m]; cbn [MetaProofs.ready] in R; try contradiction.
  - (* type ref *)
    destruct (nth_lt _ _ R) as [x [E _]]. cbn [describe]. rewrite E.
    eexists. split; [reflexivity|]. split; [|split; [|split]].
    + apply (good_items_all _ P P); [auto|].
      intros i [<-|[<-|[<-|[<-|[<-|[]]]]]]; try exact Logic.I.
      destruct (x_host x) as [h|] eqn:H; [|exact Logic.I].
      cbn. pose proof (HX _ _ _ E H). lia.
    + intros k' F. reflexivity.
    + reflexivity.
    + cbn [map icost]. destruct (x_host x) as [h|] eqn:H; cbn; [|lia].
      pose proof (HX _ _ _ E H). lia.
  - (* instance *)
    destruct R as (-> & (g & a & h & ->) & G). cbn [good_ty] in G. destruct G as (Gg & Ga & Gs & Gh).
    cbn [describe]. eexists. split; [reflexivity|]. split; [|split; [|split]].
    + apply (good_items_all _ P P); [auto|].
      intros i [<-|[<-|[<-|[]]]]; cbn [MetaProofs.good_item].
      * split; [discriminate|exact Gg].
      * split; [unfold short; rewrite args_of_length; exact Ga|].
        intros e. now apply args_of_good.
      * exact Gh.
    + intros k' F. unfold added. cbn [flat_map]. destruct k'; cbn in *; congruence.
    + reflexivity.
    + cbn [map icost]. rewrite args_of_cost. unfold MetaProofs.sum. cbn [fold_right].
      unfold MetaProofs.kcost, kcost1, kcost0. cbn [tcost]. lia.
  - (* array *)
    destruct R as (-> & (u & d & ->) & G). cbn [good_ty] in G. destruct G as (Gu & Gd & Gt).
    cbn [describe]. eexists. split; [reflexivity|]. split; [|split; [|split]].
    + apply (good_items_all _ P P); [auto|].
      intros i [<-|[<-|[]]]; cbn [MetaProofs.good_item]; auto.
    + intros k' F. reflexivity.
    + reflexivity.
    + cbn. lia.
  - (* argument *)
    cbn [describe]. eexists. split; [reflexivity|]. split; [|split; [|split]].
    + apply (good_items_all _ P P); [auto|]. intros i [<-|[<-|[]]]; cbn; auto.
    + intros k' F. reflexivity.
    + reflexivity.
    + cbn. lia.
  - (* super type *)
    destruct R as [-> R]. cbn [describe]. eexists. split; [reflexivity|]. split; [|split; [|split]].
    + apply (good_items_all _ P P); [auto|]. intros i [<-|[]]; cbn; auto.
    + intros k' F. reflexivity.
    + reflexivity.
    + cbn. lia.
  - (* nested type *)
    destruct R as [-> (n & -> & L)]. cbn [describe]. eexists. split; [reflexivity|].
    split; [|split; [|split]].
    + apply (good_items_all _ P P); [auto|]. intros i [<-|[]]; cbn; auto.
    + intros k' F. reflexivity.
    + reflexivity.
    + cbn. lia.
  - (* field *)
    destruct (nth_lt _ _ R) as [x [E I]]. cbn [describe]. rewrite E.
    destruct (ga_fields _ _ GA x I) as [N G].
    eexists. split; [reflexivity|]. split; [|split; [|split]].
    + apply (good_items_all _ (type_param A) P); [exact TP|].
      intros i [<-|[<-|[<-|[<-|[]]]]]; cbn; auto.
    + intros k' F. reflexivity.
    + reflexivity.
    + unfold MetaProofs.kcost, kcost1, dcost. cbn [describe]. rewrite E. cbn. lia.
  - (* method *)
    destruct (nth_lt _ _ R) as [x [E I]]. cbn [describe]. rewrite E.
    pose proof (ga_methods _ _ GA x I) as [Gn Gt Gs Gg Gp].
    eexists. split; [reflexivity|]. split; [|split; [|split]].
    + split; [exact Logic.I|]. split; [exact Logic.I|].
      split; [exact Logic.I|]. split.
      { cbn [MetaProofs.good_item]. split; [apply short_ids; tauto|].
        intros e H. apply in_ids in H. destruct H as [g [-> H]]. cbn. now apply Gg. }
      match goal with |- context [now_known ?Q (IMany TGparam ?es)] =>
        set (QQ := now_known Q (IMany TGparam es)) end.
      change (good_items QQ [if may_lack_type (m_trait x) then IType (m_type x)
         else INeed (m_type x); IType (m_owner x); IMany TParam (ids (m_params x))]).
      apply (good_items_all _ (method_param A x) QQ).
      { intros p [H|H]; unfold QQ, now_known; [left; left; left; left; now apply TP|].
        right. unfold ids. apply in_map. exact H. }
      intros i [<-|[<-|[<-|[]]]].
      * destruct (may_lack_type (m_trait x)) eqn:M; cbn [MetaProofs.good_item]; [tauto|].
        split; [|tauto]. intros F. specialize (Gn F). congruence.
      * cbn. tauto.
      * cbn [MetaProofs.good_item]. split; [apply short_ids; tauto|].
        intros e H. apply in_ids in H. destruct H as [g [-> H]]. cbn. now apply Gp.
    + intros k' F. unfold added. cbn [flat_map].
      destruct (may_lack_type (m_trait x)), k'; cbn in *; congruence.
    + unfold added. cbn [flat_map tab_eqb gparams_of]. rewrite E.
      destruct (may_lack_type (m_trait x)); cbn; now rewrite app_nil_r.
    + unfold MetaProofs.kcost at 2, dcost. cbn [describe]. rewrite E.
      apply le_n_S. cbn [map MetaProofs.sum fold_right icost].
      destruct (may_lack_type (m_trait x)); reflexivity.
  - (* property *)
    destruct (nth_lt _ _ R) as [x [E I]]. cbn [describe]. rewrite E.
    pose proof (ga_props _ _ GA x I) as [Gn Gt Gs Gp [Ga Gb]].
    eexists. split; [reflexivity|]. split; [|split; [|split]].
    + apply (good_items_all _ (type_param A) P); [exact TP|].
      intros i [<-|[<-|[<-|[<-|[<-|[<-|[<-|[]]]]]]]]; try exact Logic.I.
      * cbn. tauto.
      * cbn. tauto.
      * cbn [MetaProofs.good_item]. split; [now apply short_ids|].
        intros e H. apply in_ids in H. destruct H as [g [-> H]]. cbn. now apply Gp.
      * now apply good_accessor_item.
      * now apply good_accessor_item.
    + intros k' F. unfold added. cbn [flat_map]. destruct k'; cbn in *; congruence.
    + reflexivity.
    + unfold MetaProofs.kcost at 2, dcost. cbn [describe]. rewrite E. reflexivity.
  - (* event *)
    destruct (nth_lt _ _ R) as [x [E I]]. cbn [describe]. rewrite E.
    pose proof (ga_events _ _ GA x I) as [Gn Gt [Ga Gb]].
    eexists. split; [reflexivity|]. split; [|split; [|split]].
    + apply (good_items_all _ (type_param A) P); [exact TP|].
      intros i [<-|[<-|[<-|[<-|[<-|[<-|[]]]]]]]; try exact Logic.I.
      * cbn. tauto.
      * cbn. tauto.
      * now apply good_accessor_item.
      * now apply good_accessor_item.
    + intros k' F. reflexivity.
    + reflexivity.
    + unfold MetaProofs.kcost, kcost1, dcost. cbn [describe]. rewrite E. reflexivity.
  - (* generic param *)
    destruct (nth_lt _ _ R) as [x [E I]]. cbn [describe]. rewrite E.
    eexists. split; [reflexivity|]. split; [|split; [|split]].
    + apply (good_items_all _ P P); [auto|]. intros i [<-|[<-|[]]]; exact Logic.I.
    + intros k' F. reflexivity.
    + reflexivity.
    + unfold MetaProofs.kcost, kcost1, dcost. cbn [describe]. rewrite E. reflexivity.
  - (* param *)
    destruct R as (x & E & N & G). cbn [describe]. rewrite E.
    eexists. split; [reflexivity|]. split; [|split; [|split]].
    + apply (good_items_all _ P P); [auto|].
      intros i [<-|[<-|[<-|[<-|[]]]]]; cbn; auto.
    + intros k' F. reflexivity.
    + reflexivity.
    + unfold MetaProofs.kcost, kcost1, dcost. cbn [describe]. rewrite E. reflexivity.
  - (* assembly *)
    cbn [describe]. eexists. split; [reflexivity|]. split; [|split; [|split]].
    + apply (good_items_all _ P P); [auto|]. intros i [<-|[]].
      apply good_accessor_item. exact (ga_entry _ _ GA).
    + intros k' F. reflexivity.
    + reflexivity.
    + unfold MetaProofs.kcost, kcost1, dcost. cbn [describe]. reflexivity.
Qed.

(* ---- where the rows of a list begin ---- *)

Definition untyped (k : tab) : bool :=
  match k with TType | TTypeRef | TInstance | TArray | TAssembly => false | _ => true end.

Lemma type_tabs s t : forall k, exists new, s_tabs (snd (commit_type s t)) k = s_tabs s k ++ new /\
  (untyped k = true -> new = []).
Proof.
  assert (FA : forall k0 e, untyped k0 = false -> forall k, exists new,
    s_tabs (snd (find_or_append s k0 e)) k = s_tabs s k ++ new /\ (untyped k = true -> new = [])).
  { intros k0 e U k. unfold find_or_append. destruct (search s k0 e).
    - exists []. cbn [snd]. rewrite app_nil_r. auto.
    - cbn [append snd s_tabs]. destruct (tab_dec k k0) as [->|N].
      + rewrite put_same. eexists. split; [reflexivity|]. congruence.
      + rewrite put_other by exact N. exists []. rewrite app_nil_r. auto. }
  intros k.
  destruct t as [|[n|n]|g a h|e d|p]; cbn [commit_type]; try (apply FA; reflexivity).
  - exists []. cbn [snd]. rewrite app_nil_r. auto.
  - destruct (search s TGparam (KId p)); exists []; cbn [snd]; rewrite app_nil_r; auto.
Qed.

Lemma item_tabs s i c s' : commit_item s i = Done (c, s') -> forall k, exists new,
  s_tabs s' k = s_tabs s k ++ new /\ (untyped k = true -> length new = length (new_of i k)).
Proof.
  assert (Z : forall u k, exists new, s_tabs u k = s_tabs u k ++ new /\
    (untyped k = true -> length new = 0)).
  { intros u k. exists []. rewrite app_nil_r. auto. }
  assert (CT : forall t k, exists new, s_tabs (snd (commit_type s t)) k = s_tabs s k ++ new /\
    (untyped k = true -> length new = 0)).
  { intros t k. destruct (type_tabs s t k) as (new & E & U). exists new. split; [exact E|].
    intros H. now rewrite (U H). }
  intros H k. destruct i as [v|w|w|w|[x|]|k0 es]; cbn [commit_item new_of length] in H |- *.
  - injection H as _ <-. apply Z.
  - specialize (CT w k). destruct (commit_type s w). injection H as _ <-. exact CT.
  - specialize (CT w k). destruct w; try discriminate H;
      destruct (commit_type s _); injection H as _ <-; exact CT.
  - specialize (CT w k). destruct (commit_type s w). injection H as _ <-. exact CT.
  - destruct (search s TMethod (KId x)); [|discriminate H]. injection H as _ <-. apply Z.
  - injection H as _ <-. apply Z.
  - destruct (acquire s k0 es) as [r u1] eqn:AQ. injection H as _ <-.
    unfold acquire in AQ. destruct es as [|e es]; injection AQ as _ <-.
    + exists []. rewrite app_nil_r. split; [reflexivity|]. intros _.
      unfold new_of. now destruct (tab_eqb k0 k).
    + cbn [s_tabs]. destruct (tab_dec k k0) as [->|N].
      * rewrite put_same. eexists. split; [reflexivity|]. intros _. unfold new_of.
        rewrite tab_eqb_refl. rewrite app_length, !map_length, firstn_length, skipn_length. lia.
      * rewrite put_other by exact N. exists []. rewrite app_nil_r. split; [reflexivity|].
        intros _. unfold new_of. destruct (tab_eqb k0 k) eqn:E; [|reflexivity].
        apply tab_eqb_eq in E. congruence.
Qed.

Lemma items_tabs : forall l s row s', commit_items s l = Done (row, s') -> forall k, exists new,
  s_tabs s' k = s_tabs s k ++ new /\ (untyped k = true -> length new = length (added k l)).
Proof.
  induction l as [|i l IH]; intros s row s' H k; cbn [commit_items] in H.
  - injection H as _ <-. exists []. rewrite app_nil_r. auto.
  - destruct (commit_item s i) as [[c u1]| | |] eqn:H1; try discriminate H.
    cbn [bind snd fst] in H.
    destruct (commit_items u1 l) as [[c2 u2]| | |] eqn:H2; try discriminate H.
    cbn [bind snd fst] in H. injection H as _ <-.
    destruct (item_tabs _ _ _ _ H1 k) as (n1 & E1 & L1).
    destruct (IH _ _ _ H2 k) as (n2 & E2 & L2).
    exists (n1 ++ n2). rewrite E2, E1, app_assoc. split; [reflexivity|]. intros U.
    change (added k (i :: l)) with (new_of i k ++ added k l).
    rewrite !app_length, (L1 U), (L2 U). reflexivity.
Qed.

Lemma items_split l1 : forall s l2 row s', commit_items s (l1 ++ l2) = Done (row, s') ->
  exists r1 s1 r2, commit_items s l1 = Done (r1, s1) /\ commit_items s1 l2 = Done (r2, s') /\
    row = r1 ++ r2.
Proof.
  induction l1 as [|i l IH]; intros s l2 row s' H; cbn [commit_items app] in H |- *.
  - exists [], s, row. auto.
  - destruct (commit_item s i) as [[c u1]| | |] eqn:H1; try discriminate H.
    cbn [bind snd fst] in H |- *.
    destruct (commit_items u1 (l ++ l2)) as [[c2 u2]| | |] eqn:H2; try discriminate H.
    cbn [bind snd fst] in H. injection H as <- <-.
    destruct (IH _ _ _ _ H2) as (r1 & s1 & r2 & E1 & E2 & ->).
    rewrite E1. cbn [bind snd fst]. exists (c ++ r1), s1, r2.
    rewrite app_assoc. auto.
Qed.

Definition has_cell (i : item) : bool := match i with ITouch _ => false | _ => true end.

Lemma items_cells : forall l s row s', commit_items s l = Done (row, s') ->
  length row = length (filter has_cell l).
Proof.
  induction l as [|i l IH]; intros s row s' H; cbn [commit_items] in H.
  - injection H as <- _. reflexivity.
  - destruct (commit_item s i) as [[c u1]| | |] eqn:H1; try discriminate H.
    cbn [bind snd fst] in H.
    destruct (commit_items u1 l) as [[c2 u2]| | |] eqn:H2; try discriminate H.
    cbn [bind snd fst] in H. injection H as <- _.
    rewrite app_length, (IH _ _ _ H2).
    assert (length c = if has_cell i then 1 else 0) as ->.
    { destruct i as [v|w|w|w|[x|]|k es]; cbn [commit_item has_cell] in H1 |- *.
      - now injection H1 as <- _.
      - destruct (commit_type s w). now injection H1 as <- _.
      - destruct w; try discriminate H1; destruct (commit_type s _); now injection H1 as <- _.
      - destruct (commit_type s w). now injection H1 as <- _.
      - destruct (search s TMethod (KId x)); [|discriminate H1]. now injection H1 as <- _.
      - now injection H1 as <- _.
      - destruct (acquire s k es). now injection H1 as <- _. }
    cbn [filter]. destruct (has_cell i); reflexivity.
Qed.

Lemma list_begins l1 k es l2 s row s' :
  commit_items s (l1 ++ IMany k es :: l2) = Done (row, s') ->
  untyped k = true -> added k l1 = [] ->
  exists r, nth_error row (length (filter has_cell l1)) = Some (CRef r) /\
    r_index r = (N.of_nat (length (s_tabs s k)) mod 1048576)%N /\
    r_count r = (N.of_nat (length es) mod 512)%N.
Proof.
  intros H U Z. destruct (items_split _ _ _ _ _ H) as (r1 & s1 & r2 & E1 & E2 & ->).
  destruct (items_tabs _ _ _ _ E1 k) as (new & ET & LN).
  rewrite Z in LN. specialize (LN U). destruct new; [|discriminate LN]. rewrite app_nil_r in ET.
  cbn [commit_items commit_item] in E2. destruct (acquire s1 k es) as [r u1] eqn:AQ.
  cbn [bind fst snd] in E2. destruct (commit_items u1 l2) as [[c2 u2]| | |]; try discriminate E2.
  cbn [bind fst snd app] in E2. injection E2 as <- _.
  exists r. split; [|].
  - rewrite <- (items_cells _ _ _ _ E1), nth_error_app2 by lia. now rewrite Nat.sub_diag.
  - unfold acquire in AQ. destruct es; injection AQ as <- _; cbn [r_index r_count mkref]; rewrite ET; auto.
Qed.

(* ---- the second part: everything but the types ---- *)

Record final (T : tables) : Prop := {
  z_entry : forall k i x, nth_error (T k) i = Some x ->
    exists e row l, en_key x = Some e /\ en_row x = Some row /\
      ready (knownT T) k e /\ describe A X k e = Some l /\ says_all T l row;
  z_gparams : keys T TGparam = map (fun n => Some (KId n)) (declared A);
  z_types : all_types A T }.

Record second (s : state) : Prop := {
  y_inv : inv [] s;
  y_types : all_types A (s_tabs s);
  y_methods : all_methods A (s_tabs s);
  y_params : forall p, type_param A p -> knownT (s_tabs s) p;
  y_queue : qkeys TType (s_queue s) = [];
  y_gparams : exists G, keys (s_tabs s) TGparam = map (fun n => Some (KId n)) G /\
    G ++ flat_map gparams_of (qkeys TMethod (s_queue s)) = declared A }.

Lemma second_ends : forall n s, second s -> total A X (s_queue s) <= n ->
  exists T, (forall f, n <= f -> assign A X f s = Done T) /\ final T /\
    (forall k, first_hand k = true -> keys T k = keys (s_tabs s) k) /\
    T TType = s_tabs s TType.
Proof.
  induction n as [n IH] using lt_wf_ind. intros s Y L.
  destruct Y as [I AT AM TP Q G].
  destruct (s_queue s) as [|[[k i] e] q] eqn:EQ.
  - exists (s_tabs s). split; [|split; [|split; [|reflexivity]]].
    + intros f _. destruct f; cbn [assign]; rewrite EQ; reflexivity.
    + constructor; [|destruct G as [G0 [E F]]; cbn in F; rewrite app_nil_r in F; now subst|exact AT].
      intros k i x H. destruct (v_entry _ _ _ _ I _ _ _ H) as (e & K & R & M).
      destruct (en_row x) as [row|] eqn:ER.
      * destruct M as [l [D S]]. exists e, row, l. repeat split; auto.
        eapply ready_weaken; [|exact R]. intros p [P|P]; auto.
      * rewrite EQ in M. destruct M.
    + reflexivity.
  - assert (AE : at_ (s_tabs s) k i e) by (apply (v_queue _ _ _ _ I); rewrite EQ; now left).
    assert (R : ready (knownB (s_tabs s)) k e).
    { unfold at_, keys in AE. rewrite nth_error_map in AE.
      destruct (nth_error (s_tabs s k) i) as [x|] eqn:NX; [|discriminate AE].
      cbn in AE. injection AE as AE.
      destruct (v_entry _ _ _ _ I _ _ _ NX) as (e' & K & R & _). congruence. }
    assert (NT : k <> TType).
    { intros ->. unfold qkeys in Q. cbn in Q. discriminate. }
    destruct (ready_describe (knownB (s_tabs s)) k e) as (l & D & GI & FH & GP & C);
      [intros p P; now left|exact NT|exact R|].
    pose proof (inv_pop _ _ _ _ _ _ _ I EQ) as IP.
    destruct (commit_items_ok A X [(k, i, e)] l (State (s_tabs s) q) (knownB (s_tabs s)))
      as (row & s' & E & S & SA).
    + exact IP.
    + exact AT.
    + apply FH. reflexivity.
    + intros _. exact AM.
    + intros j _. left. exact TP.
    + cbn [s_tabs]. auto.
    + exact GI.
    + destruct S as [SI SG SS ST]. cbn [s_tabs s_queue] in *.
      pose proof (inv_fill _ _ _ _ _ _ _ _ SI D SA) as IF.
      set (s2 := fill s' k i row) in *.
      assert (K2 : forall k', keys (s_tabs s2) k' = keys (s_tabs s') k')
        by (intros; apply keys_fill).
      assert (G2 : grows (s_tabs s) (s_tabs s2)).
      { eapply grows_trans; [exact SG|]. now apply grows_keys. }
      assert (TQ : total A X (s_queue s) = kcost k e + total A X q)
        by (rewrite EQ; reflexivity).
      assert (L2 : total A X (s_queue s2) <= n - 1).
      { change (s_queue s2) with (s_queue s'). rewrite <- EQ in L. lia. }
      destruct n as [|n]; [rewrite <- EQ in L; lia|].
      assert (Y2 : second s2).
      { constructor.
        - exact IF.
        - unfold all_types in *. rewrite K2. destruct (SS TType eq_refl) as [SK _].
          cbn [s_tabs] in SK. rewrite SK, (FH TType eq_refl), AT. now rewrite app_nil_r.
        - eapply all_methods_grows; [exact G2|exact AM].
        - intros p P. eapply knownT_grows; [exact G2|]. now apply TP.
        - change (s_queue s2) with (s_queue s'). destruct (SS TType eq_refl) as [_ SQ].
          cbn [s_queue] in SQ. rewrite SQ, (FH TType eq_refl), app_nil_r.
          unfold qkeys in *. cbn in Q. destruct (tab_eqb k TType); [discriminate Q|exact Q].
        - destruct G as [G0 [E0 F0]]. rewrite K2.
          change (s_queue s2) with (s_queue s').
          destruct (SS TGparam eq_refl) as [SK _]. destruct (SS TMethod eq_refl) as [_ SQ].
          cbn [s_tabs s_queue] in SK, SQ. rewrite SK, SQ, GP, (FH TMethod eq_refl), app_nil_r, E0.
          destruct (tab_dec k TMethod) as [->|NM].
          + exists (G0 ++ gparams_of e). split.
            * cbn [tab_eqb]. unfold ids. now rewrite map_map, map_app.
            * rewrite <- F0. unfold qkeys. cbn. now rewrite app_assoc.
          + assert (tab_eqb k TMethod = false) as NE.
            { destruct (tab_eqb k TMethod) eqn:EE; [apply tab_eqb_eq in EE; contradiction|reflexivity]. }
            exists G0. rewrite NE. split; [cbn; now rewrite app_nil_r|].
            rewrite <- F0. unfold qkeys. cbn [filter fst snd]. now rewrite NE. }
      destruct (IH n (Nat.lt_succ_diag_r n) s2 Y2) as (T & AF & Z & KK & TT); [lia|].
      exists T. split; [|split; [|split]].
      * intros [|f] LF; [lia|]. cbn [assign]. rewrite EQ, D, E. cbn [bind snd fst].
        apply AF. lia.
      * exact Z.
      * intros k' F. rewrite (KK k' F), K2. destruct (tab_dec k' TTypeRef) as [->|]; [discriminate F|].
        assert (TY : typed k' = false) by (destruct k'; try discriminate F; reflexivity).
        destruct (SS k' TY) as [SK _]. cbn [s_tabs] in SK. rewrite SK, (FH k' F). cbn.
        now rewrite app_nil_r.
      * rewrite TT. unfold s2, fill. cbn [s_tabs]. rewrite put_other by congruence.
        destruct (items_tabs _ _ _ _ E TType) as (new & ET & _). cbn [s_tabs] in ET.
        destruct (SS TType eq_refl) as [SK _]. cbn [s_tabs] in SK.
        rewrite (FH TType eq_refl) in SK. unfold keys in SK. rewrite ET in SK.
        rewrite app_nil_r, map_app in SK. rewrite <- (app_nil_r (map en_key (s_tabs s TType))) in SK at 2.
        apply app_inv_head in SK. destruct new; [|discriminate SK]. now rewrite app_nil_r in ET.
Qed.

(* ---- the first part: the types ---- *)

Definition parts (k : tab) (t : gtype) : list key :=
  match k with
  | TGparam => ids (t_params t)
  | TMethod => ids (t_methods t)
  | TProp => ids (t_props t)
  | TField => ids (t_fields t)
  | TEvent => ids (t_events t)
  | TNested => own (t_nested t)
  | TSuper => tys (t_supers t)
  | _ => []
  end.

Definition type_items (t : gtype) : list item :=
  [ IVal (t_name t); IVal (t_decorate t); IVal (t_space t);
    ITouch (host_type (t_host t));
    IMany TGparam (ids (t_params t)); IMany TMethod (ids (t_methods t));
    IMany TProp (ids (t_props t)); IMany TField (ids (t_fields t));
    IMany TEvent (ids (t_events t)); IMany TNested (own (t_nested t));
    IMany TSuper (tys (t_supers t));
    IVal (t_kind t mod 8); IVal (t_value t mod 32) ].

Lemma added_type_items k t : added k (type_items t) = parts k t.
Proof.
  unfold added, type_items. cbn [flat_map]. destruct k; cbn; now rewrite ?app_nil_r.
Qed.

Lemma type_items_good t : In t (w_types A) -> good_items (type_param A) (type_items t).
Proof.
  intros I. destruct (ga_types _ _ GA t I) as [_ _ Gh Gn Gs Gu].
  destruct Gn as (N1 & N2 & N3 & N4 & N5 & N6).
  destruct Gs as (S1 & S2 & S3 & S4 & S5 & S6 & S7).
  apply (good_items_all _ (type_param A) (type_param A)); [auto|].
  intros i H. unfold type_items in H. cbn [In] in H.
  repeat destruct H as [<-|H]; try exact Logic.I.
  - destruct (t_host t) as [h|]; cbn; [now apply Gh|exact Logic.I].
  - split; [now apply short_ids|]. intros e E. apply in_ids in E. destruct E as [n [-> E]]. now apply N1.
  - split; [now apply short_ids|]. intros e E. apply in_ids in E. destruct E as [n [-> E]]. now apply N2.
  - split; [now apply short_ids|]. intros e E. apply in_ids in E. destruct E as [n [-> E]]. now apply N3.
  - split; [now apply short_ids|]. intros e E. apply in_ids in E. destruct E as [n [-> E]]. now apply N4.
  - split; [now apply short_ids|]. intros e E. apply in_ids in E. destruct E as [n [-> E]]. now apply N5.
  - split; [unfold short, own; now rewrite map_length|]. intros e E. unfold own in E.
    apply in_map_iff in E. destruct E as [n [<- E]]. split; [reflexivity|]. exists n.
    split; [reflexivity|]. now apply N6.
  - split; [unfold short, tys; now rewrite map_length|]. intros e E. unfold tys in E.
    apply in_map_iff in E. destruct E as [u [<- E]]. split; [reflexivity|]. now apply Gu.
  - contradiction.
Qed.

Lemma type_items_solid T t i : In t (w_types A) -> In i (type_items t) -> solid A X T i.
Proof.
  intros I H. right. unfold type_items in H. cbn [In] in H.
  repeat destruct H as [<-|H]; try exact Logic.I; [|contradiction].
  destruct (t_host t) as [h|] eqn:E; cbn; [|exact Logic.I].
  exact (gt_host _ _ _ (ga_types _ _ GA t I) h E).
Qed.

Definition type_queue (j m : nat) : list (tab * nat * key) :=
  map (fun n => (TType, n, KId n)) (seq j m).

(* The place of the list of rows among the members of a type *)
Definition place (k : tab) : option nat :=
  match k with
  | TGparam => Some 3 | TMethod => Some 4 | TProp => Some 5 | TField => Some 6
  | TEvent => Some 7 | TNested => Some 8 | TSuper => Some 9 | _ => None
  end.

(* The lists of the filled types come one after the other. *)
Definition starts (T : tables) : Prop :=
  forall n x row k c t, nth_error (T TType) n = Some x -> en_row x = Some row ->
  place k = Some c -> nth_error (w_types A) n = Some t ->
  exists r, nth_error row c = Some (CRef r) /\
    r_index r = (N.of_nat (length (flat_map (parts k) (firstn n (w_types A)))) mod 1048576)%N /\
    r_count r = (N.of_nat (length (parts k t)) mod 512)%N.

Lemma type_starts s t row s' k c : commit_items s (type_items t) = Done (row, s') ->
  place k = Some c -> exists r, nth_error row c = Some (CRef r) /\
    r_index r = (N.of_nat (length (s_tabs s k)) mod 1048576)%N /\
    r_count r = (N.of_nat (length (parts k t)) mod 512)%N.
Proof.
  unfold type_items. intros H P.
  pose (l := type_items t).
  destruct k; try discriminate P; injection P as <-;
  [ apply (list_begins (firstn 10 l) TSuper (tys (t_supers t)) (skipn 11 l) _ _ _ H)
  | apply (list_begins (firstn 9 l) TNested (own (t_nested t)) (skipn 10 l) _ _ _ H)
  | apply (list_begins (firstn 7 l) TField (ids (t_fields t)) (skipn 8 l) _ _ _ H)
  | apply (list_begins (firstn 5 l) TMethod (ids (t_methods t)) (skipn 6 l) _ _ _ H)
  | apply (list_begins (firstn 6 l) TProp (ids (t_props t)) (skipn 7 l) _ _ _ H)
  | apply (list_begins (firstn 8 l) TEvent (ids (t_events t)) (skipn 9 l) _ _ _ H)
  | apply (list_begins (firstn 4 l) TGparam (ids (t_params t)) (skipn 5 l) _ _ _ H) ];
  reflexivity.
Qed.

Record first (j : nat) (s : state) (rest : list (tab * nat * key)) : Prop := {
  x_inv : inv [] s;
  x_types : all_types A (s_tabs s);
  x_queue : s_queue s = type_queue j (length (w_types A) - j) ++ rest;
  x_rest : qkeys TType rest = [];
  x_keys : forall k, untyped k = true ->
    keys (s_tabs s) k = map Some (flat_map (parts k) (firstn j (w_types A)));
  x_methods : qkeys TMethod rest = flat_map (parts TMethod) (firstn j (w_types A));
  x_assembly : keys (s_tabs s) TAssembly = [Some (KId 0)];
  x_starts : starts (s_tabs s) }.

Lemma firstn_S {B} (l : list B) j x : nth_error l j = Some x -> firstn (S j) l = firstn j l ++ [x].
Proof.
  revert j. induction l as [|y l IH]; intros [|j] H; cbn in *; try discriminate.
  - now injection H as ->.
  - f_equal. now apply IH.
Qed.

Lemma qkeys_type_queue k j m : k <> TType -> qkeys k (type_queue j m) = [].
Proof.
  intros N. unfold qkeys, type_queue. revert j. induction m as [|m IH]; intros j; [reflexivity|].
  cbn [seq map filter fst]. destruct (tab_eqb TType k) eqn:E.
  - apply tab_eqb_eq in E. congruence.
  - apply IH.
Qed.

Lemma queue_grows : forall l s0 row s', commit_items s0 l = Done (row, s') ->
  exists new, s_queue s' = s_queue s0 ++ new.
Proof.
  assert (FA : forall s k e, exists new, s_queue (snd (find_or_append s k e)) = s_queue s ++ new).
  { intros u k e. unfold find_or_append. destruct (search u k e).
    - exists []. cbn. now rewrite app_nil_r.
    - eexists. reflexivity. }
  assert (CT : forall s t, exists new, s_queue (snd (commit_type s t)) = s_queue s ++ new).
  { intros u w. destruct w as [|[n|n]|g a h|e d|p]; cbn [commit_type]; try apply FA.
    - exists []. cbn. now rewrite app_nil_r.
    - destruct (search u TGparam (KId p)); exists []; cbn; now rewrite app_nil_r. }
  assert (CI : forall s i c s', commit_item s i = Done (c, s') ->
    exists new, s_queue s' = s_queue s ++ new).
  { intros u i c u' H. destruct i as [v|w|w|w|[x|]|k es]; cbn [commit_item] in H.
    - injection H as _ <-. exists []. now rewrite app_nil_r.
    - specialize (CT u w). destruct (commit_type u w). injection H as _ <-. exact CT.
    - specialize (CT u w). destruct w; try discriminate H;
        destruct (commit_type u _); injection H as _ <-; exact CT.
    - specialize (CT u w). destruct (commit_type u w). injection H as _ <-. exact CT.
    - destruct (search u TMethod (KId x)); [|discriminate H]. injection H as _ <-.
      exists []. now rewrite app_nil_r.
    - injection H as _ <-. exists []. now rewrite app_nil_r.
    - destruct (acquire u k es) as [r u1] eqn:AQ. injection H as _ <-.
      unfold acquire in AQ. destruct es; injection AQ as _ <-.
      + exists []. now rewrite app_nil_r.
      + eexists. reflexivity. }
  induction l as [|i l IHl]; intros u rw u' H; cbn [commit_items] in H.
  - injection H as _ <-. exists []. now rewrite app_nil_r.
  - destruct (commit_item u i) as [[c u1]| | |] eqn:H1; try discriminate H.
    cbn [bind snd fst] in H.
    destruct (commit_items u1 l) as [[c2 u2]| | |] eqn:H2; try discriminate H.
    cbn [bind snd fst] in H. injection H as _ <-.
    destruct (CI _ _ _ _ H1) as [n1 E1]. destruct (IHl _ _ _ H2) as [n2 E2].
    exists (n1 ++ n2). rewrite E2, E1. now rewrite app_assoc.
Qed.

Lemma first_step j s rest : first j s rest -> j < length (w_types A) ->
  exists s' rest', first (S j) s' rest' /\
    (forall f, assign A X (S f) s = assign A X f s').
Proof.
  intros [I AT Q QR K KM KA XS] L.
  destruct (nth_lt _ _ L) as [t [E It]].
  remember (length (w_types A) - S j) as m eqn:Em.
  assert (EQ : s_queue s = (TType, j, KId j) :: type_queue (S j) m ++ rest).
  { rewrite Q. replace (length (w_types A) - j) with (S m) by lia. reflexivity. }
  pose proof (inv_pop _ _ _ _ _ _ _ I EQ) as IP.
  assert (D : describe A X TType (KId j) = Some (type_items t)) by (cbn [describe]; now rewrite E).
  destruct (commit_items_ok A X [(TType, j, KId j)] (type_items t)
              (State (s_tabs s) (type_queue (S j) m ++ rest)) (type_param A))
    as (row & s' & EC & [SI SG SS ST] & SA).
  - exact IP.
  - exact AT.
  - apply added_type_items.
  - intros [x H]. unfold type_items in H. cbn [In] in H. repeat destruct H as [H|H]; discriminate || contradiction.
  - intros i H. now apply (type_items_solid _ t).
  - intros p P. now left.
  - now apply type_items_good.
  - cbn [s_tabs s_queue] in *.
    pose proof (inv_fill _ _ _ _ _ _ _ _ SI D SA) as IF.
    set (s2 := fill s' TType j row) in *.
    assert (K2 : forall k', keys (s_tabs s2) k' = keys (s_tabs s') k') by (intros; apply keys_fill).
    (* what was put into the queue *)
    assert (exists new, s_queue s' = (type_queue (S j) m ++ rest) ++ new) as [new NQ].
    { exact (queue_grows _ _ _ _ EC). }
    cbn [s_queue] in NQ.
    exists s2, (rest ++ new).
    assert (QN : forall k, typed k = false -> qkeys k new = parts k t).
    { intros k TY. destruct (SS k TY) as [_ SQ]. cbn [s_queue] in SQ.
      rewrite NQ, qkeys_app, added_type_items in SQ. now apply app_inv_head in SQ. }
    split.
    + constructor.
      * exact IF.
      * unfold all_types in *. rewrite K2. destruct (SS TType eq_refl) as [SK _].
        rewrite added_type_items in SK. cbn [s_tabs parts map] in SK.
        rewrite SK, AT. now rewrite app_nil_r.
      * change (s_queue s2) with (s_queue s'). rewrite NQ, <- Em, app_assoc. reflexivity.
      * rewrite qkeys_app, QR, (QN TType eq_refl). reflexivity.
      * intros k UK. rewrite K2. assert (TY : typed k = false) by (destruct k; try discriminate UK; reflexivity).
        destruct (SS k TY) as [SK _]. rewrite added_type_items in SK. cbn [s_tabs] in SK.
        rewrite SK, (K k UK). rewrite (firstn_S _ _ _ E), flat_map_app, map_app.
        cbn [flat_map]. now rewrite app_nil_r.
      * rewrite qkeys_app, KM, (QN TMethod eq_refl). rewrite (firstn_S _ _ _ E), flat_map_app.
        cbn [flat_map]. now rewrite app_nil_r.
      * rewrite K2. destruct (SS TAssembly eq_refl) as [SK _]. rewrite added_type_items in SK.
        cbn [s_tabs parts map] in SK. rewrite SK, KA. reflexivity.
      * intros n x row0 k c u NX ER P NU. unfold s2, fill in NX. cbn [s_tabs] in NX.
        rewrite put_same in NX. destruct (items_tabs _ _ _ _ EC TType) as (new0 & ET & _).
        cbn [s_tabs] in ET.
        assert (LJ : length (s_tabs s TType) = length (w_types A)).
        { unfold all_types, keys in AT. apply (f_equal (@length _)) in AT.
          now rewrite !map_length, seq_length in AT. }
        assert (LN : n < length (s_tabs s TType))
          by (rewrite LJ; apply nth_error_Some; congruence).
        destruct (set_row_nth _ _ _ _ _ NX) as [(-> & y & _ & ->)|(NN & NY)].
        -- cbn [en_row] in ER. injection ER as <-. rewrite E in NU. injection NU as <-.
           destruct (type_starts _ _ _ _ k c EC P) as (r & R1 & R2 & R3). exists r.
           split; [exact R1|]. split; [|exact R3]. rewrite R2. cbn [s_tabs].
           assert (UK : untyped k = true) by (destruct k; try discriminate P; reflexivity).
           specialize (K k UK). unfold keys in K. apply (f_equal (@length _)) in K.
           rewrite !map_length in K. now rewrite K.
        -- rewrite ET, nth_error_app1 in NY by exact LN. exact (XS _ _ _ _ _ _ NY ER P NU).
    + intros f. cbn [assign]. rewrite EQ, D, EC. reflexivity.
Qed.

Lemma first_ends : forall m j s rest, j + m = length (w_types A) -> first j s rest ->
  exists s' rest', first (length (w_types A)) s' rest' /\
    forall f, assign A X (m + f) s = assign A X f s'.
Proof.
  induction m as [|m IH]; intros j s rest L F.
  - exists s, rest. replace (length (w_types A)) with j by lia. split; [exact F|reflexivity].
  - destruct (first_step j s rest F) as (s1 & r1 & F1 & E1); [lia|].
    destruct (IH (S j) s1 r1) as (s2 & r2 & F2 & E2); [lia|exact F1|].
    exists s2, r2. split; [exact F2|]. intros f. cbn [Nat.add]. rewrite E1. apply E2.
Qed.

Lemma declared_methods :
  flat_map gparams_of (flat_map (parts TMethod) (w_types A)) =
  flat_map (fun n => match nth_error (w_methods A) n with
                     | Some m => m_gparams m | None => [] end) (listed A t_methods).
Proof.
  unfold listed. cbn [parts]. induction (w_types A) as [|t ts IH]; [reflexivity|].
  cbn [flat_map]. rewrite !flat_map_app, IH. f_equal.
  cbn [parts]. unfold ids. induction (t_methods t) as [|n ns IHn]; [reflexivity|].
  cbn [map flat_map]. rewrite IHn. reflexivity.
Qed.

Lemma parts_ids k part : (forall t, parts k t = ids (part t)) ->
  flat_map (parts k) (w_types A) = ids (listed A part).
Proof.
  intros H. unfold listed, ids. induction (w_types A) as [|t ts IH]; [reflexivity|].
  cbn [flat_map]. rewrite map_app, H, IH. reflexivity.
Qed.

Lemma first_second s rest : first (length (w_types A)) s rest -> second s.
Proof.
  intros [I AT Q QR K KM KA].
  rewrite Nat.sub_diag in Q. unfold type_queue in Q. cbn [seq map app] in Q.
  rewrite firstn_all in *.
  constructor.
  - exact I.
  - exact AT.
  - intros n H. specialize (K TMethod eq_refl). rewrite (parts_ids TMethod t_methods) in K by reflexivity.
    apply In_nth_error in H. destruct H as [i H]. exists i. unfold at_. rewrite K.
    unfold ids. rewrite !nth_error_map, H. reflexivity.
  - intros p [t [It Ip]]. specialize (K TGparam eq_refl).
    rewrite (parts_ids TGparam t_params) in K by reflexivity.
    assert (H : In p (listed A t_params)) by (apply in_flat_map; eauto).
    apply In_nth_error in H. destruct H as [i H]. exists i. unfold at_. rewrite K.
    unfold ids. rewrite !nth_error_map, H. reflexivity.
  - now rewrite Q.
  - exists (listed A t_params). rewrite Q, KM. split.
    + rewrite (K TGparam eq_refl), (parts_ids TGparam t_params) by reflexivity.
      unfold ids. now rewrite map_map.
    + unfold declared. f_equal. apply declared_methods.
Qed.

(* ---- the beginning ---- *)

Lemma commit_types_ok : forall m, m <= length (w_types A) ->
  let s := fold_left (fun s n => snd (find_or_append s TType (KId n))) (seq 0 m) empty in
  s_tabs s TType = map (fun n => Entry (Some (KId n)) None) (seq 0 m) /\
  s_queue s = type_queue 0 m /\ (forall k, k <> TType -> s_tabs s k = []).
Proof.
  induction m as [|m IH]; intros L s.
  - subst s. cbn. auto.
  - specialize (IH (le_S_n _ _ (le_S _ _ L))). cbv zeta in IH. subst s.
    rewrite seq_S, fold_left_app. cbn [Nat.add]. 
    set (s := fold_left _ (seq 0 m) empty) in *. cbn [fold_left].
    destruct IH as (T & Q & O).
    unfold find_or_append. destruct (search s TType (KId m)) as [i|] eqn:F.
    + exfalso. apply search_some in F. unfold at_, keys in F. rewrite T, map_map in F.
      rewrite nth_error_map in F. destruct (nth_error (seq 0 m) i) as [y|] eqn:Y; [|discriminate F].
      cbn in F. injection F as ->. apply nth_error_In, in_seq in Y. lia.
    + rewrite append_adds. cbn [snd]. unfold adds. cbn [s_tabs s_queue length seq combine map fst snd].
      assert (LE : length (s_tabs s TType) = m) by (rewrite T, map_length; apply seq_length).
      split; [|split].
      * rewrite put_same, T, map_app. reflexivity.
      * unfold type_queue in *. rewrite seq_S, map_app, Q, LE, Nat.add_0_r. reflexivity.
      * intros k N. rewrite put_other by exact N. now apply O.
Qed.

Lemma first_begins : exists rest,
  first 0 (snd (append (commit_types A) TAssembly (KId 0))) rest.
Proof.
  destruct (commit_types_ok (length (w_types A)) (le_n _)) as (T & Q & O).
  change (fold_left _ _ _) with (commit_types A) in T, Q, O.
  set (s := commit_types A) in *.
  assert (KT : keys (s_tabs s) TType = map (fun n => Some (KId n)) (seq 0 (length (w_types A)))).
  { unfold keys. rewrite T, map_map. reflexivity. }
  assert (I0 : inv [] s).
  { constructor.
    - intros k i x H. destruct (tab_dec k TType) as [->|N]; [|rewrite (O k N) in H; destruct i; discriminate H].
      rewrite T, nth_error_map in H. destruct (nth_error (seq 0 (length (w_types A))) i) as [y|] eqn:Y; [|discriminate H].
      cbn in H. injection H as <-. exists (KId y). split; [reflexivity|].
      pose proof (nth_error_In _ _ Y) as M. apply in_seq in M.
      split; [cbn; lia|]. cbn [en_row app]. rewrite Q. unfold type_queue. apply in_map_iff.
      assert (i < length (seq 0 (length (w_types A)))) as LI by (apply nth_error_Some; congruence).
      rewrite seq_length in LI.
      assert (y = i) as ->.
      { rewrite (nth_error_nth' _ 0) in Y by (rewrite seq_length; lia). rewrite seq_nth in Y by lia.
        cbn in Y. congruence. }
      exists i. split; [reflexivity|]. apply in_seq. lia.
    - intros k i e H. cbn [app] in H. rewrite Q in H. unfold type_queue in H. apply in_map_iff in H.
      destruct H as [n [E H]]. injection E as <- <- <-. apply in_seq in H.
      apply (all_types_at A); [exact KT|lia]. }
  rewrite append_adds. cbn [snd].
  exists [(TAssembly, 0, KId 0)].
  constructor.
  - apply inv_adds; [exact I0|]. intros e [<-|[]]. exact Logic.I.
  - unfold all_types. rewrite keys_adds. cbn [tab_eqb]. rewrite app_nil_r. exact KT.
  - unfold adds. cbn [s_queue]. rewrite Q, (O TAssembly) by discriminate.
    rewrite Nat.sub_0_r. reflexivity.
  - reflexivity.
  - intros k U. rewrite keys_adds. destruct (tab_eqb TAssembly k) eqn:E.
    + apply tab_eqb_eq in E. subst k. discriminate U.
    + unfold keys. rewrite (O k) by (intros ->; discriminate U). reflexivity.
  - reflexivity.
  - rewrite keys_adds. cbn [tab_eqb map]. unfold keys. rewrite (O TAssembly) by discriminate.
    reflexivity.
  - intros n x row k c t NX ER. unfold adds in NX. cbn [s_tabs] in NX.
    rewrite put_other, T, nth_error_map in NX by discriminate.
    destruct (nth_error (seq 0 (length (w_types A))) n); [|discriminate NX].
    cbn in NX. injection NX as <-. discriminate ER.
Qed.

Lemma writes : exists fuel T, (forall f, fuel <= f -> write A X f = Done T) /\ final T /\
  (forall k, first_hand k = true -> untyped k = true ->
     keys T k = map Some (flat_map (parts k) (w_types A))) /\
  keys T TAssembly = [Some (KId 0)] /\ starts T.
Proof.
  destruct first_begins as [r0 F0].
  destruct (first_ends (length (w_types A)) 0 _ _ eq_refl F0) as (s1 & r1 & F1 & E1).
  pose proof (first_second _ _ F1) as Y.
  destruct (second_ends (total A X (s_queue s1)) s1 Y (le_n _)) as (T & AF & Z & K & TT).
  exists (length (w_types A) + total A X (s_queue s1)), T. split; [|split; [exact Z|split; [|split]]].
  - intros f L. unfold write.
    replace f with (length (w_types A) + (f - length (w_types A))) by lia.
    rewrite E1. apply AF. lia.
  - intros k F U. rewrite (K k F). destruct F1 as [_ _ _ _ XK _ _ _]. rewrite (XK k U).
    now rewrite firstn_all.
  - rewrite (K TAssembly eq_refl). now destruct F1.
  - intros n x row k c t NX. rewrite TT in NX. destruct F1 as [_ _ _ _ _ _ _ XS].
    exact (XS n x row k c t NX).
Qed.
End Written.
