From Coq Require Import ZArith List Bool Arith Lia.
From Coq Require Import Relations.Relation_Operators Relations.Operators_Properties.
From Verif Require Import CppInt ArithModel ArithSpec ArithProofs ExprModel KonstModel KonstSpec.
Import ListNotations.
Open Scope Z_scope.

(** *** Expressions *)

Lemma names_occurs : forall f e, In f (names e) <-> occurs f e.
Proof.
  intros f; induction e; cbn [names occurs]; rewrite ?in_app_iff; cbn [In]; tauto.
Qed.

Lemma fold_binary_proper : forall o x y v, fold_binary o x y = Const v -> proper v.
Proof.
  assert (K : forall o x y v, of_res (binary_operator o x y) = Const v -> proper v).
  { intros o [t1 v1] [t2 v2] v. unfold binary_operator.
    assert (PB : forall b, proper (Vb, b2z b)) by (intros []; [right | left]; reflexivity).
    assert (PC : forall r z, proper (r, vcast r z)).
    { intros [t|] z; unfold proper; cbn [fst snd vcast]; [apply wrap_in_range|].
      destruct (z =? 0); auto. }
    assert (P0 : proper (Vi I32, 0)) by (unfold proper, in_range; cbn; lia).
    assert (BD : forall r z v', of_res (bind z (fun z => Val (r, vcast r z))) = Const v' -> proper v').
    { intros r [z|] v'; cbn; intros Q; inversion Q; subst; apply PC. }
    destruct (get_binary_vtype o t1 t2) as [r|] eqn:G.
    - destruct o; destruct t1, t2; intros Q;
        try (apply (BD _ _ _ Q)); cbn in Q; inversion Q; subst; try apply PC; try apply P0;
        try (cbn in G; inversion G; subst; apply PB).
    - intros Q; cbn in Q; inversion Q; subst; exact P0. }
  intros o x y v. unfold fold_binary.
  destruct o as [[]|[]|[]| |];
    repeat match goal with |- context [if ?b then _ else _] => destruct b end;
    intros Q; try discriminate Q; apply (K _ _ _ _ Q).
Qed.

Lemma fold_unary_proper : forall o x v, fold_unary o x = Const v -> proper v.
Proof.
  assert (K : forall o x v, of_res (unitary_operator o x) = Const v -> proper v).
  { intros o [t v1] v. unfold unitary_operator.
    assert (PB : forall b, proper (Vb, b2z b)) by (intros []; [right | left]; reflexivity).
    assert (PC : forall r z, proper (r, vcast r z)).
    { intros [u|] z; unfold proper; cbn [fst snd vcast]; [apply wrap_in_range|].
      destruct (z =? 0); auto. }
    assert (P0 : proper (Vi I32, 0)) by (unfold proper, in_range; cbn; lia).
    destruct (get_unitary_vtype o t) as [r|] eqn:G.
    - destruct t.
      + destruct (cpp_unary o t v1); cbn; intros Q; inversion Q; subst; apply PC.
      + destruct o; cbn in G; inversion G; subst; intros Q; cbn in Q; inversion Q; apply PB.
    - intros Q; cbn in Q; inversion Q; subst; exact P0. }
  intros o x v. unfold fold_unary.
  destruct o; destruct (fst x); cbn [negb]; intros Q; try discriminate Q; apply (K _ _ _ Q).
Qed.

Scheme means_mind := Induction for means Sort Prop
  with value_mind := Induction for value_of Sort Prop.
Combined Scheme means_value_ind from means_mind, value_mind.

Section Proofs.

Variable P : prog.
Hypothesis S0 : source P.

Lemma all_in_order : all_fields P = in_order P.
Proof. unfold all_fields, in_order. apply flat_map_concat_map. Qed.

Lemma declares_in : forall T f, declares P T f -> In f (in_order P).
Proof.
  intros T f [A B]. unfold in_order. apply in_concat. exists (kfields T). split; auto.
  apply in_map. exact A.
Qed.

Lemma in_declares : forall f, In f (in_order P) -> exists T, declares P T f.
Proof.
  intros f A. unfold in_order in A. apply in_concat in A. destruct A as (l & A & B).
  apply in_map_iff in A. destruct A as (T & <- & A). exists T. split; auto.
Qed.

(* A field is declared in one type. *)
Lemma nodup_concat_once : forall (ls : list (list fid)), NoDup (concat ls) ->
  forall l1 l2 f, In l1 ls -> In l2 ls -> In f l1 -> In f l2 -> l1 = l2.
Proof.
  induction ls as [|l ls IH]; cbn [concat In]; [tauto|].
  intros N l1 l2 f A B C D.
  assert (X : forall a, In a l -> ~ In a (concat ls)).
  { clear - N. induction l as [|x l IH]; cbn [In app] in *; [tauto|].
    inversion N; subst. intros a [->|U] V.
    - apply H1. apply in_or_app. right. exact V.
    - apply (IH H2 a U V). }
  assert (Y : NoDup (concat ls)).
  { clear - N. induction l as [|x l IH]; [exact N|]. inversion N; subst. auto. }
  destruct A as [<-|A], B as [<-|B]; auto.
  - exfalso. apply (X f C). apply in_concat. eauto.
  - exfalso. apply (X f D). apply in_concat. eauto.
  - eauto.
Qed.

Lemma nodup_part : forall T, In T (ptypes P) -> NoDup (kfields T).
Proof.
  intros T A. pose proof (once P S0) as N. unfold in_order in N.
  induction (ptypes P) as [|U l IH]; cbn [map concat In] in *; [tauto|].
  destruct A as [->|A].
  - clear IH. revert N. generalize (concat (map kfields l)). generalize (kfields T).
    clear. induction l as [|x l IH]; intros m N; [constructor|].
    inversion N; subst. constructor; [|eauto].
    intros A. apply H1. apply in_or_app. auto.
  - apply IH; auto. clear - N. induction (kfields U); [exact N|]. inversion N; auto.
Qed.

Lemma same_type_fields : forall T U f, declares P T f -> declares P U f -> kfields T = kfields U.
Proof.
  intros T U f [A B] [C D]. pose proof (once P S0) as N. unfold in_order in N.
  apply (nodup_concat_once _ N _ _ f); auto; apply in_map; auto.
Qed.

(* The types themselves are the same: their fields stand at one place. *)
Lemma same_type : forall T U f, declares P T f -> declares P U f -> T = U.
Proof.
  intros T U f [A B] [C D]. pose proof (once P S0) as N. unfold in_order in N.
  revert A C N. induction (ptypes P) as [|X l IH]; cbn [map concat In]; [tauto|].
  intros A C N.
  assert (Y : NoDup (concat (map kfields l))).
  { clear - N. induction (kfields X); [exact N|]. inversion N; auto. }
  assert (Z : forall a, In a (kfields X) -> ~ In a (concat (map kfields l))).
  { clear - N. induction (kfields X) as [|x k IH]; cbn [In app] in *; [tauto|].
    inversion N; subst. intros a [->|U] V.
    - apply H1. apply in_or_app. right. exact V.
    - apply (IH H2 a U V). }
  destruct A as [->|A], C as [->|C]; auto.
  - exfalso. apply (Z f B). apply in_concat. exists (kfields U). split; auto. apply in_map. exact C.
  - exfalso. apply (Z f D). apply in_concat. exists (kfields T). split; auto. apply in_map. exact A.
Qed.

Lemma host_declares : forall f T, host P f = Some T -> declares P T f.
Proof.
  intros f T A. unfold host in A. apply find_some in A. destruct A as [A B].
  apply existsb_exists in B. destruct B as (x & B & C). apply Nat.eqb_eq in C. subst x.
  split; auto.
Qed.

Lemma declares_host : forall f T, declares P T f -> host P f = Some T.
Proof.
  intros f T D. destruct (host P f) as [U|] eqn:E.
  - f_equal. apply (same_type U T f); auto. apply host_declares. exact E.
  - exfalso. unfold host in E. destruct D as [A B].
    pose proof (find_none _ _ E T A) as C. cbn in C.
    assert (X : existsb (Nat.eqb f) (kfields T) = true).
    { apply existsb_exists. exists f. split; auto. apply Nat.eqb_refl. }
    congruence.
Qed.

Lemma before_some : forall f l g, before f l = Some g -> exists l1 l2, l = l1 ++ g :: f :: l2.
Proof.
  intros f; induction l as [|a l IH]; cbn [before]; [discriminate|].
  intros g. destruct l as [|b l]; [discriminate|].
  destruct (Nat.eqb b f) eqn:E.
  - intros Q; inversion Q; subst. apply Nat.eqb_eq in E. subst b. exists [], l. reflexivity.
  - intros Q. destruct (IH g Q) as (l1 & l2 & W). exists (a :: l1), l2. rewrite W. reflexivity.
Qed.

Lemma before_split : forall f l1 g l2, NoDup (l1 ++ g :: f :: l2) ->
  before f (l1 ++ g :: f :: l2) = Some g.
Proof.
  intros f; induction l1 as [|a l1 IH]; intros g l2 N; cbn [app before].
  - rewrite Nat.eqb_refl. reflexivity.
  - destruct (l1 ++ g :: f :: l2) as [|b r] eqn:E; [destruct l1; discriminate E|].
    destruct (Nat.eqb b f) eqn:F.
    + exfalso. apply Nat.eqb_eq in F. subst b. cbn [app] in N. rewrite E in N.
      destruct l1 as [|x l1]; cbn [app] in E; inversion E; subst.
      * inversion N; subst. inversion H2; subst. apply H3. left. reflexivity.
      * inversion N; subst. inversion H2; subst. apply H3. apply in_or_app. right. right. left. reflexivity.
    + rewrite <- E. apply IH. cbn [app] in N. inversion N; subst. exact H2.
Qed.

Lemma previous_follows : forall f g, pinit P f = None -> previous P f = Some g -> follows P f g.
Proof.
  intros f g A B. unfold previous in B. destruct (host P f) as [T|] eqn:H; [|discriminate].
  destruct (kenum T) as [t|] eqn:K; [|discriminate].
  destruct (before_some _ _ _ B) as (l1 & l2 & W).
  split; auto. exists T, t, l1, l2. apply host_declares in H. destruct H. auto.
Qed.

Lemma previous_split : forall T t l1 g f l2, In T (ptypes P) -> kenum T = Some t ->
  kfields T = l1 ++ g :: f :: l2 -> previous P f = Some g.
Proof.
  intros T t l1 g f l2 A K W.
  assert (D : declares P T f).
  { split; auto. rewrite W. apply in_or_app. right. right. left. reflexivity. }
  unfold previous. rewrite (declares_host _ _ D), K, W. apply before_split.
  rewrite <- W. apply nodup_part. exact A.
Qed.

(** *** Circular definitions *)

(* The fields done so far have a number. *)
Definition stands (D : list fid) (s : inits) : Prop :=
  forall f, (In f D -> pconst P f = true /\ exists v, s f = Some (KNum v)) /\
            (~ In f D -> s f = pinit P f).

(* What is left to follow *)
Definition step (D : list fid) (g f : fid) : Prop := ~ In f D /\ depends P f g.

Lemma next_step : forall D s f g, stands D s -> In g (next_fields P s f) -> step D g f.
Proof.
  intros D s f g ST A. destruct (ST f) as [IN OUT]. unfold next_fields in A.
  destruct (in_dec Nat.eq_dec f D) as [I|O].
  - destruct (IN I) as (_ & v & E). rewrite E in A. destruct A.
  - split; auto. rewrite (OUT O) in A. destruct (pinit P f) as [e|] eqn:E.
    + left. exists e. split; auto. apply names_occurs. exact A.
    + right. destruct (previous P f) as [h|] eqn:Q; [|destruct A].
      destruct A as [->|[]]. apply previous_follows; auto.
Qed.

Lemma step_next : forall D s f g, stands D s -> step D g f -> In g (next_fields P s f).
Proof.
  intros D s f g ST [O [(e & E & M)|(E & T & t & l1 & l2 & A & K & W)]];
    unfold next_fields; destruct (ST f) as [_ OUT]; rewrite (OUT O), E.
  - apply names_occurs. exact M.
  - rewrite (previous_split T t l1 g f l2 A K W). left. reflexivity.
Qed.

Lemma depends_in : forall f g, depends P f g -> In g (in_order P).
Proof.
  intros f g [M|(E & T & t & l1 & l2 & A & K & W)].
  - apply (named P S0 f g M).
  - apply (declares_in T). split; auto. rewrite W. apply in_or_app. right. left. reflexivity.
Qed.

Lemma not_circular_acc : forall D s, stands D s -> forall n path f,
  NoDup path -> incl path (in_order P) -> In f (in_order P) ->
  (n + length path > length (in_order P))%nat ->
  circular P n s path f = false -> Acc (step D) f.
Proof.
  intros D s ST. induction n as [|n IH]; intros path f N I F L C.
  - exfalso. pose proof (NoDup_incl_length N I). cbn in L. lia.
  - cbn [circular] in C. destruct (existsb (Nat.eqb f) path) eqn:E; [discriminate|].
    assert (NI : ~ In f path).
    { intros A. assert (existsb (Nat.eqb f) path = true); [|congruence].
      apply existsb_exists. exists f. split; auto. apply Nat.eqb_refl. }
    constructor. intros g SG. pose proof (step_next _ _ _ _ ST SG) as G.
    apply (IH (f :: path)).
    + constructor; auto.
    + intros x [<-|X]; auto.
    + destruct SG as [_ SG]. apply (depends_in _ _ SG).
    + cbn [length]. lia.
    + destruct (circular P n s (f :: path) g) eqn:Q; auto.
      assert (X : existsb (circular P n s (f :: path)) (next_fields P s f) = true).
      { apply existsb_exists. exists g. auto. }
      congruence.
Qed.

(* The path leads to the field. *)
Fixpoint leads (path : list fid) (f : fid) : Prop :=
  match path with [] => True | p :: r => depends P p f /\ leads r p end.

Lemma leads_back : forall path f g, leads path f -> In g path -> clos_trans _ (depends P) g f.
Proof.
  induction path as [|p r IH]; cbn [leads In]; [tauto|].
  intros f g [A B] [->|I].
  - apply t_step. exact A.
  - apply t_trans with p; [apply IH; auto | apply t_step; exact A].
Qed.

(* A definition that leads to a field defined by itself *)
Definition in_circle (f : fid) : Prop :=
  exists g, clos_refl_trans _ (depends P) f g /\ clos_trans _ (depends P) g g.

Lemma circular_true : forall D s, stands D s -> forall n path f,
  leads path f -> circular P n s path f = true -> in_circle f.
Proof.
  intros D s ST. induction n as [|n IH]; intros path f L C; cbn [circular] in C.
  - destruct (existsb (Nat.eqb f) path) eqn:E; [|discriminate].
    apply existsb_exists in E. destruct E as (x & A & B). apply Nat.eqb_eq in B. subst x.
    exists f. split; [apply rt_refl | apply (leads_back path); auto].
  - destruct (existsb (Nat.eqb f) path) eqn:E.
    + apply existsb_exists in E. destruct E as (x & A & B). apply Nat.eqb_eq in B. subst x.
      exists f. split; [apply rt_refl | apply (leads_back path); auto].
    + apply existsb_exists in C. destruct C as (g & G & C).
      pose proof (next_step _ _ _ _ ST G) as [_ SG].
      destruct (IH (f :: path) g) as (h & A & B); [split; auto | exact C |].
      exists h. split; auto. apply rt_trans with g; auto. apply rt_step. exact SG.
Qed.

Lemma is_circular_acc : forall D s f, stands D s -> In f (in_order P) ->
  is_circular P s f = false -> Acc (step D) f.
Proof.
  intros D s f ST I C. apply (not_circular_acc D s ST (depth P) [] f); auto.
  - constructor.
  - intros x [].
  - unfold depth. rewrite all_in_order. cbn [length]. lia.
Qed.

Lemma is_circular_circle : forall D s f, stands D s -> is_circular P s f = true -> in_circle f.
Proof. intros D s f ST C. apply (circular_true D s ST (depth P) [] f); [exact Logic.I | exact C]. Qed.

(* A field that is done is not circular. *)
Lemma done_not_circular : forall s f v, s f = Some (KNum v) -> is_circular P s f = false.
Proof. intros s f v E. unfold is_circular, depth. cbn [circular existsb]. unfold next_fields. rewrite E. reflexivity. Qed.

(* No field that is defined by itself is accessible. *)
Definition ground (f : fid) : Prop := Acc (fun b a => depends P a b) f.

Lemma ground_acyclic : forall f, ground f -> ~ clos_trans _ (depends P) f f.
Proof.
  intros f G. induction G as [f _ IH]. intros C.
  assert (X : exists g, depends P f g /\ clos_refl_trans _ (depends P) g f).
  { apply clos_trans_t1n in C. inversion C; subst.
    - exists f. split; auto. apply rt_refl.
    - exists y. split; auto. apply clos_t1n_trans in H0. clear - H0.
      induction H0; [apply rt_step; auto | apply rt_trans with y; auto]. }
  destruct X as (g & A & B). apply (IH g A).
  apply clos_rt_t with f; auto. apply t_step. exact A.
Qed.

Lemma step_ground : forall D, (forall f, In f D -> ground f) ->
  forall f, Acc (step D) f -> ground f.
Proof.
  intros D G f A. induction A as [f _ IH].
  destruct (in_dec Nat.eq_dec f D) as [I|O]; [auto|].
  constructor. intros g DG. apply IH. split; auto.
Qed.

(** *** One field, whatever happens *)

Lemma depth_two : forall f, In f (in_order P) -> exists n, depth P = S (S n).
Proof.
  intros f I. unfold depth. rewrite all_in_order. destruct (in_order P); [destruct I|].
  cbn [length]. eauto.
Qed.

Lemma done_executes : forall s f v, s f = Some (KNum v) -> executes P s f = Some true.
Proof. intros s f v E. unfold executes. rewrite E. reflexivity. Qed.

(* If all fields named are done, then all fields are initialised. *)
Lemma all_done_initialized : forall D s f e, stands D s -> In f (in_order P) ->
  s f = Some e -> (forall g, In g (names e) -> In g D) ->
  all_initialized P (depth P) s f = Some true.
Proof.
  intros D s f e ST I E A. destruct (depth_two f I) as (n & DN).
  remember (executes P s) as ex eqn:EX. assert (EX' : forall g, executes P s g = ex g) by (subst; auto).
  rewrite DN.
  change (all_initialized P (S (S n)) s f) with
    (match s f with
     | None => Some true
     | Some e => each (fun g => match executes P s g with
                                | Some true => all_initialized P (S n) s g
                                | x => x end) (names e)
     end).
  rewrite E. clear E. induction (names e) as [|g r IH]; [reflexivity|]. cbn [each].
  assert (Ig : In g D) by (apply A; left; reflexivity).
  destruct (ST g) as [IN _]. destruct (IN Ig) as (_ & v & V).
  rewrite (done_executes _ _ _ V). cbn [all_initialized]. rewrite V. cbn [names each].
  apply IH. intros h H. apply A. right. exact H.
Qed.

(* What a break means *)
Lemma fill_break : forall D s k b f, stands D s -> In f (in_order P) ->
  fill P k s b f = Break ->
  ~ In f D /\ pinit P f <> None /\ Acc (step D) f /\
  exists g, mentions P f g /\ ~ In g D.
Proof.
  intros D s k b f ST I Q.
  assert (X : exists e, s f = Some e /\ is_circular P s f = false /\
              exec P s e = NotConst /\ not_constant P s f = Break).
  { destruct k as [t|]; cbn [fill] in Q; unfold fill_enum, fill_general in Q;
      destruct (s f) as [e|] eqn:E; try discriminate Q.
    - destruct (is_circular P s f) eqn:C; [discriminate|].
      destruct (exec P s e) eqn:X; try discriminate Q.
      + destruct (larger _ _ _); [discriminate|]. destruct (smaller _ _ _); discriminate.
      + exists e. auto.
    - destruct (snext b); [discriminate|]. destruct (svalue b =? tmax t); discriminate.
    - destruct (is_circular P s f) eqn:C; [discriminate|].
      destruct (exec P s e) eqn:X; try discriminate Q. exists e. auto. }
  destruct X as (e & E & C & NC & B).
  assert (O : ~ In f D).
  { intros J. destruct (ST f) as [IN _]. destruct (IN J) as (_ & v & V). rewrite V in E.
    inversion E; subst. discriminate NC. }
  split; auto. destruct (ST f) as [_ OUT]. rewrite (OUT O) in E.
  split; [congruence|]. split; [apply (is_circular_acc D s); auto|].
  destruct (Forall_Exists_dec (fun g => In g D) (fun g => in_dec Nat.eq_dec g D) (names e)) as [F|F].
  - exfalso. unfold not_constant in B.
    rewrite (all_done_initialized D s f e ST I) in B; [discriminate | rewrite (OUT O); exact E |].
    apply Forall_forall. exact F.
  - apply Exists_exists in F. destruct F as (g & G & NG). exists g. split; auto.
    exists e. split; auto. apply names_occurs. exact G.
Qed.

(* A field that is done is not at fault. *)
Lemma fill_done : forall k s b f v, s f = Some (KNum v) ->
  (exists w b', fill P k s b f = Succeed w b') \/
  (exists c, fill P k s b f = Error c /\ c <> Circular).
Proof.
  intros k s b f v E. destruct k as [t|]; cbn [fill]; unfold fill_enum, fill_general;
    rewrite E, (done_not_circular s f v E); unfold exec; cbn [exec_with].
  - destruct (larger _ _ _); [right; eexists; split; [reflexivity|discriminate]|].
    destruct (smaller _ _ _); [right; eexists; split; [reflexivity|discriminate]|].
    left. eauto.
  - left. eauto.
Qed.

(* A circular definition *)
Lemma fill_circular : forall D s k b f, stands D s -> fill P k s b f = Error Circular -> in_circle f.
Proof.
  intros D s k b f ST Q. apply (is_circular_circle D s f ST).
  destruct k as [t|]; cbn [fill] in Q; unfold fill_enum, fill_general in Q;
    destruct (s f) as [e|] eqn:E.
  - destruct (is_circular P s f); auto. destruct (exec P s e); try discriminate Q.
    + destruct (larger _ _ _); [discriminate|]. destruct (smaller _ _ _); discriminate.
    + unfold not_constant in Q. destruct (all_initialized _ _ _ _) as [[]|]; discriminate.
  - destruct (snext b); [discriminate|]. destruct (svalue b =? tmax t); discriminate.
  - destruct (is_circular P s f); auto. destruct (exec P s e); try discriminate Q.
    unfold not_constant in Q. destruct (all_initialized _ _ _ _) as [[]|]; discriminate.
  - discriminate.
Qed.

Lemma fill_succeed_acc : forall D s k b f v b' e, stands D s -> In f (in_order P) ->
  s f = Some e -> fill P k s b f = Succeed v b' -> Acc (step D) f.
Proof.
  intros D s k b f v b' e ST I E Q. apply (is_circular_acc D s f ST I).
  destruct k as [t|]; cbn [fill] in Q; unfold fill_enum, fill_general in Q;
    rewrite E in Q; destruct (is_circular P s f); [discriminate | reflexivity | discriminate | reflexivity].
Qed.

Lemma stands_upd : forall D s f v, stands D s -> pconst P f = true -> stands (f :: D) (upd s f v).
Proof.
  intros D s f v ST C g. destruct (ST g) as [IN OUT]. unfold upd. split.
  - intros [->|I].
    + rewrite Nat.eqb_refl. eauto.
    + destruct (IN I) as (A & w & B). split; auto. destruct (Nat.eqb g f); eauto.
  - intros O. destruct (Nat.eqb g f) eqn:E.
    + apply Nat.eqb_eq in E. exfalso. apply O. left. auto.
    + apply OUT. intros I. apply O. right. exact I.
Qed.

Lemma stands_same : forall D E s, stands D s -> incl D E -> incl E D -> stands E s.
Proof.
  intros D E s ST A B f. destruct (ST f) as [IN OUT]. split; [auto|].
  intros O. apply OUT. intros I. auto.
Qed.


(** *** The fields of a type, whatever happens *)

Lemma acc_same : forall D E f, incl D E -> Acc (step D) f -> Acc (step E) f.
Proof.
  intros D E f I A. induction A as [f _ IH]. constructor. intros g [O G]. apply IH. split; auto.
Qed.

(* A field that cannot be done before others are *)
Definition stuck (D : list fid) (k : option ity) (f : fid) : Prop :=
  (pinit P f <> None /\ Acc (step D) f /\ exists g, mentions P f g /\ ~ In g D) \/
  (pinit P f = None /\ (k <> None -> exists g, follows P f g /\ ~ In g D)).

Definition broken (D : list fid) (f : fid) : Prop :=
  ~ In f D /\ pconst P f = true /\ pinit P f <> None.

(* A field has a value by now, or a circle it leads to is reported. *)
Definition reason (log : list (kerror * fid)) (f : fid) : Prop :=
  ground f \/ exists g, In (Circular, g) log /\ clos_refl_trans _ (depends P) f g.

Lemma list_or : forall (A B : fid -> Prop) l, (forall x, In x l -> A x \/ B x) ->
  (forall x, In x l -> A x) \/ exists x, In x l /\ B x.
Proof.
  intros A B. induction l as [|a l IH]; intros H; [left; intros x []|].
  destruct (H a (or_introl eq_refl)) as [X|X].
  - destruct IH as [Y|(y & Y & Z)]; [intros x J; apply H; right; exact J|left|right].
    + intros x [<-|J]; auto.
    + exists y. split; auto. right. exact Y.
  - right. exists a. split; auto. left. reflexivity.
Qed.

Lemma step_reason : forall D log, (forall f, In f D -> reason log f) ->
  forall f, Acc (step D) f -> reason log f.
Proof.
  intros D log R f A. induction A as [f _ IH].
  destruct (in_dec Nat.eq_dec f D) as [I|O]; [auto|].
  assert (ST0 : stands [] (pinit P)) by (intros g; split; [intros [] | reflexivity]).
  destruct (list_or (fun g => ground g)
              (fun g => depends P f g /\ exists h, In (Circular, h) log /\ clos_refl_trans _ (depends P) g h)
              (next_fields P (pinit P) f)) as [G|(g & _ & DG & h & X & Y)].
  - intros g J. destruct (next_step [] (pinit P) f g ST0 J) as [_ DG].
    destruct (IH g (conj O DG)) as [X|X]; [left; exact X | right; split; auto].
  - left. constructor. intros g DG. apply G. apply (step_next [] (pinit P)); auto. split; auto.
  - right. exists h. split; auto. apply rt_trans with g; [apply rt_step; exact DG | exact Y].
Qed.

Lemma reason_more : forall log l f, reason log f -> reason (log ++ l) f.
Proof. intros log l f [G|(g & A & B)]; [left; exact G|right; exists g; split; auto; apply in_or_app; auto]. Qed.

Record weak (D : list fid) (s : inits) (log : list (kerror * fid)) : Prop := {
  w_stands : stands D s;
  w_in : incl D (in_order P);
  w_log : forall f, In (Circular, f) log -> in_circle f;
  w_reason : forall f, In f D -> reason log f }.

Definition consts_in (l D : list fid) : Prop := forall c, In c l -> pconst P c = true -> In c D.

Lemma firstn_pre : forall {A} (pre l : list A) i, (i <= length pre)%nat -> firstn i (pre ++ l) = firstn i pre.
Proof. intros A pre l i L. rewrite firstn_app. replace (i - length pre)%nat with O by lia. now rewrite app_nil_r. Qed.

Lemma app_cons_assoc : forall {A} (l1 : list A) a l2, l1 ++ a :: l2 = (l1 ++ [a]) ++ l2.
Proof. intros. rewrite <- app_assoc. reflexivity. Qed.

Lemma last_app_inj : forall {A} (a b : list A) x y, a ++ [x] = b ++ [y] -> a = b /\ x = y.
Proof. intros. apply app_inj_tail. assumption. Qed.

Lemma nodup_split : forall (a b c d : list fid) (q : fid), NoDup (a ++ q :: b) ->
  a ++ q :: b = c ++ q :: d -> a = c /\ b = d.
Proof.
  induction a as [|u a IH]; intros b c d q N E.
  - destruct c as [|v c]; cbn [app] in E; inversion E; subst; auto.
    exfalso. inversion N; subst. apply H1. apply in_or_app. right. left. auto.
  - destruct c as [|v c]; cbn [app] in E; inversion E; subst.
    + exfalso. inversion N; subst. apply H1. apply in_or_app. right. left. auto.
    + inversion N; subst. destruct (IH b c d q H3 H1) as [-> ->]. auto.
Qed.

Lemma fill_not_circular : forall k s b f, s f <> None -> fill P k s b f <> Error Circular ->
  is_circular P s f = false.
Proof.
  intros k s b f NF Q. destruct (is_circular P s f) eqn:C; [|reflexivity]. exfalso. apply Q.
  destruct k as [t|]; cbn [fill]; unfold fill_enum, fill_general; destruct (s f); try congruence;
    rewrite C; reflexivity.
Qed.

(* The field at an index has an initialiser of its own. *)
Definition own_at (l : list fid) (i : nat) : Prop :=
  exists b, nth_error l i = Some b /\ pinit P b <> None.

Lemma own_lt : forall l i, own_at l i -> (i < length l)%nat.
Proof. intros l i (b & E & _). apply nth_error_Some. congruence. Qed.

Lemma own_app : forall l r i, own_at l i -> own_at (l ++ r) i.
Proof.
  intros l r i O. pose proof (own_lt _ _ O) as L. destruct O as (b & E & N).
  exists b. split; auto. rewrite nth_error_app1; auto.
Qed.

Lemma pass_weak : forall T k, In T (ptypes P) -> kenum T = k ->
  forall l pre index skip x y D D0,
  kfields T = pre ++ l -> index = length pre ->
  incl D0 D -> weak D (pinits x) (plog x) ->
  (pbreak x = None -> skip = false /\ consts_in pre D) ->
  (forall i, pbreak x = Some i -> own_at pre i /\ consts_in (firstn i pre) D) ->
  (skip = true -> exists pre' g, pre = pre' ++ [g] /\ ~ In g D) ->
  (skip = false -> k <> None ->
     pre = [] \/ (exists pre' g, pre = pre' ++ [g] /\ In g D) \/
     (exists f r, l = f :: r /\ pinit P f <> None)) ->
  (incl D D0 -> (forall f, In f pre -> pconst P f = true -> ~ In f D0 -> stuck D0 k f) /\
                (pbreak x <> None -> exists f, In f pre /\ broken D0 f)) ->
  pass P k l index skip x = Some y ->
  exists D', incl D D' /\ weak D' (pinits y) (plog y) /\
    (pbreak y = None -> consts_in (kfields T) D') /\
    (forall i, pbreak y = Some i -> own_at (kfields T) i /\ consts_in (firstn i (kfields T)) D') /\
    (incl D' D0 ->
       (forall f, In f (kfields T) -> pconst P f = true -> ~ In f D0 -> stuck D0 k f) /\
       (pbreak y <> None -> exists f, In f (kfields T) /\ broken D0 f)).
Proof.
  intros T k IT KT. induction l as [|f r IH]; intros pre index skip x y D D0 W IX ID WK B1 B2 SK NS FA Q;
    cbn [pass] in Q.
  - inversion Q; subst y. rewrite app_nil_r in W. exists D. rewrite W.
    split; [apply incl_refl|]. split; [exact WK|]. split; [intros E; apply (B1 E)|].
    split; [exact B2|]. intros I. destruct (FA I) as [F1 F2]. auto.
  - pose proof (app_cons_assoc pre f r) as AC.
    assert (W' : kfields T = (pre ++ [f]) ++ r) by congruence.
    assert (DF : declares P T f) by (split; auto; rewrite W; apply in_or_app; right; left; auto).
    assert (IF : In f (in_order P)) by (apply (declares_in T); auto).
    assert (IX' : S index = length (pre ++ [f])) by (rewrite app_length; cbn [length]; lia).
    destruct WK as [ST IO WL WG].
    assert (B2' : forall D', incl D D' -> forall i, pbreak x = Some i ->
              own_at (pre ++ [f]) i /\ consts_in (firstn i (pre ++ [f])) D').
    { intros D' ID' i E. destruct (B2 i E) as [L C]. split; [apply own_app; exact L|].
      apply own_lt in L. rewrite firstn_pre by lia. intros c Ic Cc. apply ID'. apply C; auto. }
    destruct (skip && match pinits x f with None => true | Some _ => false end) eqn:SKP.
    + (* skipped *)
      apply andb_true_iff in SKP. destruct SKP as [-> NF].
      destruct (pinits x f) as [e|] eqn:PF; [discriminate|].
      assert (OF : ~ In f D).
      { intros J. destruct (ST f) as [IN _]. destruct (IN J) as (_ & v & V). congruence. }
      assert (NI : pinit P f = None) by (destruct (ST f) as [_ OUT]; rewrite <- (OUT OF); exact PF).
      apply (IH (pre ++ [f]) (S index) true x y D D0); auto.
      * constructor; auto.
      * intros E. destruct (B1 E) as [X _]. discriminate X.
      * apply B2'. apply incl_refl.
      * intros _. exists pre, f. auto.
      * intros X; discriminate X.
      * intros I. destruct (FA I) as [F1 F2]. split.
        -- intros g Ig Cg Og. apply in_app_or in Ig. destruct Ig as [Ig|[<-|[]]]; [auto|].
           right. split; auto. intros KN.
           destruct (SK eq_refl) as (pre' & h & -> & OH). exists h. split; [|auto].
           split; auto. destruct k as [t|]; [|congruence].
           exists T, t, pre', r. split; auto. split; auto. rewrite W, <- app_assoc. reflexivity.
        -- intros E. destruct (F2 E) as (g & Ig & BG). exists g. split; auto. apply in_or_app. auto.
    + destruct (pconst P f) eqn:CF; cbn [negb] in Q.
      * (* a constant *)
        assert (UP : forall v log', (forall g, In (Circular, g) log' -> in_circle g) ->
                  reason log' f -> (exists l, log' = plog x ++ l) ->
                  weak (f :: D) (upd (pinits x) f v) log').
        { intros v log' L1 L2 (l & ->). constructor.
          - apply stands_upd; auto.
          - intros g [<-|G]; auto.
          - exact L1.
          - intros g [<-|G]; auto. apply reason_more. auto. }
        assert (RE : (pinits x f <> None -> is_circular P (pinits x) f = false) -> reason (plog x) f).
        { intros NCF. destruct (in_dec Nat.eq_dec f D) as [J|O]; [auto|].
          apply (step_reason D (plog x) WG).
          destruct (pinits x f) as [e|] eqn:PF.
          - apply (is_circular_acc D (pinits x) f ST IF). apply NCF. discriminate.
          - assert (NI : pinit P f = None) by (destruct (ST f) as [_ OUT]; rewrite <- (OUT O); exact PF).
            assert (SF : skip = false) by (destruct skip; [cbn in SKP; discriminate | reflexivity]).
            constructor. intros g [_ DG].
            destruct DG as [(e & E' & _)|(_ & U & t & l1 & l2 & IU & KU & WU)]; [congruence|].
            assert (UT : U = T).
            { apply (same_type U T f); auto. split; auto. rewrite WU. apply in_or_app. right. right. left. auto. }
            subst U. assert (KN : k <> None) by congruence.
            assert (PG : pre = l1 ++ [g] /\ r = l2).
            { rewrite W in WU. rewrite (app_cons_assoc l1 g (f :: l2)) in WU.
              assert (N : NoDup (pre ++ f :: r)) by (rewrite <- W; apply nodup_part; auto).
              apply (nodup_split _ _ _ _ f N WU). }
            destruct PG as [PG _].
            destruct (NS SF KN) as [X|[(pre' & h & X & IH')|(f0 & r0 & X & NF)]].
            + rewrite PG in X. destruct l1; discriminate X.
            + rewrite PG in X. apply last_app_inj in X. destruct X as [_ <-].
              constructor. intros h [OH _]. contradiction.
            + inversion X; subst. congruence. }
        assert (GO : forall v b log', weak (f :: D) (upd (pinits x) f v) log' ->
          pass P k r (S index) false {| pinits := upd (pinits x) f v; plog := log'; pstub := b; pbreak := pbreak x |} = Some y ->
          exists D', incl D D' /\ weak D' (pinits y) (plog y) /\
            (pbreak y = None -> consts_in (kfields T) D') /\
            (forall i, pbreak y = Some i -> own_at (kfields T) i /\ consts_in (firstn i (kfields T)) D') /\
            (incl D' D0 ->
               (forall f, In f (kfields T) -> pconst P f = true -> ~ In f D0 -> stuck D0 k f) /\
               (pbreak y <> None -> exists f, In f (kfields T) /\ broken D0 f))).
        { intros v b log' WU QU.
          destruct (IH (pre ++ [f]) (S index) false {| pinits := upd (pinits x) f v; plog := log'; pstub := b; pbreak := pbreak x |} y (f :: D) D0 W' IX'
                     ltac:(intros g G; right; auto) WU) as (D' & X1 & X2 & X3); cbn [pbreak]; auto.
          - intros E. split; auto. destruct (B1 E) as [_ C]. intros c Ic Cc.
            apply in_app_or in Ic. destruct Ic as [Ic|[<-|[]]]; [right; auto | left; auto].
          - apply B2'. intros g G. right. exact G.
          - intros X; discriminate X.
          - intros _ KN. right. left. exists pre, f. split; auto. left. reflexivity.
          - intros I. assert (I0 : incl D D0) by (intros g G; apply I; right; exact G).
            destruct (FA I0) as [F1 F2]. split.
            + intros g Ig Cg Og. apply in_app_or in Ig. destruct Ig as [Ig|[<-|[]]]; [auto|].
              exfalso. apply Og. apply I. left. reflexivity.
            + intros E. destruct (F2 E) as (g & Ig & BG). exists g. split; auto. apply in_or_app. auto.
          - exists D'. split; [intros g G; apply X1; right; exact G|]. auto. }
        destruct (fill P k (pinits x) (pstub x) f) as [v b|c| |] eqn:FI; [| | |discriminate].
        -- (* succeed *)
           apply (GO v b (plog x)); auto. apply UP; auto; [|exists []; rewrite app_nil_r; reflexivity].
           apply RE. intros NF. apply (fill_not_circular k (pinits x) (pstub x) f NF). rewrite FI. discriminate.
        -- (* error *)
           apply (GO (default_of P k f) (pstub x) (plog x ++ [(c, f)])); auto.
           apply UP; [| |exists [(c, f)]; reflexivity].
           ++ intros g G. apply in_app_or in G. destruct G as [G|[G|[]]]; [auto|].
              inversion G; subst. apply (fill_circular D (pinits x) _ _ _ ST FI).
           ++ destruct c.
              ** right. exists f. split; [apply in_or_app; right; left; reflexivity | apply rt_refl].
              ** apply reason_more, RE. intros NF. apply (fill_not_circular k (pinits x) (pstub x) f NF). rewrite FI. discriminate.
              ** apply reason_more, RE. intros NF. apply (fill_not_circular k (pinits x) (pstub x) f NF). rewrite FI. discriminate.
              ** apply reason_more, RE. intros NF. apply (fill_not_circular k (pinits x) (pstub x) f NF). rewrite FI. discriminate.
        -- (* break *)
           destruct (fill_break D (pinits x) k (pstub x) f ST IF FI) as (OF & NI & AC' & g & MG & OG).
           apply (IH (pre ++ [f]) (S index) true {| pinits := pinits x; plog := plog x; pstub := pstub x; pbreak := match pbreak x with None => Some index | Some i => Some i end |} y D D0 W' IX' ID); cbn [pinits plog pbreak]; auto.
           ++ constructor; auto.
           ++ intros E. destruct (pbreak x); discriminate E.
           ++ intros i E. destruct (pbreak x) as [j|] eqn:PB.
              ** apply (B2' D (incl_refl D) i). congruence.
              ** inversion E; subst i. split; [exists f; split; [rewrite IX, nth_error_app2, Nat.sub_diag by lia; reflexivity | exact NI]|].
                 rewrite firstn_pre by lia. rewrite IX, firstn_all. apply (B1 eq_refl).
           ++ intros _. exists pre, f. auto.
           ++ intros X; discriminate X.
           ++ intros I. destruct (FA I) as [F1 F2]. split.
              ** intros h Ih Ch Oh. apply in_app_or in Ih. destruct Ih as [Ih|[<-|[]]]; [auto|].
                 left. split; auto. split; [apply (acc_same D); auto|]. exists g. auto.
              ** intros _. exists f. split; [apply in_or_app; right; left; auto|].
                 split; auto.
      * (* not a constant *)
        assert (NE : k = None).
        { destruct k as [t|]; auto. exfalso. destruct (enum_consts P S0 T t f DF KT). congruence. }
        apply (IH (pre ++ [f]) (S index) false x y D D0); auto.
        -- constructor; auto.
        -- intros E. destruct (B1 E) as [_ C]. split; auto. intros c Ic Cc.
           apply in_app_or in Ic. destruct Ic as [Ic|[<-|[]]]; [auto | congruence].
        -- apply B2'. apply incl_refl.
        -- intros X; discriminate X.
        -- intros _ KN. congruence.
        -- intros I. destruct (FA I) as [F1 F2]. split.
           ++ intros g Ig Cg Og. apply in_app_or in Ig. destruct Ig as [Ig|[<-|[]]]; [auto | congruence].
           ++ intros E. destruct (F2 E) as (g & Ig & BG). exists g. split; auto. apply in_or_app. auto.
Qed.

(* An item of the queue *)
Definition item_ok (D : list fid) (it : item) : Prop :=
  In (itype it) (ptypes P) /\
  (ifrom it = O \/ own_at (kfields (itype it)) (ifrom it)) /\
  consts_in (firstn (ifrom it) (kfields (itype it))) D.

Lemma consts_in_incl : forall l D E, consts_in l D -> incl D E -> consts_in l E.
Proof. intros l D E C I c A B. apply I. apply C; auto. Qed.

Lemma item_ok_incl : forall D E it, item_ok D it -> incl D E -> item_ok E it.
Proof. intros D E it (A & B & C) I. split; auto. split; auto. apply (consts_in_incl _ D); auto. Qed.

Lemma skipn_own : forall l i, own_at l i -> exists f r, skipn i l = f :: r /\ pinit P f <> None.
Proof.
  induction l as [|a l IH]; intros i (b & E & N); [destruct i; discriminate E|].
  destruct i as [|i]; cbn [nth_error skipn] in *.
  - inversion E; subst. eauto.
  - apply (IH i). exists b. auto.
Qed.

Lemma continue_weak : forall D it s log y, item_ok D it -> weak D s log ->
  continue_ P (itype it) (ifrom it) (istub it) s log = Some y ->
  exists D', incl D D' /\ weak D' (pinits y) (plog y) /\
    (pbreak y = None -> consts_in (kfields (itype it)) D') /\
    (forall i, pbreak y = Some i ->
       item_ok D' {| itype := itype it; ifrom := i; istub := pstub y |}) /\
    (incl D' D ->
       (forall f, In f (kfields (itype it)) -> pconst P f = true -> ~ In f D -> stuck D (kenum (itype it)) f) /\
       (pbreak y <> None -> exists f, In f (kfields (itype it)) /\ broken D f)).
Proof.
  intros D it s log y (IT & FR & CI) WK Q. unfold continue_ in Q.
  set (T := itype it) in *. set (i := ifrom it) in *.
  assert (L : (i <= length (kfields T))%nat).
  { destruct FR as [->|O]; [lia|]. apply own_lt in O. lia. }
  destruct (pass_weak T (kenum T) IT eq_refl (skipn i (kfields T)) (firstn i (kfields T)) i false
              {| pinits := s; plog := log; pstub := istub it; pbreak := None |} y D D)
    as (D' & A1 & A2 & A3 & A4 & A5); cbn [pinits plog pbreak]; auto.
  - symmetry. apply firstn_skipn.
  - rewrite firstn_length. lia.
  - apply incl_refl.
  - intros j X; discriminate X.
  - intros X; discriminate X.
  - intros _ _. destruct FR as [->|O]; [left; reflexivity|]. right. right. apply skipn_own. exact O.
  - intros _. split; [|intros X; congruence]. intros f If Cf Of. exfalso. apply Of. apply CI; auto.
  - exists D'. split; [exact A1|]. split; [exact A2|]. split; [exact A3|]. split; [|exact A5].
    intros j E. destruct (A4 j E) as [B1 B2]. split; [exact IT|]. cbn [itype ifrom]. auto.
Qed.

(* Each type is in the queue or complete. *)
Definition covers (D : list fid) (q : list item) : Prop :=
  forall T, In T (ptypes P) -> (exists it, In it q /\ itype it = T) \/ consts_in (kfields T) D.

Lemma walk_weak : forall n q s log D s' log',
  Forall (item_ok D) q -> weak D s log -> covers D q ->
  walk P n q s log = Finished s' log' ->
  exists D', weak D' s' log' /\ consts_in (in_order P) D'.
Proof.
  induction n as [|n IH]; intros q s log D s' log' F WK CV Q; cbn [walk] in Q; destruct q as [|it q];
    try discriminate Q.
  1,2: inversion Q; subst; exists D; split; auto;
    intros c A B; apply in_declares in A; destruct A as (T & A & A');
    destruct (CV T A) as [(x & [] & _)|C]; apply C; auto.
  inversion F as [|? ? F1 F2]; subst.
  destruct (continue_ P (itype it) (ifrom it) (istub it) s log) as [y|] eqn:C; [|discriminate Q].
  destruct (continue_weak D it s log y F1 WK C) as (D' & A1 & A2 & A3 & A4 & _).
  assert (F2' : Forall (item_ok D') q).
  { eapply Forall_impl; [|exact F2]. intros x X. apply (item_ok_incl D); auto. }
  destruct (pbreak y) as [i|] eqn:PB.
  - apply (IH _ _ _ D' _ _ ltac:(apply Forall_app; split; [exact F2'|constructor; [apply A4; reflexivity|constructor]]) A2) in Q;
      auto.
    intros T IT. destruct (CV T IT) as [(x & [<-|X] & E)|C'].
    + left. eexists. split; [apply in_or_app; right; left; reflexivity|]. cbn [itype]. exact E.
    + left. exists x. split; auto. apply in_or_app. auto.
    + right. apply (consts_in_incl _ D); auto.
  - apply (IH _ _ _ D' _ _ F2' A2) in Q; auto.
    intros T IT. destruct (CV T IT) as [(x & [<-|X] & E)|C'].
    + right. subst T. apply A3. reflexivity.
    + left. exists x. auto.
    + right. apply (consts_in_incl _ D); auto.
Qed.

Lemma start_weak : weak [] (pinit P) [].
Proof.
  constructor.
  - intros f. split; [intros [] | reflexivity].
  - intros x [].
  - intros f [].
  - intros f [].
Qed.

Lemma start_items : Forall (item_ok []) (map fresh (ptypes P)).
Proof.
  apply Forall_forall. intros it I. apply in_map_iff in I. destruct I as (T & <- & I).
  split; auto. split; [left; reflexivity|]. intros c [].
Qed.

Lemma start_covers : covers [] (map fresh (ptypes P)).
Proof. intros T IT. left. exists (fresh T). split; [apply in_map; exact IT | reflexivity]. Qed.

Lemma compile_weak : forall n s log, compile_constants P n = Finished s log ->
  exists D, weak D s log /\ consts_in (in_order P) D.
Proof.
  intros n s log Q. apply (walk_weak n (map fresh (ptypes P)) (pinit P) [] [] s log); auto.
  - apply start_items.
  - apply start_weak.
  - apply start_covers.
Qed.

Theorem circle_reported : forall n s log f, compile_constants P n = Finished s log ->
  In f (in_order P) -> pconst P f = true -> clos_trans _ (depends P) f f ->
  exists g, In (Circular, g) log /\ clos_refl_trans _ (depends P) f g.
Proof.
  intros n s log f Q I C CT. destruct (compile_weak n s log Q) as (D & W & A).
  destruct (w_reason D s log W f (A f I C)) as [G|X]; [|exact X].
  exfalso. apply (ground_acyclic f); auto.
Qed.

Theorem reported_circle : forall n s log f, compile_constants P n = Finished s log ->
  In (Circular, f) log ->
  exists g, clos_refl_trans _ (depends P) f g /\ clos_trans _ (depends P) g g.
Proof.
  intros n s log f Q I. destruct (compile_weak n s log Q) as (D & W & _).
  apply (w_log D s log W f I).
Qed.

Theorem all_given : forall n s log f, compile_constants P n = Finished s log ->
  In f (in_order P) -> pconst P f = true -> exists v, s f = Some (KNum v).
Proof.
  intros n s log f Q I C. destruct (compile_weak n s log Q) as (D & W & A).
  destruct (w_stands D s log W f) as [X _]. apply X. apply A; auto.
Qed.

(** *** The end *)

Lemma no_progress : names_constants P -> forall D,
  (forall f, In f (in_order P) -> pconst P f = true -> ~ In f D ->
     exists T, declares P T f /\ stuck D (kenum T) f) ->
  forall f, Acc (step D) f -> In f (in_order P) -> pconst P f = true -> ~ In f D ->
  (pinit P f <> None \/ exists T t, declares P T f /\ kenum T = Some t) -> False.
Proof.
  intros NC D ST f A. induction A as [f _ IH]. intros IF CF OF KD.
  destruct (ST f IF CF OF) as (T & DT & [(NI & _ & g & MG & OG)|(NI & FG)]).
  - destruct (NC f g CF MG) as [CG KG]. apply (IH g); auto.
    + split; auto. left. exact MG.
    + apply (named P S0 f g MG).
  - destruct KD as [X|(U & t & DU & KU)]; [contradiction|].
    assert (U = T) by (apply (same_type U T f); auto). subst U.
    destruct FG as (g & FG & OG); [congruence|].
    destruct FG as (_ & U & t' & l1 & l2 & IU & KU' & WU).
    assert (DG : declares P U g) by (split; auto; rewrite WU; apply in_or_app; right; left; auto).
    apply (IH g); auto.
    + split; auto. right. split; auto. exists U, t', l1, l2. auto.
    + apply (declares_in U). exact DG.
    + apply (enum_consts P S0 U t' g DG KU').
    + right. exists U, t'. auto.
Qed.

Definition left_over (D : list fid) : nat :=
  length (filter (fun f => if in_dec Nat.eq_dec f D then false else true) (in_order P)).

Lemma filter_less : forall (p q : fid -> bool) l, (forall x, q x = true -> p x = true) ->
  (length (filter q l) <= length (filter p l))%nat.
Proof.
  intros p q l A. induction l as [|a l IH]; cbn [filter length]; [lia|].
  destruct (q a) eqn:E; [rewrite (A a E); cbn [length]; lia|]. destruct (p a); cbn [length]; lia.
Qed.

Lemma filter_fewer : forall (p q : fid -> bool) l x, (forall x, q x = true -> p x = true) ->
  In x l -> p x = true -> q x = false ->
  (length (filter q l) < length (filter p l))%nat.
Proof.
  intros p q l x A. induction l as [|a l IH]; cbn [filter length In]; [tauto|].
  intros [->|I] Px Qx.
  - rewrite Px, Qx. cbn [length]. pose proof (filter_less p q l A). lia.
  - specialize (IH I Px Qx). destruct (q a) eqn:E; [rewrite (A a E); cbn [length]; lia|].
    destruct (p a); cbn [length]; lia.
Qed.

Lemma left_fewer : forall D E x, incl D E -> In x E -> ~ In x D -> In x (in_order P) ->
  (left_over E < left_over D)%nat.
Proof.
  intros D E x I A B C. unfold left_over. apply (filter_fewer _ _ _ x); auto.
  - intros y. destruct (in_dec Nat.eq_dec y E); [discriminate|]. intros _.
    destruct (in_dec Nat.eq_dec y D); [exfalso; auto | reflexivity].
  - destruct (in_dec Nat.eq_dec x D); [contradiction | reflexivity].
  - destruct (in_dec Nat.eq_dec x E); [reflexivity | contradiction].
Qed.

Lemma incl_or : forall (E D : list fid), incl E D \/ exists x, In x E /\ ~ In x D.
Proof.
  induction E as [|a E IH]; intros D; [left; intros x []|].
  destruct (in_dec Nat.eq_dec a D) as [I|O].
  - destruct (IH D) as [X|(x & X & Y)]; [left|right].
    + intros y [<-|J]; auto.
    + exists x. split; auto. right. exact X.
  - right. exists a. split; auto. left. reflexivity.
Qed.

(* What is known of a type that was tried without success *)
Definition tried (D : list fid) (it : item) : Prop :=
  (forall f, In f (kfields (itype it)) -> pconst P f = true -> ~ In f D -> stuck D (kenum (itype it)) f) /\
  (exists f, In f (kfields (itype it)) /\ broken D f).

Lemma weak_same : forall D E s log, weak E s log -> incl D E -> incl E D -> weak D s log.
Proof.
  intros D E s log [A B C F] I J. constructor; auto.
  - apply (stands_same E); auto.
  - intros x X. auto.
Qed.

Lemma walk_ends : names_constants P -> forall m D, (left_over D <= m)%nat ->
  forall rest pend s log,
  Forall (item_ok D) (rest ++ pend) -> Forall (tried D) pend -> weak D s log ->
  covers D (rest ++ pend) ->
  exists n, walk P n (rest ++ pend) s log <> Running.
Proof.
  intros NC. induction m as [m IHm] using lt_wf_ind. intros D LM.
  induction rest as [|it rest IHr]; intros pend s log F TR WK CV.
  - destruct pend as [|it pend].
    + exists O. cbn. discriminate.
    + exfalso. inversion TR as [|? ? [T1 T2] TR']; subst.
      assert (ALL : forall f, In f (in_order P) -> pconst P f = true -> ~ In f D ->
                 exists T, declares P T f /\ stuck D (kenum T) f).
      { intros f IF CF OF. apply in_declares in IF. destruct IF as (T & DT). exists T. split; auto.
        destruct DT as [IT FT]. destruct (CV T IT) as [(x & X & <-)|C]; [|exfalso; apply OF; apply C; auto].
        rewrite Forall_forall in TR. destruct (TR x X) as [Y _]. apply Y; auto. }
      destruct T2 as (f & IF & OF & CF & NI).
      inversion F as [|? ? F1 F2]; subst. destruct F1 as (IT & _).
      assert (DF : declares P (itype it) f) by (split; auto).
      destruct (T1 f IF CF OF) as [(_ & A & _)|(X & _)]; [|contradiction].
      apply (no_progress NC D ALL f A); auto. apply (declares_in (itype it)); auto.
  - cbn [app] in *. inversion F as [|? ? F1 F2]; subst.
    destruct (continue_ P (itype it) (ifrom it) (istub it) s log) as [y|] eqn:C.
    2:{ exists 1%nat. cbn [walk]. rewrite C. discriminate. }
    destruct (continue_weak D it s log y F1 WK C) as (D' & A1 & A2 & A3 & A4 & A5).
    assert (F2' : Forall (item_ok D') (rest ++ pend)).
    { eapply Forall_impl; [|exact F2]. intros x X. apply (item_ok_incl D); auto. }
    assert (CV1 : forall i, pbreak y = Some i -> covers D' (rest ++ pend ++ [{| itype := itype it; ifrom := i; istub := pstub y |}])).
    { intros i PB T IT. destruct (CV T IT) as [(x & [<-|X] & E)|C'].
      - left. eexists. split; [apply in_or_app; right; apply in_or_app; right; left; reflexivity|]. exact E.
      - left. exists x. split; auto. rewrite app_assoc. apply in_or_app. auto.
      - right. apply (consts_in_incl _ D); auto. }
    assert (CV2 : pbreak y = None -> covers D' (rest ++ pend)).
    { intros PB T IT. destruct (CV T IT) as [(x & [<-|X] & E)|C'].
      - right. subst T. apply A3. exact PB.
      - left. exists x. auto.
      - right. apply (consts_in_incl _ D); auto. }
    assert (GO : (exists n, match pbreak y with
                   | None => walk P n (rest ++ pend) (pinits y) (plog y)
                   | Some i => walk P n (rest ++ pend ++ [{| itype := itype it; ifrom := i; istub := pstub y |}]) (pinits y) (plog y)
                   end <> Running) ->
              exists n, walk P n (it :: rest ++ pend) s log <> Running).
    { intros (n & N). exists (S n). cbn [walk]. rewrite C. destruct (pbreak y); [rewrite <- app_assoc|]; exact N. }
    apply GO. clear GO.
    destruct (incl_or D' D) as [SAME|(x & X1 & X2)].
    + assert (WK' : weak D (pinits y) (plog y)) by (apply (weak_same D D'); auto).
      destruct (A5 SAME) as [B1 B2].
      destruct (pbreak y) as [i|] eqn:PB.
      * apply IHr; auto.
        -- rewrite app_assoc. apply Forall_app. split; [exact F2|]. constructor; [|constructor].
           apply (item_ok_incl D'); auto.
        -- apply Forall_app. split; auto. constructor; [|constructor]. split; cbn [itype]; auto.
           apply B2. discriminate.
        -- intros T IT. destruct (CV1 i eq_refl T IT) as [X|X]; [left; exact X|right].
           apply (consts_in_incl _ D'); auto.
      * apply IHr; auto. intros T IT. destruct (CV2 eq_refl T IT) as [X|X]; [left; exact X|right].
        apply (consts_in_incl _ D'); auto.
    + assert (LT : (left_over D' < left_over D)%nat).
      { apply (left_fewer D D' x); auto. apply (w_in _ _ _ A2). exact X1. }
      destruct (pbreak y) as [i|] eqn:PB.
      * destruct (IHm (left_over D') ltac:(lia) D' (Nat.le_refl _)
                   (rest ++ pend ++ [{| itype := itype it; ifrom := i; istub := pstub y |}]) [] (pinits y) (plog y))
          as (n & N); rewrite ?app_nil_r in *; auto.
        -- rewrite app_assoc. apply Forall_app. split; [exact F2'|]. constructor; [|constructor]. auto.
        -- exists n. exact N.
      * destruct (IHm (left_over D') ltac:(lia) D' (Nat.le_refl _) (rest ++ pend) [] (pinits y) (plog y))
          as (n & N); rewrite ?app_nil_r in *; auto.
        exists n. exact N.
Qed.

Theorem compile_ends : names_constants P -> exists n, compile_constants P n <> Running.
Proof.
  intros NC. unfold compile_constants.
  destruct (walk_ends NC (left_over []) [] (Nat.le_refl _) (map fresh (ptypes P)) [] (pinit P) [])
    as (n & N); rewrite ?app_nil_r in *; auto.
  - apply start_items.
  - apply start_weak.
  - apply start_covers.
  - exists n. exact N.
Qed.

(** *** One meaning *)

Lemma enum_head : forall T U t f r l1 g l2, In T (ptypes P) -> In U (ptypes P) ->
  kenum T = Some t -> kfields T = f :: r -> kfields U = l1 ++ g :: f :: l2 -> False.
Proof.
  intros T U t f r l1 g l2 IT IU K W V.
  assert (DT : declares P T f) by (split; auto; rewrite W; left; auto).
  assert (DU : declares P U f) by (split; auto; rewrite V; apply in_or_app; right; right; left; auto).
  assert (E : T = U) by (apply (same_type T U f); auto). subst U.
  pose proof (nodup_part T IT) as N. rewrite W in V. rewrite W in N.
  destruct l1 as [|a l1]; cbn [app] in V; inversion V; subst.
  - inversion N; subst. apply H1. left. reflexivity.
  - inversion N; subst. apply H1. apply in_or_app. right. right. left. reflexivity.
Qed.

Lemma enum_same_before : forall T U f l1 g l2 m1 h m2, In T (ptypes P) -> In U (ptypes P) ->
  kfields T = l1 ++ g :: f :: l2 -> kfields U = m1 ++ h :: f :: m2 -> T = U /\ g = h.
Proof.
  intros T U f l1 g l2 m1 h m2 IT IU W V.
  assert (DT : declares P T f) by (split; auto; rewrite W; apply in_or_app; right; right; left; auto).
  assert (DU : declares P U f) by (split; auto; rewrite V; apply in_or_app; right; right; left; auto).
  assert (E : T = U) by (apply (same_type T U f); auto). subst U. split; auto.
  pose proof (nodup_part T IT) as N.
  assert (X : before f (kfields T) = Some g) by (rewrite W; apply before_split; rewrite <- W; exact N).
  assert (Y : before f (kfields T) = Some h) by (rewrite V; apply before_split; rewrite <- V; exact N).
  congruence.
Qed.

Lemma meanings_unique :
  (forall f v, means P f v -> forall w, means P f w -> v = w) /\
  (forall e v, value_of P e v -> forall w, value_of P e w -> v = w).
Proof.
  apply (means_value_ind P (fun f v _ => forall w, means P f w -> v = w)
           (fun e v _ => forall w, value_of P e w -> v = w)).
  - intros T t f r IT K W NI w M. inversion M; subst; try congruence.
    + assert (E : T = T0).
      { apply (same_type T T0 f); split; auto; [rewrite W|rewrite H1]; left; auto. }
      subst. congruence.
    + exfalso. eapply (enum_head T T0); eauto.
    + exfalso. assert (E : T = T0) by (apply (same_type T T0 f); auto; split; auto; rewrite W; left; auto).
      subst. congruence.
  - intros T t l1 g f l2 z IT K W NI MG IH R w M. inversion M; subst; try congruence.
    + exfalso. eapply (enum_head T0 T); eauto.
    + destruct (enum_same_before T T0 f l1 g l2 l0 g0 l3) as [-> ->]; auto.
      assert (t0 = t) by congruence. subst. specialize (IH _ H3). inversion IH. reflexivity.
    + exfalso. assert (E : T = T0).
      { apply (same_type T T0 f); auto; split; auto; rewrite W; apply in_or_app; right; right; left; auto. }
      subst. congruence.
  - intros T t f e v DT K E V IH R w M. inversion M; subst; try congruence.
    + assert (T0 = T) by (apply (same_type T0 T f); auto). subst.
      assert (e0 = e) by congruence. assert (t0 = t) by congruence. subst. rewrite (IH _ H2). reflexivity.
    + exfalso. assert (T0 = T) by (apply (same_type T0 T f); auto). subst. congruence.
  - intros T f DT K E w M. inversion M; subst; try congruence.
    + exfalso. assert (T0 = T).
      { apply (same_type T0 T f); auto; split; auto; rewrite H1; left; auto. }
      subst. congruence.
    + exfalso. assert (T0 = T).
      { apply (same_type T0 T f); auto; split; auto; rewrite H1; apply in_or_app; right; right; left; auto. }
      subst. congruence.
  - intros T f e v DT K E V IH F w M. inversion M; subst; try congruence.
    + exfalso. assert (T0 = T) by (apply (same_type T0 T f); auto). subst. congruence.
    + assert (e0 = e) by congruence. subst. rewrite (IH _ H2). reflexivity.
  - intros v w V. inversion V. reflexivity.
  - intros f v C M IH w V. inversion V; subst. auto.
  - intros o e1 e2 v1 v2 v V1 IH1 V2 IH2 F w V. inversion V as [| |? ? ? u1 u2 ? A1 A2 A3| | | |]; subst.
    rewrite (IH1 _ A1), (IH2 _ A2) in F. congruence.
  - intros o e v1 v V1 IH1 F w V. inversion V as [| | |? ? u1 ? A1 A2| | |]; subst.
    rewrite (IH1 _ A1) in F. congruence.
  - intros t e v V1 IH w V. inversion V as [| | | |? ? u A1| |]; subst. rewrite (IH _ A1). reflexivity.
  - intros c e1 e2 z v VC IHc Z V1 IH1 w V.
    inversion V as [| | | | |? ? ? y ? A1 A2 A3|? ? ? ? A1 A2]; subst; auto.
    specialize (IHc _ A1). inversion IHc. congruence.
  - intros c e1 e2 v VC IHc V1 IH1 w V.
    inversion V as [| | | | |? ? ? y ? A1 A2 A3|? ? ? ? A1 A2]; subst; auto.
    specialize (IHc _ A1). inversion IHc. congruence.
Qed.

(** *** Values *)

Lemma vcast_proper : forall t z, proper (t, vcast t z).
Proof.
  intros [t|] z; unfold proper; cbn [fst snd vcast]; [apply wrap_in_range|].
  destruct (z =? 0); [left | right]; reflexivity.
Qed.

Lemma proper_zero : forall t, proper (t, 0).
Proof. intros [t|]; unfold proper; cbn [fst snd]; [|left; reflexivity]. destruct t; unfold in_range; cbn; lia. Qed.

Lemma fits_proper : forall t v, proper v -> fits t v -> proper (t, snd v).
Proof.
  intros t v A B. unfold proper, fits in *. destruct t as [i|]; cbn [fst snd]; [exact B|].
  rewrite B in A. exact A.
Qed.

(* The values of fields and initialisers are proper. *)
Lemma meanings_proper :
  (forall f v, means P f v -> proper v) /\
  (forall e v, value_of P e v -> proper_numbers e -> proper v).
Proof.
  apply (means_value_ind P (fun f v _ => proper v) (fun e v _ => proper_numbers e -> proper v)).
  - intros. apply proper_zero.
  - intros. unfold proper. cbn [fst snd]. assumption.
  - intros. unfold proper. cbn [fst snd]. assumption.
  - intros. apply proper_zero.
  - intros T f e v D K E V IH F. apply fits_proper; auto. apply IH. apply (numbers P S0 f). exact E.
  - intros v A. exact A.
  - intros f v C M IH _. exact IH.
  - intros o e1 e2 v1 v2 v _ _ _ _ F _. apply (fold_binary_proper _ _ _ _ F).
  - intros o e v1 v _ _ F _. apply (fold_unary_proper _ _ _ F).
  - intros t e v _ _ _. apply vcast_proper.
  - intros c e1 e2 z v _ _ _ _ IH (_ & A & _). auto.
  - intros c e1 e2 v _ _ _ IH (_ & _ & A). auto.
Qed.

Lemma means_type : forall f v, means P f v -> fst v = pvt P f.
Proof.
  intros f v M. destruct M; cbn [fst]; auto; symmetry.
  - assert (D : declares P T f) by (split; auto; rewrite H1; left; auto).
    apply (enum_consts P S0 T t f D H0).
  - assert (D : declares P T f) by (split; auto; rewrite H1; apply in_or_app; right; right; left; auto).
    apply (enum_consts P S0 T t f D H0).
  - apply (enum_consts P S0 T t f); auto.
Qed.

Lemma exec_with_value : forall env e v, exec_with env e = Const v ->
  (forall g w, occurs g e -> env g = Const w -> pconst P g = true /\ means P g w) ->
  value_of P e v.
Proof.
  intros env. induction e as [w|g|o e1 IH1 e2 IH2|o e IH|t e IH|c IHc e1 IH1 e2 IH2|e1 IH1 e2 IH2|];
    intros v Q A; cbn [exec_with occurs] in *.
  - inversion Q; subst. constructor.
  - destruct (A g v eq_refl Q) as [X Y]. constructor; auto.
  - destruct (exec_with env e1) as [v1| | |] eqn:E1; try discriminate Q;
      destruct (exec_with env e2) as [v2| | |] eqn:E2; try discriminate Q.
    apply (value_bin P o e1 e2 v1 v2); auto.
  - destruct (exec_with env e) as [v1| | |] eqn:E1; try discriminate Q.
    apply (value_un P o e v1); auto.
  - destruct (exec_with env e) as [v1| | |] eqn:E1; try discriminate Q.
    inversion Q; subst. constructor. auto.
  - destruct (exec_with env c) as [[[t|] z]| | |] eqn:E1; try discriminate Q.
    destruct (z =? 0) eqn:Z0.
    + apply Z.eqb_eq in Z0. subst z. apply value_false; auto.
    + apply Z.eqb_neq in Z0. apply (value_true P c e1 e2 z); auto.
  - discriminate Q.
  - discriminate Q.
Qed.

Lemma enum_range_of : forall t i z, in_range i z ->
  compare_tvalue Le i t z (tmax t) = true -> compare_tvalue Lt i t z (tmin t) = false ->
  (t = U64 -> 0 <= z) -> in_range t z.
Proof.
  intros t i z A B C D.
  assert (LO : in_range t (tmin t) /\ in_range t (tmax t)) by (destruct t; unfold in_range; cbn; lia).
  destruct (ity_eqb t U64) eqn:TU.
  { apply ity_eqb_eq in TU. subst t. specialize (D eq_refl). clear - A D.
    unfold in_range in *. destruct i; cbn in *; lia. }
  destruct (u64_with_signed i t) eqn:US.
  - destruct (ity_eqb i U64) eqn:IU; [|destruct i, t; discriminate].
    apply ity_eqb_eq in IU. subst i.
    assert (E : ity_eqb U64 t = false) by (destruct t; auto; discriminate).
    unfold compare_tvalue in B. rewrite E in B. cbn [ity_eqb] in B.
    assert (MX : 0 <= tmax t /\ in_range I64 (tmax t)).
    { destruct t; try discriminate; unfold in_range; cbn; lia. }
    assert (MN : tmin t <= 0) by (destruct t; cbn; lia).
    rewrite (wrap_id U64) in B by assumption. rewrite (wrap_id I64) in B by (apply MX).
    assert (Z0 : 0 <= z) by (unfold in_range in A; cbn in A; lia).
    apply (proj1 (cpp_cmp_nonneg Le U64 I64 z (tmax t) A (proj2 MX) Z0 (proj1 MX))) in B.
    cbn in B. unfold in_range. lia.
  - apply (compare_tvalue_exact Le i t z (tmax t) US A (proj2 LO)) in B. cbn in B.
    assert (C' : ~ z < tmin t).
    { intros X. assert (Y : compare_tvalue Lt i t z (tmin t) = true).
      { apply (compare_tvalue_exact Lt i t z (tmin t) US A (proj1 LO)). exact X. }
      congruence. }
    unfold in_range. lia.
Qed.

Lemma enum_range : forall t v, proper v -> larger v t (tmax t) = false -> smaller v t (tmin t) = false ->
  (t = U64 -> 0 <= snd v) -> in_range t (snd v).
Proof.
  intros t [u z] A B C D. unfold larger, smaller, number_cmp, proper in *. cbn [fst snd] in *.
  apply negb_false_iff in B.
  destruct u as [i|]; [apply (enum_range_of t i); auto|].
  destruct A as [->| ->]; destruct t; unfold in_range; cbn; lia.
Qed.

Definition strong (D : list fid) (s : inits) : Prop :=
  forall f, In f D -> exists v, s f = Some (KNum v) /\ means P f v.

Hypothesis OR : orderly P.
Hypothesis NN : no_negative_ulong P.

Lemma exact_means : forall f e v, In f (in_order P) -> exact P f -> pinit P f = Some e ->
  value_of P e v -> means P f v.
Proof.
  intros f e v IF EX E V.
  assert (PV : proper v) by (apply (proj2 meanings_proper e v V); apply (numbers P S0 f); exact E).
  destruct EX as [(e' & E' & TY)|(X & _)]; [|congruence].
  assert (e' = e) by congruence. subst e'. specialize (TY v V).
  apply in_declares in IF. destruct IF as (T & DT). destruct v as [u z]. cbn [fst] in TY. subst u.
  destruct (kenum T) as [t|] eqn:K.
  - destruct (enum_consts P S0 T t f DT K) as [_ PT]. rewrite PT in *.
    change z with (snd (Vi t, z)). apply (means_enum_own P T t f e); auto.
  - change (pvt P f, z) with (pvt P f, snd (pvt P f, z)). apply (means_const_own P T f e); auto.
    unfold fits. cbn [fst snd]. unfold proper in PV. cbn [fst snd] in PV.
    destruct (pvt P f); auto.
Qed.

Lemma mentions_in : forall f g, clos_trans _ (mentions P) f g -> In g (in_order P).
Proof.
  intros f g C. induction C as [f g M|]; auto. apply (named P S0 f g M).
Qed.

Lemma look_means : forall D s, stands D s -> strong D s -> forall f,
  (forall h, clos_trans _ (mentions P) f h -> pconst P h = true -> In h D \/ exact P h) ->
  forall n h v, clos_trans _ (mentions P) f h -> look P n s h = Const v ->
  pconst P h = true /\ means P h v.
Proof.
  intros D s ST SG f A. induction n as [|n IH]; intros h v C Q; cbn [look] in Q; [discriminate|].
  destruct (pconst P h) eqn:CH; [|discriminate]. split; auto.
  destruct (in_dec Nat.eq_dec h D) as [J|O].
  - destruct (SG h J) as (w & E & M). rewrite E in Q. cbn [exec_with] in Q. inversion Q; subst. exact M.
  - destruct (A h C CH) as [J|EX]; [contradiction|].
    destruct (ST h) as [_ OUT]. rewrite (OUT O) in Q. pose proof (mentions_in f h C) as IH'.
    destruct (pinit P h) as [e|] eqn:E.
    + apply (exact_means h e v IH' EX E). apply (exec_with_value _ e v Q).
      intros g w OC L. apply (IH g w); auto. apply t_trans with h; auto. apply t_step. exists e. auto.
    + inversion Q; subst. destruct EX as [(e & X & _)|(_ & T & DT & K)]; [congruence|].
      apply (means_const_default P T h); auto.
Qed.

Lemma exec_means : forall D s, stands D s -> strong D s -> forall f e v,
  (forall h, clos_trans _ (mentions P) f h -> pconst P h = true -> In h D \/ exact P h) ->
  pinit P f = Some e -> exec P s e = Const v -> value_of P e v.
Proof.
  intros D s ST SG f e v A E Q. unfold exec in Q. apply (exec_with_value _ e v Q).
  intros g w OC L. apply (look_means D s ST SG f A (depth P) g w); auto. apply t_step. exists e. auto.
Qed.

Lemma pass_log : forall k l index skip x y, pass P k l index skip x = Some y ->
  plog y = [] -> plog x = [].
Proof.
  intros k. induction l as [|f r IH]; intros index skip x y Q L; cbn [pass] in Q; [congruence|].
  destruct (skip && _); [apply (IH _ _ _ _ Q L)|].
  destruct (negb _); [apply (IH _ _ _ _ Q L)|].
  destruct (fill P k (pinits x) (pstub x) f); [| | |discriminate];
    specialize (IH _ _ _ _ Q L); cbn [plog] in IH; auto.
  destruct (plog x); [reflexivity | discriminate IH].
Qed.

(* The stub is that of the field before. *)
Definition stub_ok (k : option ity) (D pre l : list fid) (s : inits) (b : stub) : Prop :=
  forall t, k = Some t ->
    (pre = [] /\ b = {| svalue := 0; snext := true |}) \/
    (exists pre' g z, pre = pre' ++ [g] /\ In g D /\ s g = Some (KNum (Vi t, z)) /\
       b = {| svalue := z; snext := false |}) \/
    (exists f r, l = f :: r /\ s f <> None).

Definition settled_in (l D : list fid) : Prop :=
  forall g, In g l -> settled P g -> pconst P g = true -> In g D.

Lemma earlier_in : forall l1 f l2 g, in_order P = l1 ++ f :: l2 -> earlier P g f -> In g l1.
Proof.
  intros l1 f l2 g W (a & b & c & E). pose proof (once P S0) as N.
  rewrite W in N, E. rewrite (app_cons_assoc a g (b ++ f :: c)), app_assoc in E.
  destruct (nodup_split _ _ _ _ _ N E) as [-> _].
  apply in_or_app. left. apply in_or_app. right. left. reflexivity.
Qed.

Lemma pass_strong : forall T k B Rr, In T (ptypes P) -> kenum T = k ->
  in_order P = B ++ kfields T ++ Rr ->
  forall l pre index skip x y D,
  kfields T = pre ++ l -> index = length pre ->
  stands D (pinits x) -> strong D (pinits x) ->
  settled_in (B ++ pre) D ->
  (pbreak x = None -> skip = false /\ consts_in pre D) ->
  (forall i, pbreak x = Some i -> own_at pre i /\ consts_in (firstn i pre) D) ->
  (skip = true -> forall f, In f l -> ~ settled P f) ->
  (skip = false -> stub_ok k D pre l (pinits x) (pstub x)) ->
  pass P k l index skip x = Some y -> plog y = [] ->
  exists D', incl D D' /\ stands D' (pinits y) /\ strong D' (pinits y) /\
    settled_in (B ++ kfields T) D' /\
    (pbreak y = None -> consts_in (kfields T) D') /\
    (forall i, pbreak y = Some i -> own_at (kfields T) i /\ consts_in (firstn i (kfields T)) D').
Proof.
  intros T k B Rr IT KT WO. induction l as [|f r IH]; intros pre index skip x y D W IX ST SG SI B1 B2 SK STB Q LG;
    cbn [pass] in Q.
  - inversion Q; subst y. rewrite app_nil_r in W. exists D. rewrite W.
    split; [apply incl_refl|]. split; auto. split; auto. split; auto. split; [intros E; apply (B1 E)|]. exact B2.
  - pose proof (app_cons_assoc pre f r) as AC.
    assert (W' : kfields T = (pre ++ [f]) ++ r) by congruence.
    assert (DF : declares P T f) by (split; auto; rewrite W; apply in_or_app; right; left; auto).
    assert (IF : In f (in_order P)) by (apply (declares_in T); auto).
    assert (IX' : S index = length (pre ++ [f])) by (rewrite app_length; cbn [length]; lia).
    assert (WF : in_order P = (B ++ pre) ++ f :: (r ++ Rr)).
    { rewrite WO, W, <- !app_assoc. reflexivity. }
    assert (EA : forall g, earlier P g f -> settled P g -> pconst P g = true -> In g D).
    { intros g E SE C. apply SI; auto. apply (earlier_in _ _ _ _ WF E). }
    assert (B2' : forall D', incl D D' -> forall i, pbreak x = Some i ->
              own_at (pre ++ [f]) i /\ consts_in (firstn i (pre ++ [f])) D').
    { intros D' ID' i E. destruct (B2 i E) as [L C]. split; [apply own_app; exact L|].
      apply own_lt in L. rewrite firstn_pre by lia. intros c Ic Cc. apply ID'. apply C; auto. }
    destruct (skip && match pinits x f with None => true | Some _ => false end) eqn:SKP.
    + (* skipped *)
      apply andb_true_iff in SKP. destruct SKP as [-> NF].
      apply (IH (pre ++ [f]) (S index) true x y D); auto.
      * intros g Ig Sg Cg. rewrite app_assoc in Ig. apply in_app_or in Ig. destruct Ig as [Ig|[<-|[]]]; [auto|].
        exfalso. apply (SK eq_refl f); auto. left. reflexivity.
      * intros E. destruct (B1 E) as [X _]. discriminate X.
      * apply B2'. apply incl_refl.
      * intros _ g Ig. apply (SK eq_refl). right. exact Ig.
      * intros X; discriminate X.
    + destruct (pconst P f) eqn:CF; cbn [negb] in Q.
      * (* a constant *)
        assert (SF : pinits x f = None -> skip = false).
        { intros E. rewrite E in SKP. destruct skip; [discriminate | reflexivity]. }
        assert (GO : forall v b, means P f v ->
          (forall t, k = Some t -> exists z, v = (Vi t, z) /\ b = {| svalue := z; snext := false |}) ->
          pass P k r (S index) false {| pinits := upd (pinits x) f v; plog := plog x; pstub := b; pbreak := pbreak x |} = Some y ->
          exists D', incl D D' /\ stands D' (pinits y) /\ strong D' (pinits y) /\
            settled_in (B ++ kfields T) D' /\
            (pbreak y = None -> consts_in (kfields T) D') /\
            (forall i, pbreak y = Some i -> own_at (kfields T) i /\ consts_in (firstn i (kfields T)) D')).
        { intros v b MV BV QU.
          destruct (IH (pre ++ [f]) (S index) false {| pinits := upd (pinits x) f v; plog := plog x; pstub := b; pbreak := pbreak x |} y (f :: D) W' IX')
            as (D' & X1 & X2); cbn [pbreak pinits pstub]; auto.
          - apply stands_upd; auto.
          - intros g Ig. unfold upd. destruct (Nat.eqb g f) eqn:E.
            + apply Nat.eqb_eq in E. subst g. exists v. auto.
            + destruct Ig as [->|Ig]; [rewrite Nat.eqb_refl in E; discriminate|]. apply SG. exact Ig.
          - intros g Ig Sg Cg. rewrite app_assoc in Ig. apply in_app_or in Ig.
            destruct Ig as [Ig|[<-|[]]]; [right; auto | left; auto].
          - intros E. split; auto. destruct (B1 E) as [_ C]. intros c Ic Cc.
            apply in_app_or in Ic. destruct Ic as [Ic|[<-|[]]]; [right; auto | left; auto].
          - apply B2'. intros g G. right. exact G.
          - intros X; discriminate X.
          - intros _ t KE. right. left. destruct (BV t KE) as (z & -> & ->).
            exists pre, f, z. split; auto. split; [left; auto|]. split; auto.
            unfold upd. rewrite Nat.eqb_refl. reflexivity.
          - exists D'. split; [intros g G; apply X1; right; exact G|]. auto. }
        destruct (fill P k (pinits x) (pstub x) f) as [v b|c| |] eqn:FI; [| | |discriminate].
        -- (* succeed *)
           destruct (in_dec Nat.eq_dec f D) as [J|O].
           ++ destruct (SG f J) as (w & E & M).
              assert (X : v = w /\ forall t, k = Some t -> exists z, v = (Vi t, z) /\ b = {| svalue := z; snext := false |}).
              { destruct k as [t|]; cbn [fill] in FI; unfold fill_enum, fill_general in FI;
                  rewrite E, (done_not_circular _ _ _ E) in FI; unfold exec in FI; cbn [exec_with] in FI.
                - destruct (larger _ _ _); [discriminate|]. destruct (smaller _ _ _); [discriminate|].
                  assert (TW : fst w = Vi t).
                  { rewrite (means_type f w M). apply (enum_consts P S0 T t f DF KT). }
                  pose proof (proj1 meanings_proper f w M) as PW. destruct w as [u z].
                  cbn [fst snd] in *. subst u. unfold proper in PW. cbn [fst snd] in PW.
                  inversion FI; subst. cbn [vcast]. rewrite (wrap_id t z PW).
                  split; auto. intros t' KE. inversion KE; subst. exists z. auto.
                - inversion FI; subst. split; auto. intros t KE. discriminate KE. }
              destruct X as [-> X]. apply (GO w b); auto.
           ++ destruct (ST f) as [_ OUT]. specialize (OUT O).
              assert (REACH : forall h, clos_trans _ (mentions P) f h -> pconst P h = true -> In h D \/ exact P h).
              { intros h Ch Kh. destruct (proj1 OR f h CF Ch Kh) as [[S1 S2]|EX]; auto. }
              destruct (pinit P f) as [e|] eqn:PE.
              ** destruct k as [t|]; cbn [fill] in FI; unfold fill_enum, fill_general in FI;
                   rewrite OUT in FI; destruct (is_circular P (pinits x) f); try discriminate FI;
                   destruct (exec P (pinits x) e) as [w| | |] eqn:EX; try discriminate FI.
                 --- pose proof (exec_means D _ ST SG f e w REACH PE EX) as V.
                     pose proof (proj2 meanings_proper e w V (numbers P S0 f e PE)) as PW.
                     destruct (larger w t (tmax t)) eqn:LA; [discriminate|].
                     destruct (smaller w t (tmin t)) eqn:SM; [discriminate|].
                     assert (RG : in_range t (snd w)).
                     { apply enum_range; auto. intros ->. apply (NN T f e w); auto. }
                     inversion FI; subst v b. cbn [vcast] in *. rewrite (wrap_id t (snd w) RG) in *.
                     apply (GO (Vi t, snd w) {| svalue := snd w; snext := false |}); auto.
                     +++ apply (means_enum_own P T t f e w); auto.
                     +++ intros t' KE. inversion KE; subst. exists (snd w). auto.
                 --- unfold not_constant in FI. destruct (all_initialized P (depth P) (pinits x) f) as [[|]|]; discriminate FI.
                 --- pose proof (exec_means D _ ST SG f e w REACH PE EX) as V.
                     inversion FI; subst v b.
                     apply (GO w (pstub x)); auto.
                     +++ apply (exact_means f e w IF); auto. apply (proj2 OR T f); auto.
                     +++ intros t KE. discriminate KE.
                 --- unfold not_constant in FI. destruct (all_initialized P (depth P) (pinits x) f) as [[|]|]; discriminate FI.
              ** specialize (SF OUT). specialize (STB SF). subst skip.
                 destruct k as [t|]; cbn [fill] in FI; unfold fill_enum, fill_general in FI; rewrite OUT in FI.
                 --- destruct (STB t eq_refl) as [[-> BE]|[(pre' & g & z & -> & IG & EG & BE)|(f0 & r0 & X & NF)]].
                     +++ rewrite BE in FI. cbn [snext svalue] in FI. inversion FI; subst v b.
                         apply (GO (Vi t, 0) {| svalue := 0; snext := false |}); auto.
                         *** apply (means_enum_first P T t f r); auto.
                         *** intros t' KE. inversion KE; subst. exists 0. auto.
                     +++ rewrite BE in FI. cbn [snext svalue] in FI.
                         destruct (SG g IG) as (w & E & M). rewrite EG in E. inversion E; subst w.
                         pose proof (proj1 meanings_proper g _ M) as PZ. unfold proper in PZ. cbn [fst snd] in PZ.
                         destruct (z =? tmax t) eqn:ZE; [discriminate|]. apply Z.eqb_neq in ZE.
                         assert (RG : in_range t (z + 1)) by (unfold in_range in *; lia).
                         inversion FI; subst v b. rewrite (wrap_id t (z + 1) RG) in *.
                         apply (GO (Vi t, z + 1) {| svalue := z + 1; snext := false |}); auto.
                         *** apply (means_enum_next P T t pre' g f r z); auto.
                             rewrite W, <- app_assoc. reflexivity.
                         *** intros t' KE. inversion KE; subst. exists (z + 1). auto.
                     +++ inversion X; subst. congruence.
                 --- inversion FI; subst v b. apply (GO (pvt P f, 0) (pstub x)); auto.
                     +++ apply (means_const_default P T f); auto.
                     +++ intros t KE. discriminate KE.
        -- (* error *)
           pose proof (pass_log _ _ _ _ _ _ Q LG) as X. cbn [plog] in X. destruct (plog x); discriminate X.
        -- (* break *)
           destruct (fill_break D (pinits x) k (pstub x) f ST IF FI) as (OF & NI & AC' & g & MG & OG).
           assert (NS : forall h, In h (f :: r) -> ~ settled P h).
           { intros h Ih SH. destruct SH as [U h DU COND].
             assert (UT : U = T).
             { apply (same_type U T h); auto. split; auto. rewrite W. apply in_or_app. right. exact Ih. }
             subst U. destruct (COND pre f r W Ih g MG) as (X1 & X2 & X3). apply OG. apply EA; auto. }
           apply (IH (pre ++ [f]) (S index) true {| pinits := pinits x; plog := plog x; pstub := pstub x; pbreak := match pbreak x with None => Some index | Some i => Some i end |} y D W' IX'); cbn [pinits plog pbreak pstub]; auto.
           ++ intros h Ih Sh Ch. rewrite app_assoc in Ih. apply in_app_or in Ih. destruct Ih as [Ih|[<-|[]]]; [auto|].
              exfalso. apply (NS f); auto. left. reflexivity.
           ++ intros E. destruct (pbreak x); discriminate E.
           ++ intros i E. destruct (pbreak x) as [j|] eqn:PB.
              ** apply (B2' D (incl_refl D) i). congruence.
              ** inversion E; subst i. split; [exists f; split; [rewrite IX, nth_error_app2, Nat.sub_diag by lia; reflexivity | exact NI]|].
                 rewrite firstn_pre by lia. rewrite IX, firstn_all. apply (B1 eq_refl).
           ++ intros _ h Ih. apply NS. right. exact Ih.
           ++ intros X; discriminate X.
      * (* not a constant *)
        assert (NE : k = None).
        { destruct k as [t|]; auto. exfalso. destruct (enum_consts P S0 T t f DF KT). congruence. }
        apply (IH (pre ++ [f]) (S index) false x y D); auto.
        -- intros h Ih Sh Ch. rewrite app_assoc in Ih. apply in_app_or in Ih. destruct Ih as [Ih|[<-|[]]]; [auto | congruence].
        -- intros E. destruct (B1 E) as [_ C]. split; auto. intros c Ic Cc.
           apply in_app_or in Ic. destruct Ic as [Ic|[<-|[]]]; [auto | congruence].
        -- apply B2'. apply incl_refl.
        -- intros X; discriminate X.
        -- intros _ t KE. congruence.
Qed.

Definition pend_ok (D : list fid) (it : item) : Prop :=
  In (itype it) (ptypes P) /\ own_at (kfields (itype it)) (ifrom it) /\
  consts_in (firstn (ifrom it) (kfields (itype it))) D.

Lemma pend_ok_incl : forall D E it, pend_ok D it -> incl D E -> pend_ok E it.
Proof. intros D E it (A & B & C) I. split; auto. split; auto. apply (consts_in_incl _ D); auto. Qed.

Lemma walk_log : forall n q s log s', walk P n q s log = Finished s' [] -> log = [].
Proof.
  induction n as [|n IH]; intros q s log s' Q; cbn [walk] in Q; destruct q as [|it q];
    try discriminate Q; try (inversion Q; reflexivity).
  destruct (continue_ P (itype it) (ifrom it) (istub it) s log) as [y|] eqn:C; [|discriminate Q].
  unfold continue_ in C.
  assert (L : plog y = []) by (destruct (pbreak y); apply (IH _ _ _ _ Q)).
  apply (pass_log _ _ _ _ _ _ C L).
Qed.

Lemma split_order : forall a T b, ptypes P = a ++ T :: b ->
  in_order P = concat (map kfields a) ++ kfields T ++ concat (map kfields b).
Proof. intros a T b E. unfold in_order. rewrite E, map_app, concat_app. reflexivity. Qed.

Lemma walk_strong : forall n R Wt pend s log D s',
  ptypes P = Wt ++ R -> stands D s -> strong D s -> settled_in (concat (map kfields Wt)) D ->
  Forall (pend_ok D) pend -> covers D (map fresh R ++ pend) ->
  walk P n (map fresh R ++ pend) s log = Finished s' [] ->
  exists D', strong D' s' /\ consts_in (in_order P) D'.
Proof.
  induction n as [|n IH]; intros R Wt pend s log D s' WT ST SG SI F CV Q.
  - cbn [walk] in Q. destruct (map fresh R ++ pend) as [|it q] eqn:E; [|discriminate Q].
    inversion Q; subst. exists D. split; auto.
    intros c A B; apply in_declares in A; destruct A as (T & A & A');
    destruct (CV T A) as [(x & [] & _)|C]; apply C; auto.
  - destruct R as [|T R].
    + cbn [map app] in *. destruct pend as [|it pend]; cbn [walk] in Q.
      * inversion Q; subst. exists D. split; auto.
        intros c A B; apply in_declares in A; destruct A as (T & A & A');
        destruct (CV T A) as [(x & [] & _)|C]; apply C; auto.
      * inversion F as [|? ? F1 F2]; subst. destruct F1 as (IT & OW & CI).
        destruct (continue_ P (itype it) (ifrom it) (istub it) s log) as [y|] eqn:C; [|discriminate Q].
        assert (L : plog y = []) by (destruct (pbreak y); apply (walk_log _ _ _ _ _ Q)).
        unfold continue_ in C. destruct (in_split _ _ IT) as (a & b & E).
        pose proof (split_order a (itype it) b E) as WO.
        rewrite app_nil_r in WT. rewrite <- WT in SI. change (concat (map kfields (ptypes P))) with (in_order P) in SI.
        assert (LE : (ifrom it <= length (kfields (itype it)))%nat) by (apply own_lt in OW; lia).
        destruct (pass_strong (itype it) (kenum (itype it)) _ _ IT eq_refl WO (skipn (ifrom it) (kfields (itype it)))
                    (firstn (ifrom it) (kfields (itype it))) (ifrom it) false
                    {| pinits := s; plog := log; pstub := istub it; pbreak := None |} y D)
          as (D' & A1 & A2 & A3 & A4 & A5 & A6); cbn [pinits plog pbreak pstub]; auto.
        -- symmetry. apply firstn_skipn.
        -- rewrite firstn_length. lia.
        -- intros g Ig. apply SI. rewrite WO. apply in_app_or in Ig. apply in_or_app.
           destruct Ig as [Ig|Ig]; [left; exact Ig|right]. apply in_or_app. left.
           rewrite <- (firstn_skipn (ifrom it)). apply in_or_app. left. exact Ig.
        -- intros i X; discriminate X.
        -- intros X; discriminate X.
        -- intros _ t KE. right. right. destruct (skipn_own _ _ OW) as (f & r & E' & NI).
           exists f, r. split; auto. destruct (ST f) as [IN OUT].
           destruct (in_dec Nat.eq_dec f D) as [J|O].
           ++ destruct (IN J) as (_ & v & V). congruence.
           ++ rewrite (OUT O). exact NI.
        -- assert (F2' : Forall (pend_ok D') pend).
           { eapply Forall_impl; [|exact F2]. intros x X. apply (pend_ok_incl D); auto. }
           assert (SI' : settled_in (concat (map kfields (ptypes P))) D').
           { intros g Ig Sg Cg. apply A1. apply SI; auto. }
           destruct (pbreak y) as [i|] eqn:PB.
           ++ apply (IH [] (ptypes P) (pend ++ [{| itype := itype it; ifrom := i; istub := pstub y |}]) (pinits y) (plog y) D' s'); auto.
              ** rewrite app_nil_r. reflexivity.
              ** apply Forall_app. split; auto. constructor; [|constructor].
                 destruct (A6 i eq_refl) as [X1 X2]. split; auto.
              ** intros T IT'. destruct (CV T IT') as [(x & [<-|X] & E')|C'].
                 --- left. eexists. split; [cbn [map app]; apply in_or_app; right; left; reflexivity|]. exact E'.
                 --- left. exists x. split; auto. cbn [map app]. apply in_or_app. auto.
                 --- right. apply (consts_in_incl _ D); auto.
           ++ apply (IH [] (ptypes P) pend (pinits y) (plog y) D' s'); auto.
              ** rewrite app_nil_r. reflexivity.
              ** intros T IT'. destruct (CV T IT') as [(x & [<-|X] & E')|C'].
                 --- right. subst T. apply A5. reflexivity.
                 --- left. exists x. auto.
                 --- right. apply (consts_in_incl _ D); auto.
    + cbn [map app walk] in Q. cbn [fresh itype ifrom istub] in Q.
      destruct (continue_ P T 0 {| svalue := 0; snext := true |} s log) as [y|] eqn:C; [|discriminate Q].
      assert (L : plog y = []) by (destruct (pbreak y); apply (walk_log _ _ _ _ _ Q)).
      unfold continue_ in C. cbn [skipn] in C.
      assert (IT : In T (ptypes P)) by (rewrite WT; apply in_or_app; right; left; auto).
      pose proof (split_order Wt T R WT) as WO.
      destruct (pass_strong T (kenum T) _ _ IT eq_refl WO (kfields T) [] O false
                  {| pinits := s; plog := log; pstub := {| svalue := 0; snext := true |}; pbreak := None |} y D)
        as (D' & A1 & A2 & A3 & A4 & A5 & A6); cbn [pinits plog pbreak pstub]; auto.
      * rewrite app_nil_r. exact SI.
      * intros _. split; auto. intros c [].
      * intros i X; discriminate X.
      * intros X; discriminate X.
      * intros _ t KE. left. auto.
      * assert (F2' : Forall (pend_ok D') pend).
        { eapply Forall_impl; [|exact F]. intros x X. apply (pend_ok_incl D); auto. }
        assert (SI' : settled_in (concat (map kfields (Wt ++ [T]))) D').
        { rewrite map_app, concat_app. cbn [map concat]. rewrite app_nil_r. exact A4. }
        assert (WT' : ptypes P = (Wt ++ [T]) ++ R) by (rewrite <- app_assoc; exact WT).
        destruct (pbreak y) as [i|] eqn:PB.
        -- apply (IH R (Wt ++ [T]) (pend ++ [{| itype := T; ifrom := i; istub := pstub y |}]) (pinits y) (plog y) D' s'); auto.
           ++ apply Forall_app. split; auto. constructor; [|constructor].
              destruct (A6 i eq_refl) as [X1 X2]. split; auto.
           ++ intros U IU. rewrite app_assoc. destruct (CV U IU) as [(x & [<-|X] & E')|C'].
              ** left. eexists. split; [apply in_or_app; right; left; reflexivity|]. exact E'.
              ** left. exists x. split; auto. apply in_or_app. auto.
              ** right. apply (consts_in_incl _ D); auto.
           ++ rewrite app_assoc. exact Q.
        -- apply (IH R (Wt ++ [T]) pend (pinits y) (plog y) D' s'); auto.
           intros U IU. destruct (CV U IU) as [(x & [<-|X] & E')|C'].
           ** right. cbn [fresh itype] in E'. subst U. apply A5. reflexivity.
           ** left. exists x. auto.
           ** right. apply (consts_in_incl _ D); auto.
Qed.

Theorem compile_values : forall n s, compile_constants P n = Finished s [] ->
  forall f, In f (in_order P) -> pconst P f = true ->
  exists v, s f = Some (KNum v) /\ means P f v.
Proof.
  intros n s Q f IF CF. unfold compile_constants in Q.
  destruct (walk_strong n (ptypes P) [] [] (pinit P) [] [] s) as (D & A & B); auto.
  - intros g. split; [intros [] | reflexivity].
  - intros g [].
  - intros g [].
  - rewrite app_nil_r. apply start_covers.
  - rewrite app_nil_r. exact Q.
Qed.

End Proofs.
