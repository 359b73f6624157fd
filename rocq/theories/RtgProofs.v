(* Proofs about generic types at run time. *)
From Coq Require Import ZArith List Bool Lia.
From Verif Require Import RtgModel RtgSpec.
Import ListNotations.
Local Open Scope nat_scope.

Scheme written_mind := Minimality for written Sort Prop
with written_args_mind := Minimality for written_args Sort Prop.
Combined Scheme written_both from written_mind, written_args_mind.

Lemma pack_single : forall P p, is_pack P p -> is_single P p -> False.
Proof. intros P p (g & E & F) (g' & E' & F'). congruence. Qed.

Lemma single_at : forall P p, is_single P p ->
  exists g, gparam_at P p = Done g /\ g_pack g = false /\ g_name g = name_of P p.
Proof.
  intros P p (g & E & F). exists g. unfold gparam_at, name_of. rewrite E. auto.
Qed.
Lemma pack_at : forall P p, is_pack P p ->
  exists g, gparam_at P p = Done g /\ g_pack g = true /\ g_name g = name_of P p.
Proof.
  intros P p (g & E & F). exists g. unfold gparam_at, name_of. rewrite E. auto.
Qed.

(* ---- arguments ---- *)

Inductive fits (P : prog) : list nat -> list rty -> Prop :=
| fits_nil : fits P [] []
| fits_one p ps t a : is_single P p -> fits P ps a -> fits P (p :: ps) (t :: a)
| fits_pack p a : is_pack P p -> fits P [p] a.

Lemma pack_last_tail : forall P p ps, pack_last P (p :: ps) -> pack_last P ps.
Proof.
  intros P p ps H k q E. destruct (H (S k) q E) as [D | (D & L)]; [ now left | right ].
  split; [ exact D | cbn [length] in L; lia ].
Qed.

Lemma enough_fits : forall P ps a, pack_last P ps -> enough P ps (length a) -> fits P ps a.
Proof.
  intros P ps. induction ps as [ | p ps IH ]; intros a L E.
  - destruct E as [ (_ & E) | (qs & q & E & _) ].
    + destruct a; [ constructor | discriminate ].
    + destruct qs; discriminate.
  - destruct (L 0 p eq_refl) as [ D | (D & F) ].
    + destruct E as [ (Fa & E) | (qs & q & E & K & Len) ].
      * destruct a as [ | t a ]; [ discriminate | ]. constructor; [ exact D | ].
        apply IH; [ eapply pack_last_tail; exact L | left ].
        inversion Fa; subst. split; [ assumption | cbn [length] in E; lia ].
      * destruct qs as [ | q0 qs ]; cbn [app] in E; injection E as -> E.
        -- exfalso. eapply pack_single; eassumption.
        -- cbn [length] in Len. destruct a as [ | t a ]; [ cbn [length] in Len; lia | ].
           constructor; [ exact D | ]. apply IH; [ eapply pack_last_tail; exact L | right ].
           exists qs, q. split; [ exact E | split; [ exact K | cbn [length] in Len; lia ] ].
    + cbn [length] in F. destruct ps; [ | discriminate ]. now constructor.
Qed.

Lemma arg_here : forall P p ps t a, is_single P p -> arg_for P (p :: ps) (t :: a) p [t].
Proof. intros P p ps t a D. exists 0. split; [ reflexivity | left ]. split; [ exact D | ]. exists t. now split. Qed.
Lemma arg_later : forall P p ps t a q us, arg_for P ps a q us -> arg_for P (p :: ps) (t :: a) q us.
Proof. intros P p ps t a q us (k & E & D). exists (S k). split; [ exact E | exact D ]. Qed.
Lemma arg_many : forall P p a, is_pack P p -> arg_for P [p] a p a.
Proof. intros P p a D. exists 0. split; [ reflexivity | right ]. now split. Qed.

Lemma arg_in : forall P ps a p us, arg_for P ps a p us -> In p ps.
Proof. intros P ps a p us (k & E & _). eapply nth_error_In; exact E. Qed.

Lemma arg_unique : forall P ps a p us vs, NoDup ps ->
  arg_for P ps a p us -> arg_for P ps a p vs -> us = vs.
Proof.
  intros P ps a p us vs N0 (k & E & D) (j & F & G).
  assert (k = j) as <-.
  { rewrite NoDup_nth_error in N0. apply N0; [ apply nth_error_Some; congruence | congruence ]. }
  destruct D as [ (D & t & T & ->) | (D & ->) ]; destruct G as [ (G & t' & T' & ->) | (G & ->) ].
  - congruence.
  - exfalso; eapply pack_single; eassumption.
  - exfalso; eapply pack_single; eassumption.
  - reflexivity.
Qed.

Lemma lookup_cons : forall A n m (a : A) l, m <> n -> lookup n ((m, a) :: l) = lookup n l.
Proof. intros. cbn [lookup]. destruct (Z.eqb_spec m n); [ contradiction | reflexivity ]. Qed.
Lemma lookup_same : forall A n (a : A) l, lookup n ((n, a) :: l) = Some a.
Proof. intros. cbn [lookup]. now rewrite Z.eqb_refl. Qed.

Lemma take_stays : forall (A : Type) c i (l r : list A), i + c <= length l ->
  firstn c (skipn i (l ++ r)) = firstn c (skipn i l).
Proof.
  intros A c i l r L. rewrite skipn_app, firstn_app.
  replace (c - length (skipn i l)) with 0 by (rewrite skipn_length; lia).
  cbn [firstn]. now rewrite app_nil_r.
Qed.

Lemma append_args_spec : forall P ps a, fits P ps a ->
  forall ts pk ns up, NoDup (map (name_of P) ps) ->
  (forall p, In p ps -> lookup (name_of P p) ns = None) ->
  exists pk' ns', append_args P ps a (Mgr ts pk ns up) = Done (Mgr (ts ++ a) pk' ns' up) /\
    (forall p, In p ps -> is_single P p ->
       exists t, lookup (name_of P p) ns' = Some t /\ arg_for P ps a p [t]) /\
    (forall p, In p ps -> is_pack P p ->
       exists i c, lookup (name_of P p) pk' = Some (i, c) /\ i + c <= length (ts ++ a) /\
         arg_for P ps a p (firstn c (skipn i (ts ++ a)))) /\
    (forall n, ~ In n (map (name_of P) ps) ->
       lookup n ns' = lookup n ns /\ lookup n pk' = lookup n pk).
Proof.
  intros P ps a F. induction F as [ | p ps t a D F IH | p a D ]; intros ts pk ns up N0 Fr.
  - exists pk, ns. cbn [append_args]. rewrite app_nil_r.
    split; [ reflexivity | ]. split; [ intros ? [] | ]. split; [ intros ? [] | auto ].
  - destruct (single_at P p D) as (g & G & K & Nm).
    cbn [append_args]. rewrite G. cbn [bind]. rewrite K, Nm. cbn [append_named].
    rewrite (Fr p (or_introl eq_refl)). cbn [bind].
    cbn [map] in N0. inversion N0 as [ | ? ? N1 N2 ]; subst.
    destruct (IH (ts ++ [t]) pk ((name_of P p, t) :: ns) up N2) as (pk' & ns' & E & S1 & S2 & S3).
    { intros q Q. rewrite lookup_cons; [ apply Fr; now right | ].
      intro Eq. apply N1. rewrite Eq. now apply in_map. }
    exists pk', ns'. rewrite E. rewrite <- app_assoc. cbn [app].
    rewrite <- app_assoc in S2. cbn [app] in S2.
    split; [ reflexivity | ]. split; [ | split ].
    + intros q [ -> | Q ] Sq.
      * exists t. destruct (S3 _ N1) as (-> & _). split; [ apply lookup_same | now apply arg_here ].
      * destruct (S1 q Q Sq) as (u & U & V). exists u. split; [ exact U | now apply arg_later ].
    + intros q [ -> | Q ] Sq; [ exfalso; eapply pack_single; eassumption | ].
      destruct (S2 q Q Sq) as (i & c & U & V & W). exists i, c.
      split; [ exact U | split; [ exact V | now apply arg_later ] ].
    + intros n Nn. cbn [map] in Nn. destruct (S3 n) as (-> & ->); [ intro Q; apply Nn; now right | ].
      split; [ | reflexivity ]. apply lookup_cons. intro Q; apply Nn; now left.
  - destruct (pack_at P p D) as (g & G & K & Nm).
    cbn [append_args]. rewrite G. cbn [bind]. rewrite K, Nm. cbn [append_pack].
    exists ((name_of P p, (length ts, length a)) :: pk), ns.
    split; [ reflexivity | ]. split; [ | split ].
    + intros q [ -> | [] ] Sq. exfalso; eapply pack_single; eassumption.
    + intros q [ -> | [] ] Sq. exists (length ts), (length a).
      split; [ apply lookup_same | ]. rewrite app_length. split; [ lia | ].
      rewrite skipn_app, skipn_all, Nat.sub_diag. cbn [skipn app]. rewrite firstn_all.
      now apply arg_many.
    + intros n Nn. split; [ reflexivity | ]. apply lookup_cons. intro Q; apply Nn; now left.
Qed.

(* ---- what a manager knows ---- *)

Definition knows (P : prog) (e : nat -> list rty -> Prop) (s : list nat) (M : mgr) : Prop :=
  (forall p, In p s -> is_single P p ->
     exists t, type_at M (name_of P p) = Some t /\ e p [t]) /\
  (forall p, In p s -> is_pack P p -> e p (pick_types M (name_of P p))).

Definition holds (P : prog) (e : nat -> list rty -> Prop) (s : list nat)
  (ts : list rty) (pk : list (Z * (nat * nat))) (ns : list (Z * rty)) : Prop :=
  (forall p, In p s -> is_single P p ->
     exists t, lookup (name_of P p) ns = Some t /\ e p [t]) /\
  (forall p, In p s -> is_pack P p ->
     exists i c, lookup (name_of P p) pk = Some (i, c) /\ i + c <= length ts /\
       e p (firstn c (skipn i ts))).

Lemma holds_knows : forall P e s ts pk ns up, holds P e s ts pk ns ->
  knows P e s (Mgr ts pk ns up).
Proof.
  intros P e s ts pk ns up (A & B). split.
  - intros p I0 D. destruct (A p I0 D) as (t & E & F). exists t. cbn [type_at]. rewrite E. auto.
  - intros p I0 D. destruct (B p I0 D) as (i & c & E & _ & F). cbn [pick_types]. now rewrite E.
Qed.

Lemma import_plain : forall P i, plain P i -> forall fuel M, i <= fuel ->
  import_general P fuel i M = Done M.
Proof.
  intros P i H. induction H as [ i d E D Ho | i d h E D Ho Lt Pl IH ]; intros fuel M F.
  - destruct fuel; cbn [import_general]; rewrite E, Ho, D; reflexivity.
  - destruct fuel as [ | fuel ]; [ lia | ]. cbn [import_general]. rewrite E, Ho, D.
    rewrite IH by lia. reflexivity.
Qed.

Lemma plain_low : forall P i, plain P i -> i <= length (p_decls P).
Proof.
  intros P i H. assert (i < length (p_decls P)); [ | lia ].
  apply nth_error_Some. inversion H; subst; congruence.
Qed.

Lemma NoDup_app_parts : forall (A : Type) (l r : list A), NoDup (l ++ r) ->
  NoDup l /\ NoDup r /\ forall x, In x l -> In x r -> False.
Proof.
  intros A l r. induction l as [ | x l IH ]; cbn [app]; intro H.
  - split; [ constructor | split; [ exact H | intros ? [] ] ].
  - inversion H; subst. destruct IH as (B & C & D); [ assumption | ].
    split; [ | split ].
    + constructor; [ | exact B ]. intro; apply H2. apply in_or_app. now left.
    + exact C.
    + intros y [ -> | Y ] Z0; [ apply H2; apply in_or_app; now right | eauto ].
Qed.

Lemma import_args : forall P d a h M ts pk ns up s e i,
  M = Mgr ts pk ns up -> nth_error (p_decls P) i = Some d ->
  pack_last P (d_params d) -> enough P (d_params d) (length a) ->
  NoDup (map (name_of P) s ++ map (name_of P) (d_params d)) ->
  (forall p, In p (d_params d) -> lookup (name_of P p) ns = None) ->
  holds P e s ts pk ns ->
  (forall p us, e p us -> gives P (RInstance i a h) p us) ->
  exists ts' pk' ns', append_args P (d_params d) a M = Done (Mgr ts' pk' ns' up) /\
    holds P (gives P (RInstance i a h)) (s ++ d_params d) ts' pk' ns' /\
    (forall n, ~ In n (map (name_of P) (d_params d)) -> lookup n ns' = lookup n ns).
Proof.
  intros P d a h M ts pk ns up s e i -> E L En N0 Fr (H1 & H2) Em.
  destruct (NoDup_app_parts _ _ _ N0) as (N1 & N2 & N3).
  destruct (append_args_spec P _ a (enough_fits P _ _ L En) ts pk ns up N2 Fr)
    as (pk' & ns' & Ea & S1 & S2 & S3).
  exists (ts ++ a), pk', ns'. split; [ exact Ea | ]. split; [ split | ].
  - intros p I0 D. apply in_app_or in I0. destruct I0 as [ I0 | I0 ].
    + destruct (H1 p I0 D) as (t & T & U). exists t.
      destruct (S3 (name_of P p)) as (-> & _).
      * intro Q. eapply N3; [ apply in_map; exact I0 | exact Q ].
      * auto.
    + destruct (S1 p I0 D) as (t & T & U). exists t. split; [ exact T | ].
      eapply gives_here; eassumption.
  - intros p I0 D. apply in_app_or in I0. destruct I0 as [ I0 | I0 ].
    + destruct (H2 p I0 D) as (j & c & T & B & U). exists j, c.
      destruct (S3 (name_of P p)) as (_ & ->).
      * intro Q. eapply N3; [ apply in_map; exact I0 | exact Q ].
      * split; [ exact T | ]. rewrite app_length, take_stays by lia. split; [ lia | auto ].
    + destruct (S2 p I0 D) as (j & c & T & B & U). exists j, c.
      split; [ exact T | split; [ exact B | ] ]. eapply gives_here; eassumption.
  - intros n Nn. apply (S3 n Nn).
Qed.

Lemma import_spec : forall P t, ready P t ->
  forall pk ns up, distinct P (scope P t) ->
  (forall p, In p (scope P t) -> lookup (name_of P p) ns = None) ->
  forall ts, exists ts' pk' ns', import P t (Mgr ts pk ns up) = Done (Mgr ts' pk' ns' up) /\
    holds P (gives P t) (scope P t) ts' pk' ns' /\
    (forall n, ~ In n (map (name_of P) (scope P t)) -> lookup n ns' = lookup n ns).
Proof.
  intros P t R. induction R as [ i Pl | i d a E L En | i d a h E L En R IH ];
    intros pk ns up Di Fr ts.
  - exists ts, pk, ns. cbn [import]. rewrite (import_plain P i Pl) by (now apply plain_low).
    split; [ reflexivity | ]. split; [ split; intros ? [] | reflexivity ].
  - unfold distinct in Di. cbn [import bind scope app] in *. rewrite E in *.
    destruct (import_args P d a None (Mgr ts pk ns up) ts pk ns up [] nothing i eq_refl E L En)
      as (ts' & pk' & ns' & Ea & Ho & Ot).
    + exact Di.
    + exact Fr.
    + split; intros ? [].
    + intros ? ? [].
    + exists ts', pk', ns'. auto.
  - unfold distinct in Di, IH. cbn [import scope] in *.
    rewrite E in *. rewrite map_app in Di.
    destruct (NoDup_app_parts _ _ _ Di) as (N1 & N2 & N3).
    destruct (IH pk ns up N1) with (ts := ts) as (ts1 & pk1 & ns1 & E1 & Ho & Ot).
    { intros p I0. apply Fr. apply in_or_app. now left. }
    rewrite E1. cbn [bind].
    destruct (import_args P d a (Some h) (Mgr ts1 pk1 ns1 up) ts1 pk1 ns1 up (scope P h)
      (gives P h) i eq_refl E L En) as (ts' & pk' & ns' & Ea & Ho' & Ot').
    + exact Di.
    + intros p I0. rewrite Ot.
      * apply Fr. apply in_or_app. now right.
      * intro Q. eapply N3; [ exact Q | now apply in_map ].
    + exact Ho.
    + intros p us G. now apply gives_host.
    + exists ts', pk', ns'. split; [ exact Ea | split; [ exact Ho' | ] ].
      intros n Nn. rewrite map_app in Nn. rewrite Ot', Ot; [ reflexivity | | ];
        intro Q; apply Nn; apply in_or_app; [ now left | now right ].
Qed.

Lemma build_spec : forall P t up, ready P t -> distinct P (scope P t) ->
  exists ts pk ns, build P t up = Done (Mgr ts pk ns up) /\
    holds P (gives P t) (scope P t) ts pk ns /\
    (forall n, ~ In n (map (name_of P) (scope P t)) -> lookup n ns = None).
Proof.
  intros P t up R Di.
  destruct (import_spec P t R [] [] up Di (fun _ _ => eq_refl) []) as (ts & pk & ns & H).
  exists ts, pk, ns. exact H.
Qed.

(* ---- uniqueness ---- *)

Lemma NoDup_names : forall P s, distinct P s -> NoDup s.
Proof. intros P s. unfold distinct. apply NoDup_map_inv. Qed.

Lemma gives_scope : forall P t p us, gives P t p us -> In p (scope P t).
Proof.
  intros P t p us G. induction G as [ i d a h p us E A | i a h p us G IH ]; cbn [scope].
  - rewrite E. apply in_or_app. right. eapply arg_in; exact A.
  - apply in_or_app. left. exact IH.
Qed.

Lemma gives_unique : forall P t p us, gives P t p us -> forall vs, NoDup (scope P t) ->
  gives P t p vs -> us = vs.
Proof.
  intros P t p us G. induction G as [ i d a h p us E A | i a h p us G IH ]; intros vs N0 H.
  - inversion H as [ ? d' ? ? ? ? E' A' | ? ? h' ? ? G' ]; subst.
    + rewrite E in E'. injection E' as <-. eapply arg_unique; [ | exact A | exact A' ].
      cbn [scope] in N0. rewrite E in N0. now apply NoDup_app_parts in N0.
    + exfalso. cbn [scope] in N0. rewrite E in N0. apply NoDup_app_parts in N0.
      destruct N0 as (_ & _ & N0). eapply N0; [ eapply gives_scope; exact G' | eapply arg_in; exact A ].
  - inversion H as [ ? d' ? ? ? ? E' A' | ? ? h' ? ? G' ]; subst.
    + exfalso. cbn [scope] in N0. rewrite E' in N0. apply NoDup_app_parts in N0.
      destruct N0 as (_ & _ & N0). eapply N0; [ eapply gives_scope; exact G | eapply arg_in; exact A' ].
    + apply IH; [ | exact G' ]. cbn [scope] in N0. now apply NoDup_app_parts in N0.
Qed.

Definition single_valued (e : nat -> list rty -> Prop) : Prop :=
  forall p us vs, e p us -> e p vs -> us = vs.

Lemma gives_single : forall P t, distinct P (scope P t) -> single_valued (gives P t).
Proof.
  intros P t D p us vs A B. eapply gives_unique; [ exact A | now apply NoDup_names in D | exact B ].
Qed.

Lemma stands_unique : forall P e s, single_valued e ->
  (forall m, written P s m -> forall o o', stands e P m o -> stands e P m o' -> o = o') /\
  (forall l, written_args P s l -> forall us vs, stand_args e P l us -> stand_args e P l vs -> us = vs).
Proof.
  intros P e s Sv. apply (written_both P s
    (fun m => forall o o', stands e P m o -> stands e P m o' -> o = o')
    (fun l => forall us vs, stand_args e P l us -> stand_args e P l vs -> us = vs)).
  - intros o o' A B. inversion A; inversion B; reflexivity.
  - intros i o o' A B. inversion A; inversion B; reflexivity.
  - intros x d _ IH _ o o' A B. inversion A; inversion B; subst.
    assert (Some t = Some t0) by eauto. congruence.
  - intros p _ _ o o' A B. inversion A; inversion B; subst.
    assert ([t] = [t0]) by (eapply Sv; eassumption). congruence.
  - intros i d a h _ _ _ _ IHa _ IHh o o' A B. inversion A; inversion B; subst.
    f_equal. f_equal; eauto.
  - intros us vs A B. inversion A; inversion B; reflexivity.
  - intros p l _ Pk _ IH us vs A B.
    inversion A as [ | ? ? us1 us2 A1 A2 A3 | ? ? ? ? A1 A2 ]; subst.
    + inversion B as [ | ? ? vs1 vs2 B1 B2 B3 | ? ? ? ? B1 B2 ]; subst.
      * f_equal; [ eapply Sv; eassumption | eauto ].
      * exfalso. inversion B1; subst. eapply pack_single; eassumption.
    + exfalso. inversion A1; subst. eapply pack_single; eassumption.
  - intros x l W IHx _ _ IHl us vs A B.
    inversion A as [ | ? ? us1 us2 A1 A2 A3 | ? ? ? ? A1 A2 ]; subst.
    + exfalso. inversion W; subst. eapply pack_single; eassumption.
    + inversion B as [ | ? ? vs1 vs2 B1 B2 B3 | ? ? ? ? B1 B2 ]; subst.
      * exfalso. inversion W; subst. eapply pack_single; eassumption.
      * assert (Some t = Some t0) by eauto. f_equal; [ congruence | eauto ].
Qed.

(* ---- get_type ---- *)

Fixpoint type_args (P : prog) (M : mgr) (l : list mty) : result (list rty) :=
  match l with
  | [] => Done []
  | x :: l' =>
      bind (match x with
            | MParam p =>
                bind (gparam_at P p) (fun g =>
                if g_pack g then Done (pick_types M (g_name g))
                else match type_at M (g_name g) with
                     | Some t => Done [t]
                     | None => Failed
                     end)
            | _ =>
                bind (get_type P M x) (fun o =>
                match o with Some t => Done [t] | None => Failed end)
            end) (fun ts =>
      bind (type_args P M l') (fun us => Done (ts ++ us)))
  end.

Lemma get_instance : forall P M i a h, get_type P M (MInstance i a h) =
  bind (get_type P M h) (fun host =>
  bind (is_match P i (length a)) (fun b =>
  if b then bind (type_args P M a) (fun ts => Done (Some (RInstance i ts host))) else Failed)).
Proof.
  intros. cbn [get_type]. destruct (get_type P M h); [ | reflexivity ]. cbn [bind].
  destruct (is_match P i (length a)) as [ [ | ] | ]; [ | reflexivity | reflexivity ].
  cbn [bind]. f_equal. induction a as [ | x a IH ]; [ reflexivity | ].
  cbn [type_args]. rewrite <- IH. reflexivity.
Qed.

Lemma match_enough : forall P i d c, nth_error (p_decls P) i = Some d ->
  pack_last P (d_params d) -> enough P (d_params d) c -> is_match P i c = Done true.
Proof.
  intros P i d c E L En. unfold is_match. rewrite E.
  destruct En as [ (F & Len) | (qs & q & Eq & Pk & Len) ].
  - destruct (rev (d_params d)) as [ | p r ] eqn:R.
    + assert (d_params d = []) as D by (rewrite <- (rev_involutive (d_params d)), R; reflexivity).
      rewrite D in Len. cbn [length] in Len. now subst c.
    + assert (In p (d_params d)) as I0 by (apply in_rev; rewrite R; now left).
      rewrite Forall_forall in F. destruct (single_at P p (F p I0)) as (g & G & K & _).
      rewrite G. cbn [bind]. rewrite K. now rewrite (proj2 (Nat.eqb_eq _ _) Len).
  - rewrite Eq, rev_app_distr. cbn [rev app].
    destruct (pack_at P q Pk) as (g & G & K & _). rewrite G. cbn [bind]. rewrite K.
    rewrite app_length. cbn [length].
    replace (length qs + 1 - 1) with (length qs) by lia.
    now rewrite (proj2 (Nat.leb_le _ _) Len).
Qed.

Lemma get_type_means : forall P e s M, knows P e s M ->
  (forall m, written P s m -> exists o, get_type P M m = Done o /\ stands e P m o /\
     (m <> MNull -> o <> None)) /\
  (forall l, written_args P s l -> exists us, type_args P M l = Done us /\ stand_args e P l us).
Proof.
  intros P e s M (K1 & K2). apply (written_both P s
    (fun m => exists o, get_type P M m = Done o /\ stands e P m o /\ (m <> MNull -> o <> None))
    (fun l => exists us, type_args P M l = Done us /\ stand_args e P l us)).
  - exists None. split; [ reflexivity | split; [ constructor | congruence ] ].
  - intros i. exists (Some (RGeneral i)). split; [ reflexivity | split; [ constructor | congruence ] ].
  - intros x d W (o & E & S0 & Nn) Nx. cbn [get_type]. rewrite E. cbn [bind].
    destruct o as [ t | ]; [ | exfalso; now apply Nn ].
    exists (Some (RArray t d)). split; [ reflexivity | split; [ now constructor | congruence ] ].
  - intros p I0 D. destruct (K1 p I0 D) as (t & T & U). cbn [get_type].
    destruct (single_at P p D) as (g & G & K & Nm). rewrite G. cbn [bind]. rewrite K, Nm. cbn [bind]. rewrite T.
    exists (Some t). split; [ reflexivity | split; [ now constructor | congruence ] ].
  - intros i d a h E L En Wa (us & A & B) Wh (o & E' & S0 & _).
    rewrite get_instance, E'. cbn [bind]. rewrite (match_enough P i d _ E L En). cbn [bind].
    rewrite A. cbn [bind]. exists (Some (RInstance i us o)).
    split; [ reflexivity | split; [ now constructor | congruence ] ].
  - exists []. split; [ reflexivity | constructor ].
  - intros p l I0 D W (us & A & B). cbn [type_args].
    destruct (pack_at P p D) as (g & G & K & Nm). rewrite G. cbn [bind]. rewrite K, Nm. cbn [bind]. rewrite A. cbn [bind].
    exists (pick_types M (name_of P p) ++ us). split; [ reflexivity | ].
    apply sa_pack; auto.
  - intros x l W (o & E & S0 & Nn) Nx Wl (us & A & B).
    destruct o as [ t | ]; [ | exfalso; now apply Nn ].
    exists (t :: us). split; [ | now apply sa_one ].
    destruct x as [ | i | i a h | x d | p ]; cbn [type_args];
      try (rewrite E; cbn [bind]; rewrite A; reflexivity).
    inversion W as [ | | | ? I0 D | ]; subst.
    cbn [get_type] in E. destruct (single_at P p D) as (g & G & K & Nm).
    rewrite G in *. cbn [bind] in *. rewrite K, Nm in *. injection E as ->.
    cbn [bind]. rewrite A. reflexivity.
Qed.

Lemma get_type_exact : forall P e s M m, single_valued e -> knows P e s M -> written P s m ->
  forall o, get_type P M m = Done o <-> stands e P m o.
Proof.
  intros P e s M m Sv K W o.
  destruct (proj1 (get_type_means P e s M K) m W) as (o' & E & S0 & _).
  rewrite E. split; intro H.
  - injection H as <-. exact S0.
  - f_equal. eapply (proj1 (stands_unique P e s Sv)); eassumption.
Qed.

Lemma means_in_type : forall P t m, ready P t -> distinct P (scope P t) ->
  written P (scope P t) m ->
  exists M, build P t None = Done M /\
    (exists o, get_type P M m = Done o) /\
    forall o, get_type P M m = Done o <-> stands (gives P t) P m o.
Proof.
  intros P t m R D W. destruct (build_spec P t None R D) as (ts & pk & ns & E & H & _).
  apply holds_knows with (up := None) in H.
  exists (Mgr ts pk ns None). split; [ exact E | ]. split.
  - destruct (proj1 (get_type_means P _ _ _ H) m W) as (o & A & _). eauto.
  - intro o. eapply get_type_exact; [ apply gives_single; exact D | exact H | exact W ].
Qed.

Lemma means_in_method : forall P t ps args m, ready P t ->
  pack_last P ps -> enough P ps (length args) ->
  distinct P (scope P t ++ ps) -> written P (scope P t ++ ps) m ->
  exists M, build_method P t ps args = Done M /\
    (exists o, get_type P M m = Done o) /\
    forall o, get_type P M m = Done o <-> stands (gives_method P t ps args) P m o.
Proof.
  intros P t ps args m R L En D W. unfold distinct in D. rewrite map_app in D.
  destruct (NoDup_app_parts _ _ _ D) as (N1 & N2 & N3).
  destruct (build_spec P t None R N1) as (ts & pk & ns & E & (H1 & H2) & Ot).
  unfold build_method. rewrite E. cbn [bind].
  destruct (append_args_spec P ps args (enough_fits P _ _ L En) ts pk ns None N2)
    as (pk' & ns' & Ea & S1 & S2 & S3).
  { intros p I0. apply Ot. intro Q. eapply N3; [ exact Q | now apply in_map ]. }
  exists (Mgr (ts ++ args) pk' ns' None). split; [ exact Ea | ].
  assert (holds P (gives_method P t ps args) (scope P t ++ ps) (ts ++ args) pk' ns') as H.
  { split.
    - intros p I0 Sg. apply in_app_or in I0. destruct I0 as [ I0 | I0 ].
      + destruct (H1 p I0 Sg) as (u & U & V). exists u. destruct (S3 (name_of P p)) as (-> & _).
        * intro Q. eapply N3; [ apply in_map; exact I0 | exact Q ].
        * split; [ exact U | now apply gives_type ].
      + destruct (S1 p I0 Sg) as (u & U & V). exists u. split; [ exact U | now apply gives_own ].
    - intros p I0 Sg. apply in_app_or in I0. destruct I0 as [ I0 | I0 ].
      + destruct (H2 p I0 Sg) as (i & c & U & B & V). exists i, c.
        destruct (S3 (name_of P p)) as (_ & ->).
        * intro Q. eapply N3; [ apply in_map; exact I0 | exact Q ].
        * rewrite app_length, take_stays by lia. split; [ exact U | ].
          split; [ lia | now apply gives_type ].
      + destruct (S2 p I0 Sg) as (i & c & U & B & V). exists i, c.
        split; [ exact U | split; [ exact B | now apply gives_own ] ]. }
  apply holds_knows with (up := None) in H.
  assert (single_valued (gives_method P t ps args)) as Sv.
  { intros p us vs A B. destruct A as [ p us A | p us A ]; inversion B as [ ? ? B1 | ? ? B1 ]; subst.
    - eapply arg_unique; [ apply NoDup_map_inv in N2; exact N2 | exact A | exact B1 ].
    - exfalso. eapply N3; apply in_map; [ eapply gives_scope; exact B1 | eapply arg_in; exact A ].
    - exfalso. eapply N3; apply in_map; [ eapply gives_scope; exact A | eapply arg_in; exact B1 ].
    - eapply gives_single; [ exact N1 | exact A | exact B1 ]. }
  split.
  - destruct (proj1 (get_type_means P _ _ _ H) m W) as (o & A & _). eauto.
  - intro o. eapply get_type_exact; eassumption.
Qed.

(* ---- fields ---- *)

Lemma find_field_means : forall P t f M, ready P t -> distinct P (scope P t) ->
  good_field P t f -> f_host f <> MNull -> build P t None = Done M ->
  exists h o, find_field P M f = Done (h, o) /\
    stands (gives P t) P (f_host f) (Some h) /\ stands (gives P h) P (f_type f) o.
Proof.
  intros P t f M R D (W & G) Nn E.
  destruct (build_spec P t None R D) as (ts & pk & ns & E' & H & _).
  apply holds_knows with (up := None) in H.
  assert (M = Mgr ts pk ns None) as -> by congruence.
  destruct (proj1 (get_type_means P _ _ _ H) _ W) as (o & A & B & C).
  destruct o as [ h | ]; [ | exfalso; now apply C ].
  unfold find_field. rewrite A. cbn [bind].
  destruct (G h B) as (Rh & Dh & Wh).
  destruct (means_in_type P h (f_type f) Rh Dh Wh) as (M' & Eb & (o & Eo) & Ex).
  rewrite Eb. cbn [bind]. rewrite Eo. cbn [bind].
  exists h, o. split; [ reflexivity | split; [ exact B | now apply Ex ] ].
Qed.

Lemma field_unique : forall P t f o o', distinct P (scope P t) -> good_field P t f ->
  field_stands P t f o -> field_stands P t f o' -> o = o'.
Proof.
  intros P t f o o' D (W & G) (h & A & B) (h' & A' & B').
  assert (Some h = Some h') as Eh.
  { eapply (proj1 (stands_unique P _ _ (gives_single P t D))); eassumption. }
  injection Eh as <-. destruct (G h A) as (Rh & Dh & Wh).
  eapply (proj1 (stands_unique P _ _ (gives_single P h Dh))); eassumption.
Qed.

Lemma first_field : forall P t f k c, ready P t -> distinct P (scope P t) ->
  good_field P t f -> f_host f <> MNull -> lookup k c = None ->
  exists M o c', build P t None = Done M /\ field_type P M c k f = Done (o, c') /\
    forall o', field_stands P t f o' <-> o' = o.
Proof.
  intros P t f k c R D G Nn L.
  destruct (build_spec P t None R D) as (ts & pk & ns & E & _).
  destruct (find_field_means P t f _ R D G Nn E) as (h & o & F & A & B).
  exists (Mgr ts pk ns None), o, ((k, (h, o)) :: c).
  split; [ exact E | ]. split.
  - unfold field_type, get_field. rewrite L, F. reflexivity.
  - intro o'. split.
    + intro H. eapply field_unique; [ exact D | exact G | exact H | exists h; auto ].
    + intros ->. exists h. auto.
Qed.

(* A type without generic params stands for the same in every instance. *)
Lemma closed_same : forall P,
  (forall m, written P [] m -> forall e e' o, stands e P m o -> stands e' P m o) /\
  (forall l, written_args P [] l -> forall e e' us, stand_args e P l us -> stand_args e' P l us).
Proof.
  intros P. apply (written_both P []
    (fun m => forall e e' o, stands e P m o -> stands e' P m o)
    (fun l => forall e e' us, stand_args e P l us -> stand_args e' P l us)).
  - intros e e' o A. inversion A. constructor.
  - intros i e e' o A. inversion A. constructor.
  - intros x d _ IH _ e e' o A. inversion A; subst. constructor. eauto.
  - intros p [].
  - intros i d a h _ _ _ _ IHa _ IHh e e' o A. inversion A; subst. constructor; eauto.
  - intros e e' us A. inversion A. constructor.
  - intros p l [].
  - intros x l W IHx _ _ IHl e e' us A. inversion A; subst.
    + exfalso. inversion W; subst. contradiction.
    + apply sa_one; eauto.
Qed.

Lemma written_more : forall P s s', (forall p, In p s -> In p s') ->
  (forall m, written P s m -> written P s' m) /\
  (forall l, written_args P s l -> written_args P s' l).
Proof.
  intros P s s' Sub. apply (written_both P s (fun m => written P s' m)
    (fun l => written_args P s' l)); intros; econstructor; eauto.
Qed.

Lemma read_fields_closed : forall P fs,
  (forall k, written P [] (f_host (fs k)) /\ f_host (fs k) <> MNull) ->
  forall l, (forall t k, In (t, k) l -> ready P t /\ distinct P (scope P t) /\
               good_field P t (fs k)) ->
  forall c, (forall k h o, lookup k c = Some (h, o) ->
     forall e, stands e P (f_host (fs k)) (Some h) /\ stands (gives P h) P (f_type (fs k)) o) ->
  exists os, read_fields P fs l c = Done os /\
    Forall2 (fun x o => field_stands P (fst x) (fs (snd x)) o) l os.
Proof.
  intros P fs Cl l. induction l as [ | (t, k) l IH ]; intros G c Inv.
  - exists []. split; [ reflexivity | constructor ].
  - destruct (G t k (or_introl eq_refl)) as (R & D & Gd).
    destruct (build_spec P t None R D) as (ts & pk & ns & E & _).
    cbn [read_fields]. rewrite E. cbn [bind].
    destruct (Cl k) as (Cw & Cn).
    unfold field_type, get_field. destruct (lookup k c) as [ (h, o) | ] eqn:Lk.
    + cbn [bind fst snd].
      destruct (IH (fun t' k' I0 => G t' k' (or_intror I0)) c Inv) as (os & Eo & F).
      rewrite Eo. cbn [bind]. exists (o :: os). split; [ reflexivity | ].
      constructor; [ | exact F ]. cbn [fst snd]. exists h. apply (Inv k h o Lk).
    + destruct (find_field_means P t (fs k) _ R D Gd Cn E) as (h & o & F & A & B).
      rewrite F. cbn [bind fst snd].
      destruct (IH (fun t' k' I0 => G t' k' (or_intror I0)) ((k, (h, o)) :: c))
        as (os & Eo & F2).
      { intros k' h' o' L' e. cbn [lookup] in L'. destruct (Z.eqb_spec k k') as [ <- | ].
        - injection L' as <- <-. split; [ | exact B ].
          eapply (proj1 (closed_same P)); eassumption.
        - now apply Inv. }
      rewrite Eo. cbn [bind]. exists (o :: os). split; [ reflexivity | ].
      constructor; [ | exact F2 ]. cbn [fst snd]. exists h. auto.
Qed.

(* ---- equality of types ---- *)

Fixpoint rtys_eqb (l m : list rty) : bool :=
  match l, m with
  | [], [] => true
  | s :: l', t :: m' => rty_eqb s t && rtys_eqb l' m'
  | _, _ => false
  end.

Lemma rty_eqb_instance : forall i x h j y k, rty_eqb (RInstance i x h) (RInstance j y k) =
  (i =? j) && rtys_eqb x y &&
  match h, k with
  | None, None => true
  | Some s, Some t => rty_eqb s t
  | _, _ => false
  end.
Proof. reflexivity. Qed.

Fixpoint rsize (t : rty) : nat :=
  match t with
  | RInstance _ a h => S (fold_right (fun x n => rsize x + n) 0 a +
      match h with Some h' => rsize h' | None => 0 end)
  | RArray e _ => S (rsize e)
  | _ => 1
  end.

Lemma rty_eqb_true : forall n a b, rsize a <= n -> (rty_eqb a b = true <-> a = b).
Proof.
  induction n as [ | n IH ]; intros a b L.
  - destruct a; cbn [rsize] in L; lia.
  - destruct a as [ i | i x h | s d | k ]; destruct b as [ j | j y g | t e | k' ];
      try (split; [ intro H; discriminate H | intro H; discriminate H ]).
    + cbn [rty_eqb]. rewrite Nat.eqb_eq. split; congruence.
    + cbn [rsize] in L. rewrite rty_eqb_instance, !andb_true_iff, Nat.eqb_eq.
      assert (forall l m, fold_right (fun x n => rsize x + n) 0 l <= n ->
        (rtys_eqb l m = true <-> l = m)) as Hl.
      { clear - IH. induction l as [ | s l IHl ]; intros [ | t m ] L; cbn [rtys_eqb];
          try (split; [ intro H; try discriminate H; reflexivity | intro H; try discriminate H; reflexivity ]).
        cbn [fold_right] in L. rewrite andb_true_iff, (IH s t), (IHl m) by lia.
        split; [ intros (-> & ->); reflexivity | intro H; injection H as -> ->; auto ]. }
      rewrite (Hl x y) by lia.
      assert ((match h, g with None, None => true | Some s, Some t => rty_eqb s t
               | _, _ => false end) = true <-> h = g) as ->.
      { destruct h as [ s | ]; destruct g as [ t | ];
          try (split; [ intro H; try discriminate H; reflexivity | intro H; try discriminate H; reflexivity ]).
        rewrite (IH s t) by lia. split; congruence. }
      split; [ intros ((-> & ->) & ->); reflexivity | intro H; injection H as -> -> ->; auto ].
    + cbn [rty_eqb rsize] in *. rewrite andb_true_iff, Z.eqb_eq, (IH s t) by lia.
      split; [ intros (-> & ->); reflexivity | intro H; injection H as -> ->; auto ].
    + cbn [rty_eqb]. rewrite Nat.eqb_eq. split; congruence.
Qed.

Lemma same_type_true : forall a b, same_type a b = true <-> a = b.
Proof.
  intros [ s | ] [ t | ]; cbn [same_type];
    try (split; [ intro H; try discriminate H; reflexivity | intro H; try discriminate H; reflexivity ]).
  rewrite (rty_eqb_true (rsize s) s t) by lia. split; congruence.
Qed.

(* ---- methods ---- *)

(* The prototype of a method has the types the method has. *)
Lemma types_of_params_spec : forall P e s M, knows P e s M ->
  forall l, Forall (fun x => written P s (snd x)) l ->
  exists os, types_of_params P M l = Done os /\
    Forall2 (fun x y => fst x = fst y /\ stands e P (snd x) (snd y)) l os.
Proof.
  intros P e s M K l F. induction F as [ | (mode, m) l W F (os & E & IH) ].
  - exists []. split; [ reflexivity | constructor ].
  - cbn [snd] in W. destruct (proj1 (get_type_means P e s M K) m W) as (o & A & B & _).
    cbn [types_of_params]. rewrite A. cbn [bind]. rewrite E. cbn [bind].
    exists ((mode, o) :: os). split; [ reflexivity | constructor; [ now split | exact IH ] ].
Qed.

Lemma compare_params_spec : forall P e s M, single_valued e -> knows P e s M ->
  forall ps, Forall (fun x => written P s (snd x)) ps ->
  forall ts, length ts = length ps ->
  exists b, compare_params P M ps ts = Done b /\
    (b = true <-> Forall2 (fun x y => fst x = fst y /\ stands e P (snd x) (snd y)) ps ts).
Proof.
  intros P e s M Sv K ps F. induction F as [ | (mode, m) ps W F IH ]; intros [ | (mode', t) ts ] L;
    try discriminate L.
  - exists true. split; [ reflexivity | split; [ constructor | reflexivity ] ].
  - cbn [snd] in W. cbn [compare_params].
    destruct (Z.eqb_spec mode mode') as [ <- | Nm ]; cbn [negb].
    2:{ exists false. split; [ reflexivity | ]. split; [ discriminate | ].
        intro H. inversion H; subst. cbn [fst] in *. tauto. }
    destruct (proj1 (get_type_means P e s M K) m W) as (o & A & B & _).
    destruct (IH ts) as (b & Eb & Hb); [ cbn [length] in L; lia | ].
    assert (exists b0, bind (get_type P M m) (fun o => if same_type o t
        then compare_params P M ps ts else Done false) = Done b0 /\
      (b0 = true <-> Forall2 (fun x y => fst x = fst y /\ stands e P (snd x) (snd y))
        ((mode, m) :: ps) ((mode, t) :: ts))) as (b0 & E0 & H0).
    { rewrite A. cbn [bind]. destruct (same_type o t) eqn:Q.
      - apply same_type_true in Q. subst t. exists b. split; [ exact Eb | ]. rewrite Hb.
        split; intro H; [ now constructor | now inversion H ].
      - exists false. split; [ reflexivity | ]. split; [ discriminate | ]. intro H.
        inversion H as [ | ? ? ? ? (_ & St) _ ]; subst. cbn [snd] in St.
        assert (o = t) as Ot by (eapply (proj1 (stands_unique P e s Sv)); eassumption).
        apply same_type_true in Ot. congruence. }
    exists b0. split; [ | exact H0 ].
    destruct m as [ | i | i a h | x d | p ]; try exact E0.
    inversion W as [ | | | ? I0 D | ]; subst.
    destruct (single_at P p D) as (g & -> & G & _). cbn [bind]. rewrite G. exact E0.
Qed.

Lemma compare_to_spec : forall P e s M e' m t, single_valued e -> single_valued e' ->
  knows P e s M -> written_method P s m ->
  forall m0 s0, written_method P s0 m0 ->
  t_name t = m_name m0 -> t_count t = m_count m0 ->
  stands e' P (m_ret m0) (t_ret t) ->
  Forall2 (fun x y => fst x = fst y /\ stands e' P (snd x) (snd y)) (m_params m0) (t_params t) ->
  exists b, compare_to P M t m = Done b /\ (b = true <-> same_method P e' e m0 m).
Proof.
  intros P e s M e' m t Sv Sv' K (Wr & Wp) m0 s0 (Wr0 & Wp0) Tn Tc Tr Tp.
  unfold compare_to, same_method. rewrite Tn, Tc.
  assert (no : forall Q : Prop, ~ Q -> exists b, Done false = Done b /\ (b = true <-> Q)).
  { intros Q Nq. exists false. split; [ reflexivity | split; [ discriminate | tauto ] ]. }
  destruct (Z.eqb_spec (m_name m) (m_name m0)) as [ E1 | E1 ]; cbn [negb];
    [ | apply no; intuition congruence ].
  destruct (Nat.eqb_spec (m_count m0) (m_count m)) as [ E2 | E2 ]; cbn [negb];
    [ | apply no; tauto ].
  assert (length (t_params t) = length (m_params m0)) as L0.
  { symmetry. clear - Tp. induction Tp; cbn [length]; congruence. }
  rewrite L0.
  destruct (Nat.eqb_spec (length (m_params m0)) (length (m_params m))) as [ E3 | E3 ]; cbn [negb].
  2:{ apply no. intros (_ & _ & _ & F). apply E3. clear - F.
      induction F; cbn [length]; congruence. }
  destruct (proj1 (get_type_means P e s M K) _ Wr) as (r & A & B & _).
  rewrite A. cbn [bind].
  destruct (same_type (t_ret t) r) eqn:Q.
  - apply same_type_true in Q.
    destruct (compare_params_spec P e s M Sv K _ Wp (t_params t)) as (b & Eb & Hb); [ lia | ].
    exists b. split; [ exact Eb | ]. rewrite Hb. split.
    + intro F. split; [ auto | ]. split; [ auto | ]. split.
      * exists r. split; [ now rewrite <- Q | exact B ].
      * clear - F Tp. revert F. generalize (m_params m). induction Tp as [ | x y xs ys (X1 & X2) T IH ];
          intros qs F; inversion F as [ | z ? zs ? (Z1 & Z2) F' ]; subst; constructor.
        -- split; [ congruence | eauto ].
        -- now apply IH.
    + intros (_ & _ & _ & F). clear - F Tp Sv Sv' Wp0.
      revert F Wp0. generalize (m_params m). induction Tp as [ | x y xs ys (X1 & X2) T IH ];
        intros qs F W; inversion F as [ | ? z ? zs (Z1 & o & Z2 & Z3) F' ]; subst; constructor.
      * split; [ congruence | ]. inversion W; subst.
        assert (o = snd y) as <- by (eapply (proj1 (stands_unique P e' s0 Sv')); eassumption).
        exact Z3.
      * inversion W; subst. now apply IH.
  - apply no. intros (_ & _ & (o & R1 & R2) & _).
    assert (o = t_ret t) as -> by (eapply (proj1 (stands_unique P e' s0 Sv')); eassumption).
    assert (r = t_ret t) as Er by (eapply (proj1 (stands_unique P e s Sv)); eassumption).
    symmetry in Er. apply same_type_true in Er. congruence.
Qed.

Lemma prototype_spec : forall P e s M m, knows P e s M -> written_method P s m ->
  exists t, get_prototype P M m = Done t /\ t_name t = m_name m /\ t_count t = m_count m /\
    stands e P (m_ret m) (t_ret t) /\
    Forall2 (fun x y => fst x = fst y /\ stands e P (snd x) (snd y)) (m_params m) (t_params t).
Proof.
  intros P e s M m K (Wr & Wp). unfold get_prototype.
  destruct (types_of_params_spec P e s M K _ Wp) as (os & -> & F). cbn [bind].
  destruct (proj1 (get_type_means P e s M K) _ Wr) as (r & -> & B & _). cbn [bind].
  exists (Proto (m_name m) (m_count m) r os). cbn. auto.
Qed.

Lemma last_match_spec : forall P M t (same : meth -> Prop) ms,
  Forall (fun m => exists b, compare_to P M t m = Done b /\ (b = true <-> same m)) ms ->
  forall k found, exists o, last_match P M t k ms found = Done o /\
    ((o = found /\ forall j m, nth_error ms j = Some m -> ~ same m) \/
     (exists j, o = Some (k + j) /\ last_same same ms (Some j))).
Proof.
  intros P M t same ms F. induction F as [ | m ms (b & E & H) F IH ]; intros k found.
  - exists found. split; [ reflexivity | left ]. split; [ reflexivity | ]. intros [ | j ]; discriminate.
  - cbn [last_match]. rewrite E. cbn [bind].
    destruct (IH (S k) (if b then Some k else found)) as (o & -> & [ (-> & No) | (j & -> & (m1 & M1 & S1) & L) ]).
    + eexists. split; [ reflexivity | ]. destruct b.
      * right. exists 0. rewrite Nat.add_0_r. split; [ reflexivity | ]. cbn [last_same].
        split; [ exists m; split; [ reflexivity | now apply H ] | ].
        intros [ | j ] m' Lt Nt; [ lia | eapply No; exact Nt ].
      * left. split; [ reflexivity | ]. intros [ | j ] m' Nt; cbn [nth_error] in Nt.
        -- injection Nt as <-. intro Q. apply H in Q. discriminate.
        -- eapply No; exact Nt.
    + eexists. split; [ reflexivity | right ]. exists (S j).
      split; [ f_equal; lia | ]. cbn [last_same]. split; [ exists m1; auto | ].
      intros [ | j' ] m' Lt Nt; [ lia | ]. eapply (L j'); [ lia | exact Nt ].
Qed.

Lemma first_match_spec : forall P t (same : meth -> Prop) ms,
  Forall (fun m => exists b, compare_to P empty_mgr t m = Done b /\ (b = true <-> same m)) ms ->
  forall k, exists o, first_match P t k ms = Done o /\
    ((o = None /\ forall j m, nth_error ms j = Some m -> ~ same m) \/
     (exists j, o = Some (k + j) /\ first_same same ms (Some j))).
Proof.
  intros P t same ms F. induction F as [ | m ms (b & E & H) F IH ]; intros k.
  - exists None. split; [ reflexivity | left ]. split; [ reflexivity | ]. intros [ | j ]; discriminate.
  - cbn [first_match]. rewrite E. cbn [bind]. destruct b.
    + eexists. split; [ reflexivity | right ]. exists 0. rewrite Nat.add_0_r.
      split; [ reflexivity | ]. cbn [first_same].
      split; [ exists m; split; [ reflexivity | now apply H ] | intros j m' Lt; lia ].
    + assert (~ same m) as Nm by (intro Q; apply H in Q; discriminate).
      destruct (IH (S k)) as (o & -> & [ (-> & No) | (j & -> & (m1 & M1 & S1) & L) ]).
      * eexists. split; [ reflexivity | left ]. split; [ reflexivity | ].
        intros [ | j ] m' Nt; cbn [nth_error] in Nt; [ congruence | eapply No; exact Nt ].
      * eexists. split; [ reflexivity | right ]. exists (S j).
        split; [ f_equal; lia | ]. cbn [first_same]. split; [ exists m1; auto | ].
        intros [ | j' ] m' Lt Nt; cbn [nth_error] in Nt; [ congruence | ].
        eapply (L j'); [ lia | exact Nt ].
Qed.

Lemma ready_cases : forall P t, ready P t ->
  (exists i a h, t = RInstance i a h) \/ (exists i, t = RGeneral i /\ scope P t = []).
Proof. intros P t R. destruct R; [ right | left | left ]; eauto. Qed.

Lemma bind_interface_spec : forall P class iface m ms,
  ready P class -> ready P iface ->
  distinct P (scope P iface) -> distinct P (scope P class) ->
  (forall p q, In p (scope P iface) -> In q (scope P class) -> name_of P p <> name_of P q) ->
  no_packs P (scope P class) ->
  written_method P (scope P iface) m -> Forall (written_method P (scope P class)) ms ->
  exists o, bind_interface P class iface m ms = Done o /\
    last_same (same_method P (gives P iface) (gives P class) m) ms o.
Proof.
  intros P class iface m ms Rc Ri Di Dc Dis Np Wm Wms.
  unfold bind_interface.
  assert (exists up, (match class with
        | RInstance _ _ _ => bind (build P class None) (fun M => Done (Some M))
        | _ => Done None end) = Done up /\
    (forall p, In p (scope P class) -> exists t, match up with Some M => type_at M (name_of P p)
        | None => None end = Some t /\ gives P class p [t])) as (up & -> & Up).
  { destruct (ready_cases P class Rc) as [ (i & a & h & ->) | (i & -> & Sc) ].
    - destruct (build_spec P _ None Rc Dc) as (ts & pk & ns & -> & H & _). cbn [bind].
      eexists. split; [ reflexivity | ]. apply holds_knows with (up := None) in H.
      intros p I0. apply H; [ exact I0 | now apply Np ].
    - exists None. split; [ reflexivity | ]. rewrite Sc. intros ? []. }
  cbn [bind].
  destruct (build_spec P iface up Ri Di) as (ts & pk & ns & -> & H & Ot). cbn [bind].
  apply holds_knows with (up := up) in H.
  destruct (prototype_spec P _ _ _ m H Wm) as (t & -> & T1 & T2 & T3 & T4). cbn [bind].
  assert (knows P (gives P class) (scope P class) (Mgr ts pk ns up)) as Kc.
  { split.
    - intros p I0 D. cbn [type_at]. rewrite Ot.
      + exact (Up p I0).
      + intro Q. apply in_map_iff in Q. destruct Q as (q & Eq & I1). exact (Dis q p I1 I0 Eq).
    - intros p I0 D. exfalso. eapply pack_single; [ exact D | now apply Np ]. }
  destruct (last_match_spec P (Mgr ts pk ns up) t
    (same_method P (gives P iface) (gives P class) m) ms) with (k := 0) (found := @None nat)
    as (o & -> & C).
  { rewrite Forall_forall in *. intros m' I0.
    eapply compare_to_spec; [ apply gives_single; exact Dc | apply gives_single; exact Di
      | exact Kc | now apply Wms | exact Wm | exact T1 | exact T2 | exact T3 | exact T4 ]. }
  exists o. split; [ reflexivity | ].
  destruct C as [ (-> & No) | (j & -> & L) ]; [ exact No | exact L ].
Qed.

Lemma override_slot_spec : forall P class m vs,
  ready P class -> distinct P (scope P class) ->
  written_method P (scope P class) m -> Forall (written_method P []) vs ->
  exists o, override_slot P class m vs = Done o /\
    first_same (same_method P (gives P class) nothing m) vs o.
Proof.
  intros P class m vs R D Wm Wv. unfold override_slot.
  assert (exists M, (match class with RInstance _ _ _ => build P class None
        | _ => Done empty_mgr end) = Done M /\ knows P (gives P class) (scope P class) M)
    as (M & -> & K).
  { destruct (ready_cases P class R) as [ (i & a & h & ->) | (i & -> & Sc) ].
    - destruct (build_spec P _ None R D) as (ts & pk & ns & -> & H & _).
      eexists. split; [ reflexivity | ]. now apply holds_knows.
    - eexists. split; [ reflexivity | ]. rewrite Sc. split; intros ? []. }
  cbn [bind].
  destruct (prototype_spec P _ _ _ m K Wm) as (t & -> & T1 & T2 & T3 & T4). cbn [bind].
  destruct (first_match_spec P t (same_method P (gives P class) nothing m) vs) with (k := 0)
    as (o & -> & C).
  { rewrite Forall_forall in *. intros m' I0.
    eapply compare_to_spec; [ | apply gives_single; exact D | | now apply Wv
      | exact Wm | exact T1 | exact T2 | exact T3 | exact T4 ].
    - intros p us vs' [].
    - split; intros ? []. }
  exists o. split; [ reflexivity | ].
  destruct C as [ (-> & No) | (j & -> & L) ]; [ exact No | exact L ].
Qed.
