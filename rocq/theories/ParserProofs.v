(** Lemmas about the expression analyser. *)

From Coq Require Import List Bool Arith ZArith Lia.
From Verif Require Import ParserModel ParserSpec.
Import ListNotations.

(** *** What pending stack segments look like *)

(** [okb q B]: an operator of priority [q] just above [B] does not absorb [B]'s top. *)
Definition okb (q : nat) (B : list op) : Prop :=
  match B with [] => True | b :: _ => q < priority b \/ right_to_left b = true end.

Definition hungry (B : list op) : Prop :=
  match B with [] => True | b :: _ => right_places b = 1%Z end.

Definition after (B : list op) (r : Z) : Prop :=
  match B with [] => (r <= 0)%Z | b :: _ => r = right_places b end.

Definition lbin (o : op) : Prop :=
  arity o = 2 /\ adhere o = 1 /\ right_to_left o = false /\ parent_op o = None /\ o <> OComma.
Definition lpost (o : op) : Prop := arity o = 1 /\ adhere o = 1 /\ right_to_left o = false.
Definition lpre (o : op) : Prop := arity o = 1 /\ adhere o = 0 /\ priority o = 2.
Definition lasg (o : op) : Prop :=
  arity o = 2 /\ adhere o = 1 /\ right_to_left o = true /\ parent_op o = None /\
  o <> OQMark /\ o <> OComma /\ priority o = 15.

Inductive chain (q : nat) : list op -> list expr -> expr -> Prop :=
| C_one t : chain q [] [t] t
| C_bin so se l o r :
    chain q so se l -> lbin o -> priority o = q -> chain q (o :: so) (r :: se) (EBin o l r)
| C_post so se l o :
    chain q so se l -> lpost o -> priority o = q -> chain q (o :: so) se (EUn o l).

Inductive mid : list op -> list expr -> expr -> Prop :=
| M_chain so se t : chain 13 so se t -> mid so se t
| M_cond sc ec c sy ey y m :
    chain 13 sc ec c -> mid sy ey y ->
    mid (sy ++ OQColon :: OQMark :: sc) (ey ++ m :: ec) (ECond c m y).

Inductive seg : bool -> nat -> list op -> list expr -> expr -> Prop :=
| S_one b q t : seg b q [] [t] t
| S_bin b q so se l o k so' se' r :
    chain (priority o) so se l -> lbin o -> priority o <= q ->
    seg false k so' se' r -> k < priority o -> Forall (fun x => priority x < priority o) so' ->
    seg b q (so' ++ o :: so) (se' ++ se) (EBin o l r)
| S_post b q so se l o :
    chain (priority o) so se l -> lpost o -> priority o <= q -> seg b q (o :: so) se (EUn o l)
| S_pre b q so pres se t :
    seg false 1 so se t -> Forall lpre pres -> pres <> [] ->
    Forall (fun x => priority x < 2) so ->
    seg b q (so ++ pres) se (fold_left (fun e o => EUn o e) pres t)
| S_asg b q o l so se r :
    lasg o -> 15 <= q -> seg false 15 so se r -> Forall (fun x => priority x <= 15) so ->
    seg b q (so ++ [o]) (se ++ [l]) (EBin o l r)
| S_cond b q sc ec c sm em m sy ey y :
    13 <= q -> chain 13 sc ec c -> mid sm em m -> (b = true -> sm = []) ->
    seg b 13 sy ey y -> Forall (fun x => priority x <= 13) sy ->
    seg b q (sy ++ OQColon :: sm ++ OQMark :: sc) (ey ++ em ++ ec) (ECond c m y).

Lemma chain_nil : forall q se t, chain q [] se t -> se = [t].
Proof. intros q se t H. inversion H. reflexivity. Qed.

Lemma app_cons_nil : forall A (l : list A) x r, l ++ x :: r = [] -> False.
Proof. intros A l x r H. destruct l; discriminate. Qed.

Lemma mid_nil : forall se t, mid [] se t -> se = [t].
Proof.
  intros se t H. inversion H; subst.
  - eapply chain_nil; eauto.
  - exfalso. eapply app_cons_nil; eauto.
Qed.

Lemma seg_nil : forall b q se t, seg b q [] se t -> se = [t].
Proof.
  intros b q se t H. inversion H; subst; auto;
    try (exfalso; eapply app_cons_nil; eauto; fail).
  - destruct so; [|discriminate]. destruct pres; [congruence|discriminate].
Qed.

Lemma chain_prio : forall q so se t, chain q so se t -> Forall (fun x => priority x = q) so.
Proof. induction 1; constructor; auto. Qed.

Lemma mid_prio : forall so se t, mid so se t -> Forall (fun x => priority x = 13) so.
Proof.
  induction 1.
  - eapply chain_prio; eauto.
  - apply Forall_app. split; auto. constructor; [reflexivity|]. constructor; [reflexivity|].
    eapply chain_prio; eauto.
Qed.

Lemma chain_se : forall q so se t, chain q so se t -> exists e se', se = e :: se'.
Proof. induction 1; eauto. Qed.

Lemma mid_se : forall so se t, mid so se t -> exists e se', se = e :: se'.
Proof.
  induction 1.
  - eapply chain_se; eauto.
  - destruct IHmid as (e & s & ->). cbn. eauto.
Qed.

Lemma seg_se : forall b q so se t, seg b q so se t -> exists e se', se = e :: se'.
Proof.
  induction 1; try (eauto; fail).
  - destruct IHseg as (e & s & ->). cbn. eauto.
  - eapply chain_se; eauto.
  - destruct IHseg as (e & s & ->). cbn. eauto.
  - destruct IHseg as (e & s & ->). cbn. eauto.
Qed.

(** Priorities do not decrease from the top of a segment downwards. *)
Definition lowest (so : list op) : Prop :=
  match so with [] => True | o :: r => Forall (fun x => priority o <= priority x) r end.

Lemma lowest_app : forall a o b q,
  lowest a -> Forall (fun x => priority x <= q) a -> priority o = q ->
  Forall (fun x => q <= priority x) b -> lowest (a ++ o :: b).
Proof.
  intros a o b q Ha Hb Ho Hq. destruct a as [|x a]; cbn in *.
  - rewrite Ho. exact Hq.
  - inversion Hb; subst. apply Forall_app. split; [exact Ha|].
    constructor; [lia|]. eapply Forall_impl; [|exact Hq]. cbn. intros; lia.
Qed.

Lemma seg_lowest : forall b q so se t, seg b q so se t -> lowest so.
Proof.
  induction 1.
  - exact I.
  - eapply lowest_app with (q := priority o); auto.
    + eapply Forall_impl; [|eassumption]. cbn. intros; lia.
    + eapply Forall_impl; [|eapply chain_prio; eassumption]. cbn. intros; lia.
  - cbn. eapply Forall_impl; [|eapply chain_prio; eassumption]. cbn. intros; lia.
  - destruct pres as [|p pres]; [congruence|]. inversion H0; subst.
    eapply lowest_app with (q := 2); auto.
    + eapply Forall_impl; [|eassumption]. cbn. intros; lia.
    + apply H5.
    + eapply Forall_impl; [|eassumption]. unfold lpre. cbn. intros; lia.
  - eapply lowest_app with (q := 15); auto. apply H.
  - eapply lowest_app with (q := 13); auto.
    apply Forall_app. split.
    + eapply Forall_impl; [|eapply mid_prio; eassumption]. cbn. intros; lia.
    + constructor; [cbn; lia|].
      eapply Forall_impl; [|eapply chain_prio; eassumption]. cbn. intros; lia.
Qed.

Lemma seg_weaken : forall b q so se t, seg b q so se t -> forall q', q <= q' -> seg b q' so se t.
Proof.
  intros b q so se t H. destruct H; intros q'' Hq.
  - constructor.
  - eapply S_bin; eauto. lia.
  - eapply S_post; eauto. lia.
  - eapply S_pre; eauto.
  - eapply S_asg; eauto. lia.
  - eapply S_cond; eauto. lia.
Qed.

Lemma chain_seg : forall b q so se t, chain q so se t -> seg b q so se t.
Proof.
  intros b q so se t H. destruct H.
  - constructor.
  - subst q. change (o :: so) with ([] ++ o :: so). change (r :: se) with ([r] ++ se).
    assert (0 < priority o) by (destruct o; cbn; lia).
    eapply S_bin with (k := 0); eauto. constructor.
  - subst q. eapply S_post; eauto.
Qed.

(** A segment all of whose operators sit on one left-associative level is a chain. *)
Lemma seg_chain : forall b k so se t,
  seg b k so se t -> forall q,
  Forall (fun o => priority o = q /\ adhere o = 1 /\ right_to_left o = false) so ->
  chain q so se t.
Proof.
  intros b k so se t H. destruct H; intros q0 Hf.
  - constructor.
  - apply Forall_app in Hf. destruct Hf as [Hf1 Hf2]. inversion Hf2 as [|? ? (Hp & _ & _) Hf3]; subst.
    destruct so' as [|x so'].
    + apply seg_nil in H2. subst se'. cbn. apply C_bin; auto.
    + exfalso. inversion Hf1 as [|? ? (Hq & _) _]; subst. inversion H4; subst. lia.
  - inversion Hf as [|? ? (Hp & _) _]; subst. apply C_post; auto.
  - exfalso. apply Forall_app in Hf. destruct Hf as [_ Hf2].
    destruct pres as [|p pres]; [congruence|]. inversion Hf2; subst. inversion H0; subst.
    unfold lpre in *. lia.
  - exfalso. apply Forall_app in Hf. destruct Hf as [_ Hf2]. inversion Hf2 as [|? ? (_ & _ & E) _]; subst.
    unfold lasg in *. destruct H as (_ & _ & E' & _). congruence.
  - exfalso. apply Forall_app in Hf. destruct Hf as [_ Hf2]. inversion Hf2 as [|? ? (_ & _ & E) _]; subst. discriminate.
Qed.

Lemma lt_of : forall x q, priority x = q -> priority x < q -> False.
Proof. intros; lia. Qed.

Lemma seg_mid : forall b k so se t,
  seg b k so se t -> b = true -> Forall (fun o => priority o = 13) so -> mid so se t.
Proof.
  induction 1; intros Hb Hf.
  - apply M_chain. constructor.
  - apply Forall_app in Hf. destruct Hf as [Hf1 Hf2]. inversion Hf2 as [|? ? Hp _]; subst.
    destruct so' as [|x so'].
    + apply seg_nil in H2. subst se'. cbn. apply M_chain. rewrite <- Hp. apply C_bin; auto.
    + exfalso. inversion Hf1 as [|? ? Hq _]; subst. inversion H4; subst. lia.
  - inversion Hf as [|? ? Hp _]; subst. apply M_chain. rewrite <- Hp. apply C_post; auto.
  - exfalso. apply Forall_app in Hf. destruct Hf as [_ Hf2].
    destruct pres as [|p pres]; [congruence|]. inversion Hf2; subst. inversion H0; subst.
    unfold lpre in *. lia.
  - exfalso. apply Forall_app in Hf. destruct Hf as [_ Hf2]. inversion Hf2; subst.
    unfold lasg in *. lia.
  - specialize (H2 Hb). subst sm. apply mid_nil in H1. subst em. cbn.
    apply Forall_app in Hf. destruct Hf as [Hf1 Hf2]. apply M_cond; auto.
Qed.

(** *** Reductions *)

Ltac ground1 :=
  change (Nat.ltb 1 2) with true; change (Nat.ltb 0 1) with true;
  change (Nat.ltb 1 1) with false; change (Nat.eqb 2 1) with false;
  change (Nat.eqb 1 1) with true; cbv iota.
Ltac ground2 := cbn [arity adhere]; ground1.


Lemma bind_ok : forall A B (a : A) (f : A -> res B), bind (Ok a) f = f a.
Proof. reflexivity. Qed.

Lemma reset_after : forall B E r, (B = [] -> r <= 0)%Z ->
  exists r', reset_rp (mk B E r) = mk B E r' /\ after B r'.
Proof. intros [|b B] E r H; cbn; eauto. Qed.

Lemma absorb_no : forall o b B, okb (priority o) (b :: B) ->
  negb (Nat.ltb (priority o) (priority b)) && negb (right_to_left b) = false.
Proof.
  intros o b B [H|H].
  - apply Nat.ltb_lt in H. rewrite H. reflexivity.
  - rewrite H. apply andb_false_r.
Qed.

Lemma absorb_yes : forall o b, priority o = priority b -> right_to_left b = false ->
  negb (Nat.ltb (priority o) (priority b)) && negb (right_to_left b) = true.
Proof. intros o b H1 H2. rewrite H1, Nat.ltb_irrefl, H2. reflexivity. Qed.

Lemma build2_lbin : forall o l r, lbin o -> build2 o l r = Ok (EBin o l r).
Proof. intros o l r (H1 & H2 & H3 & H4 & H5). destruct o; cbn in *; congruence. Qed.
Lemma build2_lasg : forall o l r, lasg o -> build2 o l r = Ok (EBin o l r).
Proof. intros o l r (H1 & H2 & H3 & H4 & H5 & H6 & _). destruct o; cbn in *; congruence. Qed.

Lemma chain_head_l2r : forall q o so se t, chain q (o :: so) se t ->
  right_to_left o = false /\ priority o = q.
Proof.
  intros q o so se t H. inversion H; subst.
  - match goal with h : lbin _ |- _ => destruct h as (?&?&?&?) end. auto.
  - match goal with h : lpost _ |- _ => destruct h as (?&?&?) end. auto.
Qed.

Lemma chain_collapse : forall q so se t, chain q so se t ->
  forall o so1, so = o :: so1 -> forall B E r n,
  okb q B -> (r <= 0)%Z -> 2 * length (so1 ++ B) < n ->
  exists r', combine1 n o (mk (so1 ++ B) (se ++ E) r) = Ok (t, mk B E r') /\ after B r'.
Proof.
  induction 1 as [t | so se l o r Hc IH Hb Hp | so se l o Hc IH Hb Hp];
    intros o' so1 E1 B E rr n Hok Hr Hn; [discriminate| |]; injection E1 as <- <-.
  - destruct n as [|f]; [lia|]. cbn [combine1].
    destruct Hb as (Ha & Hh & Hl & Hpar & Hcm).
    rewrite Ha, Hh. ground1. unfold pop_expression at 1. cbn [exps ops rp app].
    rewrite bind_ok. cbn [ops].
    destruct so as [|x so]; cbn [app].
    + apply chain_nil in Hc. subst se. destruct B as [|b B].
      * cbn [pop_expression exps ops rp app bind]. unfold combine_binary.
        rewrite build2_lbin by (repeat split; auto). cbn. eauto.
      * rewrite Hpar. rewrite (absorb_no o b B) by (rewrite Hp; exact Hok).
        cbn [pop_expression exps ops rp app bind]. unfold combine_binary.
        rewrite build2_lbin by (repeat split; auto). cbn. eauto.
    + destruct (chain_head_l2r _ _ _ _ _ Hc) as [Hx1 Hx2].
      rewrite Hpar, (absorb_yes o x) by congruence. cbn [exps rp].
      cbn [app length] in Hn.
      destruct (IH x so eq_refl B E rr f Hok Hr ltac:(lia)) as (r' & E1 & E2).
      rewrite E1, bind_ok. unfold combine_binary. rewrite build2_lbin by (repeat split; auto).
      rewrite bind_ok.
      destruct (reset_after B E r') as (r2 & -> & ?); [intros ->; exact E2|]. eauto.
  - destruct n as [|f]; [lia|]. cbn [combine1].
    destruct Hb as (Ha & Hh & Hl).
    rewrite Ha, Hh. ground1. cbn [exps ops rp].
    destruct so as [|x so]; cbn [app].
    + apply chain_nil in Hc. subst se. destruct B as [|b B].
      * cbn [pop_expression exps ops rp app bind]. unfold combine_unary. cbn. eauto.
      * rewrite (absorb_no o b B) by (rewrite Hp; exact Hok).
        cbn [pop_expression exps ops rp app bind]. unfold combine_unary. cbn. eauto.
    + destruct (chain_head_l2r _ _ _ _ _ Hc) as [Hx1 Hx2].
      rewrite (absorb_yes o x) by congruence.
      cbn [app length] in Hn.
      destruct (IH x so eq_refl B E rr f Hok Hr ltac:(lia)) as (r' & E1 & E2).
      rewrite E1, bind_ok. unfold combine_unary.
      destruct (reset_after B E r') as (r2 & -> & ?); [intros ->; exact E2|]. eauto.
Qed.

Lemma qmark_collapse : forall sc ec c m y B E r n,
  chain 13 sc ec c -> okb 13 B -> (r <= 0)%Z -> 2 * length (sc ++ B) < n ->
  exists r', combine1 n OQMark (mk (sc ++ B) (EBin OQColon m y :: ec ++ E) r)
             = Ok (ECond c m y, mk B E r') /\ after B r'.
Proof.
  intros sc ec c m y B E r n Hc Hok Hr Hn.
  destruct n as [|f]; [lia|]. cbn [combine1].
  ground2. unfold pop_expression at 1. cbn [exps ops rp].
  rewrite bind_ok. cbn [ops parent_op].
  destruct sc as [|x sc]; cbn [app].
  - apply chain_nil in Hc. subst ec. destruct B as [|b B].
    + cbn. eauto.
    + rewrite (absorb_no OQMark b B) by exact Hok. cbn. eauto.
  - destruct (chain_head_l2r _ _ _ _ _ Hc) as [Hx1 Hx2].
    rewrite (absorb_yes OQMark x) by (try (rewrite Hx2; reflexivity); congruence).
    cbn [app length] in Hn.
    destruct (chain_collapse _ _ _ _ Hc x sc eq_refl B E r f Hok Hr ltac:(lia)) as (r' & E1 & E2).
    cbn [exps rp]. rewrite E1, bind_ok. unfold combine_binary. cbn [build2]. rewrite bind_ok.
    destruct (reset_after B E r') as (r2 & -> & ?); [intros ->; exact E2|]. eauto.
Qed.

(** [:] directly above its [?]. *)
Lemma qcolon_direct : forall sc ec c m y B E r n,
  chain 13 sc ec c -> okb 13 B -> 2 * length (OQMark :: sc ++ B) < n ->
  exists r', combine1 n OQColon (mk (OQMark :: sc ++ B) (y :: m :: ec ++ E) r)
             = Ok (ECond c m y, mk B E r') /\ after B r'.
Proof.
  intros sc ec c m y B E r n Hc Hok Hn.
  destruct n as [|f]; [lia|]. cbn [combine1].
  ground2. unfold pop_expression at 1. cbn [exps ops rp].
  rewrite bind_ok. cbn [ops parent_op].
  destruct (op_eq_dec OQMark OQMark); [|congruence].
  cbn [pop_expression exps ops rp bind combine_binary build2 reset_rp push_expression
       right_places arity adhere Z.of_nat Pos.of_succ_nat Pos.succ Z.sub Z.add Z.opp Z.leb Z.compare
       Z.pos_sub Pos.pred_double Pos.compare Pos.compare_cont].
  cbn [length] in Hn.
  apply qmark_collapse; auto; lia.
Qed.

Lemma okb_r2l : forall q b B, right_to_left b = true -> okb q (b :: B).
Proof. intros; right; auto. Qed.

Lemma mid_loop : forall so se t, mid so se t -> so <> [] ->
  forall B E r n, (r <= 0)%Z -> 2 * length (so ++ B) < n ->
  (forall B1, B = OQMark :: B1 ->
     combine_loop n OQMark (mk (so ++ B) (se ++ E) r) = Ok (t, mk B E 1)) /\
  (forall B1, B = OQColon :: B1 -> exists n', 2 * length B < n' /\
     combine_loop n OQMark (mk (so ++ B) (se ++ E) r) = combine_loop n' OQMark (mk B (t :: E) 0)).
Proof.
  induction 1 as [so se t Hc | sc ec c sy ey y m Hc Hm IH]; intros Hne B E r n Hr Hn.
  - destruct so as [|x so]; [congruence|]. destruct n as [|f]; [lia|].
    cbn [app length] in Hn.
    split; intros B1 EB; subst B.
    + destruct (chain_collapse _ _ _ _ Hc x so eq_refl (OQMark :: B1) E r f
                  (okb_r2l 13 OQMark B1 eq_refl) Hr ltac:(lia)) as (r' & E1 & E2).
      cbn [combine_loop app ops exps rp]. rewrite E1, bind_ok. cbn [ops].
      destruct (op_eq_dec OQMark OQMark); [|congruence]. rewrite E2. reflexivity.
    + destruct (chain_collapse _ _ _ _ Hc x so eq_refl (OQColon :: B1) E r f
                  (okb_r2l 13 OQColon B1 eq_refl) Hr ltac:(lia)) as (r' & E1 & E2).
      exists f. rewrite app_length in Hn. split; [lia|].
      cbn [combine_loop app ops exps rp]. rewrite E1, bind_ok. cbn [ops].
      destruct (op_eq_dec OQColon OQMark); [discriminate|]. rewrite E2. reflexivity.
  - assert (H : exists n2 r2, (r2 <= 0)%Z /\ 2 * length (OQColon :: OQMark :: sc ++ B) < n2 /\
      combine_loop n OQMark (mk ((sy ++ OQColon :: OQMark :: sc) ++ B) ((ey ++ m :: ec) ++ E) r) =
      combine_loop n2 OQMark (mk (OQColon :: OQMark :: sc ++ B) (y :: m :: ec ++ E) r2)).
    { destruct sy as [|x sy].
      - apply mid_nil in Hm. subst ey. exists n, r. cbn [app] in *. auto.
      - destruct (IH ltac:(discriminate) (OQColon :: OQMark :: sc ++ B) (m :: ec ++ E) r n Hr) as [_ H2].
        + rewrite <- !app_assoc in Hn. exact Hn.
        + destruct (H2 _ eq_refl) as (n' & Hn' & Eq). exists n', 0%Z.
          split; [lia|]. split; [exact Hn'|]. rewrite <- Eq. rewrite <- !app_assoc. reflexivity. }
    destruct H as (n2 & r2 & Hr2 & Hn2 & ->). clear Hn Hr r n.
    destruct n2 as [|f]; [lia|].
    assert (Hq : forall b B1, B = b :: B1 -> right_to_left b = true ->
      exists r', combine1 f OQColon (mk (OQMark :: sc ++ B) (y :: m :: ec ++ E) r2)
             = Ok (ECond c m y, mk B E r') /\ after B r').
    { intros b B1 EB Hb. subst B. apply qcolon_direct; auto.
      - apply okb_r2l; auto.
      - cbn [length] in *. lia. }
    split; intros B1 EB; subst B.
    + destruct (Hq _ _ eq_refl eq_refl) as (r' & E1 & E2).
      cbn [combine_loop app ops exps rp]. rewrite E1, bind_ok. cbn [ops].
      destruct (op_eq_dec OQMark OQMark); [|congruence]. rewrite E2. reflexivity.
    + destruct (Hq _ _ eq_refl eq_refl) as (r' & E1 & E2).
      exists f. cbn [length] in Hn2. rewrite app_length in Hn2. split; [cbn [length] in *; lia|].
      cbn [combine_loop app ops exps rp]. rewrite E1, bind_ok. cbn [ops].
      destruct (op_eq_dec OQColon OQMark); [discriminate|]. rewrite E2. reflexivity.
Qed.

Lemma push_after : forall B E r e, hungry B -> after B r ->
  exists r', push_expression e (mk B E r) = Ok (mk B (e :: E) r') /\ (r' <= 0)%Z.
Proof.
  intros [|b B] E r e Hh Ha; cbn in *.
  - eexists; split; [reflexivity|lia].
  - subst r. rewrite Hh. cbn. eexists; split; [reflexivity|lia].
Qed.

Definition suffix (a b : list op) : Prop := exists x, b = x ++ a.

(** What one call of [combine_until] does to a pending segment. *)
Definition progress (b : bool) (k : nat) (so : list op) (t : expr) (q : nat)
    (B : list op) (E : list expr) (n : nat) (s : stacks) : Prop :=
  exists so2 se2 r2 n2,
    combine_until n q s = combine_until n2 q (mk (so2 ++ B) (se2 ++ E) r2) /\
    suffix so2 so /\ seg b k so2 se2 t /\
    (match so2 with [] => True | x :: _ => q <= priority x end) /\
    (r2 <= 0)%Z /\ 2 * length (so2 ++ B) < n2.

Lemma progress_stop : forall b k so se t q B E n r,
  seg b k so se t -> (match so with [] => True | x :: _ => q <= priority x end) ->
  (r <= 0)%Z -> 2 * length (so ++ B) < n ->
  progress b k so t q B E n (mk (so ++ B) (se ++ E) r).
Proof.
  intros. exists so, se, r, n. repeat split; auto. exists []. reflexivity.
Qed.

Lemma until_step : forall f q o R E r e B E' r',
  priority o < q -> combine1 f o (mk R E r) = Ok (e, mk B E' r') -> hungry B -> after B r' ->
  exists r2, combine_until (S f) q (mk (o :: R) E r) = combine_until f q (mk B (e :: E') r2) /\
             (r2 <= 0)%Z.
Proof.
  intros f q o R E r e B E' r' Hq H1 Hh Ha.
  destruct (push_after B E' r' e Hh Ha) as (r2 & H2 & H3).
  exists r2. split; auto. cbn [combine_until ops exps rp].
  apply Nat.ltb_lt in Hq. rewrite Hq, H1, bind_ok, H2, bind_ok. reflexivity.
Qed.

Lemma hungry_cons : forall o B, arity o = 2 -> adhere o = 1 -> hungry (o :: B).
Proof. intros o B H1 H2. cbn. unfold right_places. rewrite H1, H2. reflexivity. Qed.

Lemma suffix_app : forall a b c, suffix a b -> suffix (a ++ c) (b ++ c).
Proof. intros a b c (x & ->). exists x. apply app_assoc_reverse. Qed.

Lemma suffix_Forall : forall P a b, suffix a b -> Forall P b -> Forall P a.
Proof. intros P a b (x & ->) H. apply Forall_app in H. tauto. Qed.

Lemma suffix_nil : forall b, suffix [] b.
Proof. intros b. exists b. symmetry. apply app_nil_r. Qed.

Lemma suffix_length : forall a b, suffix a b -> length a <= length b.
Proof. intros a b (x & ->). rewrite app_length. lia. Qed.

(** Finishing: the whole segment reduces to one expression. *)
Lemma progress_done : forall b k so t q B E n s r n2,
  combine_until n q s = combine_until n2 q (mk B (t :: E) r) ->
  (r <= 0)%Z -> 2 * length B < n2 -> progress b k so t q B E n s.
Proof.
  intros b k so t q B E n s r n2 H1 H2 H3.
  exists [], [t], r, n2. repeat split; auto using suffix_nil. constructor.
Qed.

Lemma progress_trans : forall b k so t q B E n s n2 s2 ,
  combine_until n q s = combine_until n2 q s2 ->
  progress b k so t q B E n2 s2 -> progress b k so t q B E n s.
Proof.
  intros b k so t q B E n s n2 s2 H (a & c & d & e & H1 & H2).
  exists a, c, d, e. rewrite H. auto.
Qed.

Lemma pre_collapse : forall pres B E e r q n,
  Forall lpre pres -> hungry B -> (r <= 0)%Z -> 2 < q -> 2 * length (pres ++ B) < n ->
  exists r2 n2,
    combine_until n q (mk (pres ++ B) (e :: E) r) =
    combine_until n2 q (mk B (fold_left (fun e o => EUn o e) pres e :: E) r2) /\
    (r2 <= 0)%Z /\ 2 * length B < n2.
Proof.
  induction pres as [|o pres IH]; intros B E e r q n Hp Hh Hr Hq Hn.
  - exists r, n. auto.
  - inversion Hp as [|? ? Ho Hp']; subst. destruct Ho as (Ha & Hd & Hpr).
    destruct n as [|f]; [lia|]. cbn [app length] in Hn.
    assert (Hh' : hungry (pres ++ B)).
    { destruct pres as [|p pres]; [exact Hh|]. inversion Hp' as [|? ? Hp1 _]; subst.
      destruct Hp1 as (P1 & P2 & _). cbn. unfold right_places. rewrite P1, P2. reflexivity. }
    destruct (reset_after (pres ++ B) E r) as (r1 & Er & Hr1); [auto|].
    destruct (until_step f q o (pres ++ B) (e :: E) r (EUn o e) (pres ++ B) E r1) as (r2 & E2 & Hr2); auto.
    + lia.
    + destruct f as [|f]; [lia|]. cbn [combine1]. rewrite Ha, Hd. ground1.
      unfold pop_expression. cbn [exps ops rp]. rewrite bind_ok. unfold combine_unary.
      rewrite Er. reflexivity.
    + destruct (IH B E (EUn o e) r2 q f Hp' Hh Hr2 Hq ltac:(lia)) as (r3 & n3 & E3 & H3).
      exists r3, n3. cbn [app fold_left]. rewrite E2. auto.
Qed.

Lemma seg_until : forall b k so se t, seg b k so se t ->
  forall q B E r n, okb k B -> hungry B -> (r <= 0)%Z -> 2 * length (so ++ B) < n ->
  progress b k so t q B E n (mk (so ++ B) (se ++ E) r).
Proof.
  induction 1 as [b k t | b k so se l o k' so' se' r Hc Hb Hk Hs IH Hk' Hf
    | b k so se l o Hc Hb Hk | b k so pres se t Hs IH Hp Hne Hf
    | b k o l so se r Ho Hk Hs IH Hf
    | b k sc ec c sm em m sy ey y Hk Hc Hm Hbm Hs IH Hf];
    intros q B E rr n Hok Hh Hr Hn.
  - apply (progress_stop b k [] [t] t); auto. constructor.
  - (* left-associative binary *)
    rewrite <- !app_assoc in *. cbn [app] in *.
    destruct (IH q (o :: so ++ B) (se ++ E) rr n) as (so2 & se2 & r2 & n2 & E1 & Hsf & Hs2 & Hhd & Hr2 & Hn2); auto.
    { left. exact Hk'. }
    { apply hungry_cons; apply Hb. }
    assert (Hf2 : Forall (fun x => priority x < priority o) so2) by (eapply suffix_Forall; eauto).
    destruct so2 as [|x so2].
    + apply seg_nil in Hs2. subst se2. cbn [app] in *.
      destruct (le_lt_dec q (priority o)) as [Hq|Hq].
      * exists (o :: so), (r :: se), r2, n2. split; [exact E1|].
        split; [exists so'; reflexivity|].
        split; [eapply seg_weaken; [apply chain_seg; apply C_bin; eauto|exact Hk]|auto].
      * destruct n2 as [|f]; [lia|].
        destruct (chain_collapse (priority o) (o :: so) (r :: se) (EBin o l r)
                    (C_bin _ _ _ _ _ _ Hc Hb eq_refl) o so eq_refl B E r2 f)
          as (r3 & E3 & H3); auto.
        { destruct B as [|b0 B]; [exact I|]. destruct Hok as [Hok|Hok]; [left; lia|right; auto]. }
        { cbn [length] in Hn2. lia. }
        destruct (until_step f q o (so ++ B) (r :: se ++ E) r2 _ B E r3 Hq E3 Hh H3) as (r4 & E4 & H4).
        eapply progress_done with (r := r4) (n2 := f); auto.
        { rewrite E1. exact E4. }
        { cbn [length] in Hn2. rewrite app_length in Hn2. lia. }
    + exists ((x :: so2) ++ o :: so), (se2 ++ se), r2, n2.
      split; [rewrite E1, <- !app_assoc; reflexivity|].
      split; [apply suffix_app; auto|].
      split; [eapply S_bin; eauto|]. cbn [app]. split; [exact Hhd|]. split; auto.
      rewrite <- app_assoc. exact Hn2.
  - (* postfix *)
    destruct (le_lt_dec q (priority o)) as [Hq|Hq].
    + apply progress_stop; auto. eapply S_post; eauto.
    + destruct n as [|f]; [lia|]. cbn [app length] in *.
      destruct (chain_collapse (priority o) (o :: so) se (EUn o l)
                  (C_post _ _ _ _ _ Hc Hb eq_refl) o so eq_refl B E rr f)
        as (r3 & E3 & H3); auto; try lia.
      { destruct B as [|b0 B]; [exact I|]. destruct Hok as [Hok|Hok]; [left; lia|right; auto]. }
      destruct (until_step f q o (so ++ B) (se ++ E) rr _ B E r3 Hq E3 Hh H3) as (r4 & E4 & H4).
      eapply progress_done with (r := r4) (n2 := f); auto.
      rewrite app_length in Hn. lia.
  - (* prefix *)
    rewrite <- !app_assoc in *.
    destruct (IH q (pres ++ B) E rr n) as (so2 & se2 & r2 & n2 & E1 & Hsf & Hs2 & Hhd & Hr2 & Hn2); auto.
    { destruct pres as [|p pres]; [congruence|]. inversion Hp as [|? ? P _]; subst. left.
      unfold lpre in P. lia. }
    { destruct pres as [|p pres]; [congruence|]. inversion Hp as [|? ? P _]; subst.
      destruct P as (P1 & P2 & _). cbn. unfold right_places. rewrite P1, P2. reflexivity. }
    assert (Hf2 : Forall (fun x => priority x < 2) so2) by (eapply suffix_Forall; eauto).
    destruct (le_lt_dec q 2) as [Hq|Hq].
    + exists (so2 ++ pres), se2, r2, n2. split; [rewrite E1, <- app_assoc; reflexivity|].
      split; [apply suffix_app; auto|]. split; [eapply S_pre; eauto|].
      rewrite <- app_assoc. split; auto. destruct so2 as [|x so2]; cbn [app].
      * destruct pres as [|p pres]; [exact I|]. inversion Hp as [|? ? P _]; subst. unfold lpre in P. lia.
      * exact Hhd.
    + destruct so2 as [|x so2]; [|inversion Hf2; subst; lia].
      apply seg_nil in Hs2. subst se2. cbn [app] in *.
      destruct (pre_collapse pres B E t r2 q n2 Hp Hh Hr2 Hq Hn2) as (r3 & n3 & E3 & H3 & H4).
      eapply progress_done with (r := r3) (n2 := n3); auto. rewrite E1. exact E3.
  - (* assignment *)
    rewrite <- !app_assoc in *. cbn [app] in *.
    destruct Ho as (Ha & Hd & Hr2l & Hpar & Hnq & Hnc & Hpr).
    destruct (IH q (o :: B) (l :: E) rr n) as (so2 & se2 & r2 & n2 & E1 & Hsf & Hs2 & Hhd & Hr2 & Hn2); auto.
    { right. exact Hr2l. }
    { apply hungry_cons; auto. }
    assert (Hf2 : Forall (fun x => priority x <= 15) so2) by (eapply suffix_Forall; eauto).
    assert (Ho : lasg o) by (repeat split; auto).
    destruct so2 as [|x so2].
    + apply seg_nil in Hs2. subst se2. cbn [app] in *.
      destruct (le_lt_dec q 15) as [Hq|Hq].
      * exists [o], [r; l], r2, n2. split; [exact E1|]. split; [exists so; reflexivity|].
        split; [apply (S_asg b k o l [] [r] r); auto; constructor|]. split; [lia|auto].
      * destruct n2 as [|f]; [lia|].
        assert (E3 : exists r3, combine1 f o (mk B (r :: l :: E) r2) = Ok (EBin o l r, mk B E r3) /\ after B r3).
        { destruct f as [|f]; [cbn [length] in Hn2; lia|]. cbn [combine1]. rewrite Ha, Hd.
          ground1. unfold pop_expression at 1. cbn [exps ops rp].
          rewrite bind_ok. cbn [ops]. rewrite Hpar.
          destruct (reset_after B E r2) as (r3 & E3 & H3); [auto|].
          exists r3. split; [|exact H3].
          assert (Hx : (do (l0, s2) <- pop_expression (mk B (l :: E) r2); combine_binary o l0 r s2)
                       = Ok (EBin o l r, mk B E r3)).
          { cbn [pop_expression exps ops rp bind]. unfold combine_binary.
            rewrite build2_lasg by exact Ho. rewrite bind_ok, E3. reflexivity. }
          destruct B as [|b0 B]; [exact Hx|].
          rewrite (absorb_no o b0 B); [exact Hx|].
          destruct Hok as [Hok|Hok]; [left; lia|right; auto]. }
        destruct E3 as (r3 & E3 & H3).
        destruct (until_step f q o B (r :: l :: E) r2 _ B E r3 ltac:(lia) E3 Hh H3) as (r4 & E4 & H4).
        eapply progress_done with (r := r4) (n2 := f); auto.
        { rewrite E1. exact E4. }
        { cbn [length] in Hn2. lia. }
    + exists ((x :: so2) ++ [o]), (se2 ++ [l]), r2, n2.
      split; [rewrite E1, <- !app_assoc; reflexivity|].
      split; [apply suffix_app; auto|].
      split; [eapply S_asg; eauto|]. cbn [app]. split; [exact Hhd|]. split; auto.
      rewrite <- app_assoc. exact Hn2.
  - (* conditional *)
    rewrite <- !app_assoc in *. cbn [app] in *. rewrite <- !app_assoc in *. cbn [app] in *.
    destruct (IH q (OQColon :: sm ++ OQMark :: sc ++ B) (em ++ ec ++ E) rr n)
      as (so2 & se2 & r2 & n2 & E1 & Hsf & Hs2 & Hhd & Hr2 & Hn2); auto.
    { right. reflexivity. }
    { reflexivity. }
    assert (Hf2 : Forall (fun x => priority x <= 13) so2) by (eapply suffix_Forall; eauto).
    assert (Hk13 : okb 13 B).
    { destruct B as [|b0 B]; [exact I|]. destruct Hok as [Hok|Hok]; [left; lia|right; auto]. }
    destruct so2 as [|x so2].
    + apply seg_nil in Hs2. subst se2. cbn [app] in *.
      destruct (le_lt_dec q 13) as [Hq|Hq].
      * exists (OQColon :: sm ++ OQMark :: sc), (y :: em ++ ec), r2, n2.
        split; [rewrite E1; cbn [app]; rewrite <- !app_assoc; reflexivity|].
        split; [exists sy; reflexivity|].
        split; [apply (S_cond b k sc ec c sm em m [] [y] y); auto; constructor|].
        cbn [app]. rewrite <- app_assoc. split; [exact Hq|auto].
      * destruct n2 as [|f]; [lia|].
        destruct sm as [|x sm].
        -- apply mid_nil in Hm. subst em. cbn [app] in *.
           destruct (qcolon_direct sc ec c m y B E r2 f Hc Hk13) as (r3 & E3 & H3).
           { cbn [length] in *. lia. }
           destruct (until_step f q OQColon _ _ r2 _ B E r3 ltac:(cbn; lia) E3 Hh H3) as (r4 & E4 & H4).
           eapply progress_done with (r := r4) (n2 := f); auto.
           { rewrite E1. exact E4. }
           { cbn [length] in Hn2. rewrite app_length in Hn2. lia. }
        -- destruct f as [|f]; [cbn [length] in Hn2; lia|].
           destruct (mid_loop (x :: sm) em m Hm ltac:(discriminate) (OQMark :: sc ++ B) (ec ++ E) r2 f Hr2)
             as [Hl _].
           { cbn [length] in Hn2. lia. }
           specialize (Hl _ eq_refl).
           assert (E3 : combine1 (S f) OQColon (mk ((x :: sm) ++ OQMark :: sc ++ B) (y :: em ++ ec ++ E) r2)
                        = Ok (EBin OQColon m y, mk (OQMark :: sc ++ B) (ec ++ E) 1)).
           { cbn [combine1]. ground2.
             unfold pop_expression at 1. cbn [exps ops rp]. rewrite bind_ok. cbn [ops parent_op app].
             assert (Hx : OQMark <> x).
             { clear -Hm. intros <-.
               inversion Hm as [? ? ? Hc|? ? ? sy2 ? ? ? ? Hm2 Eq1]; subst.
               - apply chain_head_l2r in Hc. destruct Hc as [Hc _]. discriminate.
               - clear -Hm2 Eq1. revert Eq1. generalize sc. clear sc. intros sc Eq1.
                 assert (Hg : forall so se t, mid so se t -> forall z, so <> OQMark :: z).
                 { clear. induction 1 as [so se t Hc|sc ec c sy ey y m Hc Hm IH]; intros z E.
                   - subst so. apply chain_head_l2r in Hc. destruct Hc as [Hc _]. discriminate.
                   - destruct sy as [|w sy]; cbn [app] in E; [discriminate|].
                     injection E as -> _. eapply IH; reflexivity. }
                 destruct sy2 as [|w sy2]; cbn [app] in Eq1; [discriminate|].
                 injection Eq1 as -> _. eapply Hg; eauto. }
             destruct (op_eq_dec OQMark x); [contradiction|].
             cbn [app] in Hl. rewrite Hl, bind_ok. reflexivity. }
           destruct (until_step (S f) q OQColon _ _ r2 _ (OQMark :: sc ++ B) (ec ++ E) 1 ltac:(cbn; lia) E3
                       eq_refl eq_refl) as (r4 & E4 & H4).
           rewrite E4 in E1.
           destruct (qmark_collapse sc ec c m y B E r4 f Hc Hk13 H4) as (r5 & E5 & H5).
           { cbn [length] in Hn2. rewrite !app_length in Hn2. cbn [length] in Hn2.
             rewrite !app_length in *. lia. }
           destruct (until_step f q OQMark _ _ r4 _ B E r5 ltac:(cbn; lia) E5 Hh H5) as (r6 & E6 & H6).
           eapply progress_done with (r := r6) (n2 := f); auto.
           { rewrite E1. exact E6. }
           { cbn [length] in Hn2. rewrite !app_length in Hn2. cbn [length] in Hn2.
             rewrite !app_length in *. lia. }
    + exists ((x :: so2) ++ OQColon :: sm ++ OQMark :: sc), (se2 ++ em ++ ec), r2, n2.
      split; [rewrite E1; rewrite <- !app_assoc; cbn [app]; rewrite <- !app_assoc; reflexivity|].
      split; [apply suffix_app; auto|].
      split; [eapply S_cond; eauto|]. cbn [app]. split; [exact Hhd|]. split; auto.
      cbn [app] in Hn2. rewrite <- app_assoc. cbn [app]. rewrite <- app_assoc. exact Hn2.
Qed.

(** *** Feeding tokens *)

Lemma push_op_seg : forall b k so se x o B E r,
  seg b k so se x -> okb k B -> hungry B -> (r <= 0)%Z ->
  adhere o = 1 -> 1 <= arity o ->
  match B with [] => True | y :: _ => priority o <= priority y end ->
  exists so2 se2,
    push_operator o (mk (so ++ B) (se ++ E) r) = Ok (mk (o :: so2 ++ B) (se2 ++ E) (right_places o)) /\
    suffix so2 so /\ seg b k so2 se2 x /\ Forall (fun y => priority o <= priority y) so2.
Proof.
  intros b k so se x o B E r Hs Hok Hh Hr Had Har HB.
  destruct (seg_until b k so se x Hs (priority o) B E r (fuel_of (mk (so ++ B) (se ++ E) r)) Hok Hh Hr)
    as (so2 & se2 & r2 & n2 & E1 & Hsf & Hs2 & Hhd & Hr2 & Hn2).
  { unfold fuel_of. cbn [ops]. lia. }
  exists so2, se2. split.
  - unfold push_operator.
    replace (Nat.ltb (arity o) (adhere o)) with false by (symmetry; apply Nat.ltb_ge; lia).
    destruct (seg_se _ _ _ _ _ Hs) as (e & se' & Ese).
    replace (Nat.ltb (length (exps (mk (so ++ B) (se ++ E) r))) (adhere o)) with false
      by (symmetry; apply Nat.ltb_ge; rewrite Ese; cbn; lia).
    cbn [rp]. replace (0 <? r)%Z with false by (symmetry; apply Z.ltb_ge; lia).
    cbn [andb]. rewrite E1.
    assert (E2 : combine_until n2 (priority o) (mk (so2 ++ B) (se2 ++ E) r2)
                 = Ok (mk (so2 ++ B) (se2 ++ E) r2)).
    { destruct n2 as [|f]; [lia|]. cbn [combine_until ops].
      destruct so2 as [|y so2]; cbn [app].
      - destruct B as [|y B]; [reflexivity|].
        replace (Nat.ltb (priority y) (priority o)) with false by (symmetry; apply Nat.ltb_ge; lia).
        reflexivity.
      - replace (Nat.ltb (priority y) (priority o)) with false by (symmetry; apply Nat.ltb_ge; lia).
        reflexivity. }
    rewrite E2, bind_ok. reflexivity.
  - split; auto. split; auto.
    pose proof (seg_lowest _ _ _ _ _ Hs2) as Hl. destruct so2 as [|y so2]; constructor; auto.
    cbn in Hl. eapply Forall_impl; [|exact Hl]. cbn. intros; lia.
Qed.

Lemma combine_all_seg : forall k so se t r,
  seg false k so se t -> (r <= 0)%Z -> combine_all (mk so se r) = Ok t.
Proof.
  intros k so se t r Hs Hr.
  destruct (seg_until false k so se t Hs 255 [] [] r (fuel_of (mk so se r)) I I Hr)
    as (so2 & se2 & r2 & n2 & E1 & Hsf & Hs2 & Hhd & Hr2 & Hn2).
  { unfold fuel_of. cbn [ops]. rewrite app_nil_r. lia. }
  rewrite !app_nil_r in *. unfold combine_all. rewrite E1.
  destruct so2 as [|y so2].
  - apply seg_nil in Hs2. subst se2. destruct n2 as [|f]; [lia|]. reflexivity.
  - exfalso. assert (priority y <= 15) by (destruct y; cbn; lia). lia.
Qed.

Lemma seg_flag : forall b q so se t, seg b q so se t ->
  Forall (fun o => right_to_left o = false) so -> forall b', seg b' q so se t.
Proof.
  intros b q so se t H Hf b'. destruct H.
  - constructor.
  - eapply S_bin; eauto.
  - eapply S_post; eauto.
  - eapply S_pre; eauto.
  - eapply S_asg; eauto.
  - exfalso. apply Forall_app in Hf. destruct Hf as [_ Hf]. inversion Hf; subst. discriminate.
Qed.

Definition key (nt : nonterminal) : nat :=
  match nt with
  | NAtom => 0 | NMember => 1 | NPost => 2 | NPre => 1 | NLevel n => n | NTest => 13 | NMid => 13
  end.
Definition bound (nt : nonterminal) : nat :=
  match nt with NPre => 2 | _ => key nt end.
Definition side (nt : nonterminal) (o : op) : Prop :=
  match nt with NPost => adhere o = 1 | NTest => right_to_left o = false | _ => True end.
Definition flag (nt : nonterminal) : bool := match nt with NMid => true | _ => false end.

Definition base (nt : nonterminal) (B : list op) : Prop :=
  match B with
  | [] => True
  | b :: _ => (key nt < priority b \/ right_to_left b = true) /\ bound nt <= priority b
  end.

Definition fits (nt : nonterminal) (so : list op) : Prop :=
  Forall (fun o => priority o <= bound nt /\ side nt o) so.

Definition start (B : list op) (r : Z) : Prop :=
  match B with [] => (r <= 0)%Z | _ => r = 1%Z end.

Definition feeds (nt : nonterminal) (ts : list token) (t : expr) : Prop :=
  forall B E r rest outer,
    start B r -> base nt B -> hungry B ->
    exists so se r',
      run (ts ++ rest) (mk B E r) outer = run rest (mk (so ++ B) (se ++ E) r') outer /\
      (r' <= 0)%Z /\ seg (flag nt) (key nt) so se t /\ fits nt so.

Lemma priority_range : forall o, 1 <= priority o <= 15.
Proof. destruct o; cbn; lia. Qed.

Lemma push_start : forall B E r e, start B r ->
  exists r', push_expression e (mk B E r) = Ok (mk B (e :: E) r') /\ (r' <= 0)%Z.
Proof.
  intros [|b B] E r e H; cbn in *.
  - eexists; split; [reflexivity|lia].
  - subst r. cbn. eexists; split; [reflexivity|lia].
Qed.

Lemma run_name : forall n rest s outer,
  run (TName n :: rest) s outer = do s1 <- push_expression (EName n) s; run rest s1 outer.
Proof. reflexivity. Qed.
Lemma run_op : forall o rest s outer,
  run (TOp o :: rest) s outer = do s1 <- push_operator o s; run rest s1 outer.
Proof. reflexivity. Qed.

Lemma base_okb : forall nt B, base nt B -> okb (key nt) B.
Proof. intros nt [|b B]; cbn; tauto. Qed.

Lemma fits_impl : forall nt nt' so, fits nt so ->
  (forall o, priority o <= bound nt -> side nt o -> priority o <= bound nt' /\ side nt' o) ->
  fits nt' so.
Proof. intros nt nt' so H Hi. eapply Forall_impl; [|exact H]. cbn. intros o [H1 H2]. auto. Qed.

Lemma base_impl : forall nt nt' B, base nt B -> key nt' <= key nt -> bound nt' <= bound nt ->
  base nt' B.
Proof. intros nt nt' [|b B] H H1 H2; cbn in *; auto. destruct H as [[H|H] H3]; split; auto; lia. Qed.

(** Passing to a looser nonterminal. *)
Lemma feeds_lift : forall nt nt' ts t, feeds nt ts t ->
  key nt <= key nt' -> bound nt <= bound nt' -> (flag nt = flag nt') ->
  (forall o, priority o <= bound nt -> side nt o -> side nt' o) ->
  feeds nt' ts t.
Proof.
  intros nt nt' ts t H Hk Hb Hf Hs B E r rest outer H1 H2 H3.
  destruct (H B E r rest outer H1 (base_impl _ _ _ H2 Hk Hb) H3) as (so & se & r' & E1 & Hr & Hg & Hfit).
  exists so, se, r'. repeat split; auto.
  - rewrite <- Hf. eapply seg_weaken; eauto.
  - eapply fits_impl; eauto. intros o Ho Hso. split; [lia|auto].
Qed.

Definition chainable (q : nat) (o : op) : Prop :=
  priority o = q -> adhere o = 1 /\ right_to_left o = false.

(** A left-associative step: [l o r]. *)
Lemma feeds_left : forall nt ntr q o l x r y,
  feeds nt l x -> feeds ntr r y -> lbin o -> priority o = q ->
  key nt = q -> bound nt = q -> side nt o -> flag nt = false -> flag ntr = false ->
  key ntr < q -> bound ntr < q ->
  (forall o', side nt o' -> chainable q o') ->
  (forall o', priority o' < q -> side nt o') ->
  feeds nt (l ++ TOp o :: r) (EBin o x y).
Proof.
  intros nt ntr q o l x r y Hl Hr Ho Hq Hk Hb Hsd Hf1 Hf2 Hk2 Hb2 Hch Hlow B E rr rest outer H1 H2 H3.
  destruct (Hl B E rr (TOp o :: r ++ rest) outer H1 H2 H3) as (so & se & r1 & E1 & Hr1 & Hg & Hfit).
  rewrite <- app_assoc. cbn [app]. rewrite E1, run_op.
  destruct (push_op_seg _ _ so se x o B E r1 Hg (base_okb _ _ H2) H3 Hr1) as (so2 & se2 & E2 & Hsf & Hg2 & Hp2).
  { apply Ho. }
  { destruct Ho as (-> & _). lia. }
  { destruct B as [|b B]; [exact I|]. destruct H2 as [_ H2]. lia. }
  rewrite E2, bind_ok.
  assert (Hall : Forall (fun o => priority o = q /\ adhere o = 1 /\ right_to_left o = false) so2).
  { apply (suffix_Forall _ _ _ Hsf) in Hfit. clear -Hfit Hp2 Hch Hq Hb.
    induction so2 as [|z so2 IH]; constructor.
    - inversion Hfit as [|? ? [P1 P2] _]; inversion Hp2; subst.
      assert (priority z = priority o) by lia. split; [assumption|]. apply Hch; auto.
    - apply IH; [inversion Hfit|inversion Hp2]; auto. }
  pose proof (seg_chain _ _ _ _ _ Hg2 q Hall) as Hc.
  destruct (Hr (o :: so2 ++ B) (se2 ++ E) (right_places o) rest outer) as (so3 & se3 & r3 & E3 & Hr3 & Hg3 & Hfit3).
  { cbn. unfold right_places. destruct Ho as (-> & -> & _). reflexivity. }
  { cbn. rewrite Hq. split; [left; lia|lia]. }
  { apply hungry_cons; apply Ho. }
  rewrite E3. exists (so3 ++ o :: so2), (se3 ++ se2), r3.
  split; [rewrite <- !app_assoc; reflexivity|]. split; [auto|]. split.
  - rewrite Hf2 in Hg3. subst q. eapply S_bin; eauto; try lia.
    eapply Forall_impl; [|exact Hfit3]. cbn. intros z [Hz _]. lia.
  - apply Forall_app. split.
    + eapply Forall_impl; [|exact Hfit3]. cbn. intros z [Hz _]. split; [lia|]. apply Hlow. lia.
    + constructor; [split; [lia|auto]|]. eapply suffix_Forall; eauto.
Qed.

Lemma infix_lbin : forall n o, In o (infix_at n) ->
  lbin o /\ priority o = n /\ 3 <= n /\ n <> 13 /\ n <> 15 /\
  (forall o', chainable n o').
Proof.
  intros n o H. unfold infix_at in H.
  do 15 (destruct n as [|n]; [
    cbn in H; repeat (destruct H as [H|H]; [subst o|]);
    try contradiction; repeat split; try reflexivity; try discriminate; try lia;
      try (intros o' Ho'; destruct o'; cbn in Ho'; try discriminate; split; reflexivity);
      try (unfold chainable in *; destruct o'; cbn in *; try discriminate; reflexivity) |]).
  cbn in H. contradiction.
Qed.

(** Reading [? m : ] after a condition. *)
Lemma feeds_cond : forall ntm nte b' c x m y e z,
  feeds NTest c x -> feeds ntm m y -> feeds nte e z ->
  key ntm <= 13 -> bound ntm <= 13 -> key nte = 13 -> bound nte = 13 -> flag nte = b' ->
  (flag ntm = true \/ bound ntm = 12) -> (b' = true -> bound ntm = 12) ->
  (forall o, priority o <= 13 -> side nte o) ->
  feeds nte (c ++ TOp OQMark :: m ++ TOp OQColon :: e) (ECond x y z).
Proof.
  intros ntm nte b' c x m y e z Hc Hm He Hk1 Hb1 Hk2 Hb2 Hfl Hm2 Hb' Hsd B E rr rest outer H1 H2 H3.
  assert (H2t : base NTest B).
  { eapply base_impl; [exact H2| |]; cbn; lia. }
  destruct (Hc B E rr (TOp OQMark :: m ++ TOp OQColon :: e ++ rest) outer H1 H2t H3)
    as (so & se & r1 & E1 & Hr1 & Hg & Hfit).
  replace ((c ++ TOp OQMark :: m ++ TOp OQColon :: e) ++ rest)
    with (c ++ TOp OQMark :: m ++ TOp OQColon :: e ++ rest)
    by (rewrite <- !app_assoc; cbn [app]; rewrite <- !app_assoc; reflexivity).
  rewrite E1, run_op.
  assert (HB13 : match B with [] => True | y :: _ => 13 <= priority y end).
  { destruct B as [|b B]; [exact I|]. destruct H2t as [_ H2t]. exact H2t. }
  destruct (push_op_seg _ _ so se x OQMark B E r1 Hg (base_okb _ _ H2t) H3 Hr1 eq_refl ltac:(cbn; lia) HB13)
    as (so2 & se2 & E2 & Hsf & Hg2 & Hp2).
  rewrite E2, bind_ok.
  assert (Hc2 : chain 13 so2 se2 x).
  { eapply seg_chain; [exact Hg2|]. apply (suffix_Forall _ _ _ Hsf) in Hfit. clear -Hfit Hp2.
    induction so2 as [|w so2 IH]; constructor.
    - inversion Hfit as [|? ? [P1 P2] _]; inversion Hp2; subst. cbn in *.
      split; [lia|]. split; [|auto]. destruct w; cbn in *; try lia; reflexivity.
    - apply IH; [inversion Hfit|inversion Hp2]; auto. }
  destruct (Hm (OQMark :: so2 ++ B) (se2 ++ E) (right_places OQMark) (TOp OQColon :: e ++ rest) outer)
    as (so3 & se3 & r3 & E3 & Hr3 & Hg3 & Hfit3).
  { reflexivity. }
  { cbn [base]. split; [right; reflexivity|exact Hb1]. }
  { reflexivity. }
  rewrite E3, run_op.
  destruct (push_op_seg _ _ so3 se3 y OQColon (OQMark :: so2 ++ B) (se2 ++ E) r3 Hg3
              ltac:(right; reflexivity) eq_refl Hr3 eq_refl ltac:(cbn; lia) ltac:(cbn; lia))
    as (so4 & se4 & E4 & Hsf4 & Hg4 & Hp4).
  rewrite E4, bind_ok.
  assert (Hmid : mid so4 se4 y /\ (bound ntm = 12 -> so4 = [])).
  { apply (suffix_Forall _ _ _ Hsf4) in Hfit3.
    assert (H12 : bound ntm = 12 -> so4 = []).
    { intros H12. destruct so4 as [|w so4]; auto. exfalso.
      inversion Hfit3 as [|? ? [P1 _] _]; inversion Hp4; subst. cbn in *. lia. }
    split; auto. destruct Hm2 as [Hm2|Hm2].
    - rewrite Hm2 in Hg4. eapply seg_mid; [exact Hg4|reflexivity|].
      clear -Hfit3 Hp4 Hb1. induction so4 as [|w so4 IH]; constructor.
      + inversion Hfit3 as [|? ? [P1 _] _]; inversion Hp4; subst. cbn in *. lia.
      + apply IH; [inversion Hfit3|inversion Hp4]; auto.
    - rewrite (H12 Hm2) in *. apply seg_nil in Hg4. subst se4. apply M_chain. constructor. }
  destruct Hmid as [Hmid Hm12].
  destruct (He (OQColon :: so4 ++ OQMark :: so2 ++ B) (se4 ++ se2 ++ E) (right_places OQColon) rest outer)
    as (so5 & se5 & r5 & E5 & Hr5 & Hg5 & Hfit5).
  { reflexivity. }
  { cbn [base]. split; [right; reflexivity|rewrite Hb2; cbn; lia]. }
  { reflexivity. }
  rewrite E5. exists (so5 ++ OQColon :: so4 ++ OQMark :: so2), (se5 ++ se4 ++ se2), r5.
  split; [rewrite <- !app_assoc; cbn [app]; rewrite <- !app_assoc; reflexivity|].
  split; [auto|]. split.
  - rewrite Hk2 in *. rewrite Hfl in *. apply S_cond; auto.
    eapply Forall_impl; [|exact Hfit5]. cbn. intros w [Hw _]. lia.
  - unfold fits. rewrite Hb2. apply Forall_app. split.
    + eapply Forall_impl; [|exact Hfit5]. cbn. intros w [Hw Hw2]. split; [lia|auto].
    + constructor; [split; [cbn; lia|apply Hsd; cbn; lia]|]. apply Forall_app. split.
      * eapply Forall_impl; [|eapply mid_prio; exact Hmid]. cbn. intros w Hw. split; [lia|apply Hsd; lia].
      * constructor; [split; [cbn; lia|apply Hsd; cbn; lia]|].
        eapply Forall_impl; [|eapply chain_prio; exact Hc2]. cbn. intros w Hw. split; [lia|apply Hsd; lia].
Qed.

Lemma feeds_assign : forall o l x r y,
  feeds (NLevel 14) l x -> feeds (NLevel 15) r y -> In o assignments ->
  feeds (NLevel 15) (l ++ TOp o :: r) (EBin o x y).
Proof.
  intros o l x r y Hl Hr Ho B E rr rest outer H1 H2 H3.
  assert (Ha : lasg o).
  { cbn in Ho. repeat (destruct Ho as [<-|Ho]; [repeat split; discriminate|]). contradiction. }
  assert (H2t : base (NLevel 14) B).
  { eapply base_impl; [exact H2| |]; cbn; lia. }
  destruct (Hl B E rr (TOp o :: r ++ rest) outer H1 H2t H3) as (so & se & r1 & E1 & Hr1 & Hg & Hfit).
  rewrite <- app_assoc. cbn [app]. rewrite E1, run_op.
  destruct Ha as (Ha1 & Ha2 & Ha3 & Ha4 & Ha5 & Ha6 & Ha7).
  destruct (push_op_seg _ _ so se x o B E r1 Hg (base_okb _ _ H2t) H3 Hr1 Ha2 ltac:(lia))
    as (so2 & se2 & E2 & Hsf & Hg2 & Hp2).
  { destruct B as [|b B]; [exact I|]. destruct H2 as [_ H2]. cbn in H2. lia. }
  rewrite E2, bind_ok.
  assert (so2 = []).
  { apply (suffix_Forall _ _ _ Hsf) in Hfit. destruct so2 as [|w so2]; auto. exfalso.
    inversion Hfit as [|? ? [P1 _] _]; inversion Hp2; subst. cbn in *. lia. }
  subst so2. apply seg_nil in Hg2. subst se2. cbn [app].
  destruct (Hr (o :: B) (x :: E) (right_places o) rest outer) as (so3 & se3 & r3 & E3 & Hr3 & Hg3 & Hfit3).
  { cbn. unfold right_places. rewrite Ha1, Ha2. reflexivity. }
  { cbn. split; [right; exact Ha3|lia]. }
  { apply hungry_cons; auto. }
  rewrite E3. exists (so3 ++ [o]), (se3 ++ [x]), r3.
  split; [rewrite <- !app_assoc; reflexivity|]. split; [auto|]. split.
  - apply S_asg; auto.
    + repeat split; auto.
    + eapply Forall_impl; [|exact Hfit3]. cbn. intros w [Hw _]. lia.
  - apply Forall_app. split; [exact Hfit3|]. constructor; [|constructor]. cbn. split; [lia|auto].
Qed.

Lemma run_derives : forall nt ts t, derives nt ts t -> feeds nt ts t.
Proof.
  induction 1 as
    [ n | b ts t Hd IH
    | ts t Hd IH | l x r y Hl IHl Hr IHr
    | ts t Hd IH | ts t o Hd IH Ho
    | ts t Hd IH | ts t o Hd IH Ho
    | ts t Hd IH | ts t Hd IH
    | n ts t Hd IH Hne | n o l x r y Hl IHl Hr IHr Ho
    | ts t Hd IH | o l x r y Hl IHl Hr IHr Ho
    | ts t Hd IH | c x m y e z Hc IHc Hm IHm He IHe
    | ts t Hd IH | c x m y e z Hc IHc Hm IHm He IHe
    | ts t Hd IH | o l x r y Hl IHl Hr IHr Ho ].
  - (* name *)
    intros B E r rest outer H1 H2 H3. cbn [app]. rewrite run_name.
    destruct (push_start B E r (EName n) H1) as (r' & -> & Hr'). rewrite bind_ok.
    exists [], [EName n], r'. repeat split; auto. constructor. constructor.
  - (* brackets *)
    intros B E r rest outer H1 H2 H3.
    cbn [app run]. rewrite <- app_assoc.
    destruct (IH [] [] 0%Z ([TRight b] ++ rest) ((b, mk B E r) :: outer) ltac:(cbn; lia) I I)
      as (so & se & r1 & E1 & Hr1 & Hg & _).
    unfold init. rewrite E1. rewrite !app_nil_r. cbn [app run].
    destruct (bracket_eq_dec b b) as [_|]; [|congruence].
    rewrite (combine_all_seg _ _ _ _ _ Hg Hr1), bind_ok.
    destruct (push_start B E r t H1) as (r' & -> & Hr'). rewrite bind_ok.
    exists [], [t], r'. repeat split; auto. constructor. constructor.
  - eapply feeds_lift; eauto; cbn; auto.
  - eapply feeds_left with (q := 1) (ntr := NAtom); eauto; cbn; auto.
    + repeat split; discriminate.
    + intros o' _ Hp. destruct o'; cbn in Hp; try discriminate; auto.
  - eapply feeds_lift; eauto; cbn; auto.
    intros o Hp _. destruct o; cbn in Hp; try lia. reflexivity.
  - (* postfix *)
    intros B E rr rest outer H1 H2 H3.
    destruct (IH B E rr (TOp o :: rest) outer H1 H2 H3) as (so & se & r1 & E1 & Hr1 & Hg & Hfit).
    rewrite <- app_assoc. cbn [app]. rewrite E1, run_op.
    assert (Hpo : lpost o /\ priority o = 2).
    { cbn in Ho. destruct Ho as [<-|[<-|[]]]; repeat split; reflexivity. }
    destruct Hpo as [Hpo Hp].
    destruct (push_op_seg _ _ so se t o B E r1 Hg (base_okb _ _ H2) H3 Hr1)
      as (so2 & se2 & E2 & Hsf & Hg2 & Hp2).
    { apply Hpo. }
    { destruct Hpo as (-> & _). lia. }
    { destruct B as [|b B]; [exact I|]. destruct H2 as [_ H2]. cbn in H2. lia. }
    rewrite E2, bind_ok.
    assert (Hall : Forall (fun o => priority o = 2 /\ adhere o = 1 /\ right_to_left o = false) so2).
    { apply (suffix_Forall _ _ _ Hsf) in Hfit. clear -Hfit Hp2 Hp.
      induction so2 as [|w so2 IH]; constructor.
      - inversion Hfit as [|? ? [P1 P2] _]; inversion Hp2; subst.
        cbn in P1, P2. split; [lia|]. split; [auto|]. destruct w; cbn in *; try lia; reflexivity.
      - apply IH; [inversion Hfit|inversion Hp2]; auto. }
    pose proof (seg_chain _ _ _ _ _ Hg2 2 Hall) as Hc.
    exists (o :: so2), se2, (right_places o). split; [reflexivity|]. split.
    + unfold right_places. destruct Hpo as (-> & -> & _). cbn. lia.
    + split.
      * eapply S_post; [rewrite Hp; eauto|auto|cbn; lia].
      * constructor; [cbn; split; [lia|apply Hpo]|]. eapply suffix_Forall; eauto.
  - eapply feeds_lift; eauto; cbn; auto.
  - (* prefix *)
    intros B E rr rest outer H1 H2 H3. cbn [app]. rewrite run_op.
    assert (Hpo : lpre o).
    { cbn in Ho. repeat (destruct Ho as [<-|Ho]; [repeat split; reflexivity|]). contradiction. }
    destruct Hpo as (Pa & Pd & Pp).
    assert (E1 : push_operator o (mk B E rr) = Ok (mk (o :: B) E 1)).
    { unfold push_operator. rewrite Pa, Pd. change (Nat.ltb 1 0) with false.
      replace (Nat.ltb (length (exps (mk B E rr))) 0) with false by (symmetry; apply Nat.ltb_ge; lia).
      change (Nat.ltb 0 0) with false. rewrite andb_false_r.
      assert (E2 : combine_until (fuel_of (mk B E rr)) (priority o) (mk B E rr) = Ok (mk B E rr)).
      { unfold fuel_of. cbn [combine_until ops]. destruct B as [|b B]; [reflexivity|].
        destruct H2 as [_ H2]. cbn [bound] in H2.
        replace (Nat.ltb (priority b) (priority o)) with false by (symmetry; apply Nat.ltb_ge; lia).
        reflexivity. }
      rewrite E2, bind_ok. unfold right_places. rewrite Pa, Pd. reflexivity. }
    rewrite E1, bind_ok.
    destruct (IH (o :: B) E 1%Z rest outer) as (so & se & r1 & E2 & Hr1 & Hg & Hfit).
    { reflexivity. }
    { cbn. rewrite Pp. split; [left; lia|lia]. }
    { cbn. unfold right_places. rewrite Pa, Pd. reflexivity. }
    rewrite E2. exists (so ++ [o]), se, r1. split; [rewrite <- app_assoc; reflexivity|].
    split; [auto|]. split.
    + assert (Hx : exists so0 pres t0, so = so0 ++ pres /\ seg false 1 so0 se t0 /\ Forall lpre pres /\
                Forall (fun x => priority x < 2) so0 /\ t = fold_left (fun e o => EUn o e) pres t0).
      { cbn [flag key] in Hg. clear -Hg Hfit.
        remember false as b0 eqn:Eb. remember 1 as k0 eqn:Ek.
        pose proof Hg as Hg0.
        destruct Hg as [| b q so se l o k so' se' r0 Hc Hb Hk Hs Hk' Hf
          | b q so se l o Hc Hb Hk | b q so pres se t Hs Hp Hn Hf
          | b q o l so se r Ho Hk Hs Hf | b q sc ec c sm em m sy ey y Hk Hc Hm Hbm Hs Hf]; subst.
        - exists [], [], t. repeat split; auto.
        - exists (so' ++ o :: so), [], (EBin o l r0). rewrite app_nil_r. repeat split; auto.
          apply Forall_app. split.
          + eapply Forall_impl; [|exact Hf]. cbn. intros; lia.
          + constructor; [lia|]. eapply Forall_impl; [|eapply chain_prio; exact Hc]. cbn. intros; lia.
        - exists (o :: so), [], (EUn o l). rewrite app_nil_r. repeat split; auto.
          constructor; [lia|]. eapply Forall_impl; [|eapply chain_prio; exact Hc]. cbn. intros; lia.
        - exists so, pres, t. repeat split; auto.
        - lia.
        - lia. }
      destruct Hx as (so0 & pres & t0 & -> & Hg0 & Hp0 & Hf0 & ->).
      rewrite <- app_assoc.
      replace (EUn o (fold_left (fun e o0 => EUn o0 e) pres t0))
        with (fold_left (fun e o0 => EUn o0 e) (pres ++ [o]) t0)
        by (rewrite fold_left_app; reflexivity).
      eapply S_pre; eauto.
      * apply Forall_app. split; auto. constructor; [|constructor]. repeat split; auto.
      * intros E0. destruct pres; discriminate.
    + apply Forall_app. split; auto. constructor; [|constructor]. cbn. split; [lia|auto].
  - eapply feeds_lift; eauto; cbn; auto.
  - eapply feeds_lift; eauto; cbn; auto.
  - eapply feeds_lift; eauto; cbn; auto.
  - destruct (infix_lbin _ _ Ho) as (Hb & Hp & Hn & Hn13 & Hn15 & Hch).
    eapply feeds_left with (q := S n) (ntr := NLevel n); eauto; cbn; auto.
  - eapply feeds_lift; eauto; cbn; auto; try lia.
    intros o Hp _. destruct o; cbn in *; try lia; reflexivity.
  - cbn in Ho. assert (Hb : lbin o /\ priority o = 13 /\ right_to_left o = false).
    { destruct Ho as [<-|[<-|[]]]; repeat split; discriminate. }
    destruct Hb as (Hb & Hp & Hr2).
    eapply feeds_left with (q := 13) (ntr := NLevel 12); eauto; cbn; auto.
    + intros o' Hs Hp'. split; auto. destruct o'; cbn in *; try discriminate; reflexivity.
    + intros o' Hp'. destruct o'; cbn in *; try lia; reflexivity.
  - eapply feeds_lift; eauto; cbn; auto.
  - eapply feeds_cond with (ntm := NMid); eauto; cbn; auto; discriminate.
  - intros B E rr rest outer H1 H2 H3.
    destruct (IH B E rr rest outer H1 H2 H3) as (so & se & r1 & E1 & Hr1 & Hg & Hfit).
    exists so, se, r1. repeat split; auto.
    + eapply seg_flag; eauto. eapply Forall_impl; [|exact Hfit]. cbn. tauto.
    + eapply Forall_impl; [|exact Hfit]. cbn. tauto.
  - eapply feeds_cond with (ntm := NLevel 12); eauto; cbn; auto.
  - eapply feeds_lift; eauto; cbn; auto.
  - apply feeds_assign; auto.
Qed.

Theorem parse_denotes : forall ts t, denotes ts t -> parse ts = Ok t.
Proof.
  intros ts t H. apply run_derives in H.
  destruct (H [] [] 0%Z [] [] ltac:(cbn; lia) I I) as (so & se & r & E & Hr & Hg & _).
  unfold parse, init. rewrite !app_nil_r in E. rewrite E. cbn [run].
  eapply combine_all_seg; eauto.
Qed.

(** *** Every tree can be written *)

Definition nt_of (p : nat) : nonterminal :=
  match p with 0 => NAtom | 1 => NMember | 13 => NTest | _ => NLevel p end.

Lemma nt_of_S : forall p ts t, p < 15 -> derives (nt_of p) ts t -> derives (nt_of (S p)) ts t.
Proof.
  intros p ts t Hp H.
  do 15 (destruct p as [|p]; [cbn in *; first
    [ apply D_atom; exact H
    | apply D_unary_post, D_post_base; exact H
    | apply D_tighter; [exact H|discriminate]
    | apply D_test_base; exact H
    | apply D_tighter; [apply D_cond_base; exact H|discriminate]
    | apply D_assign_base; exact H ] |]); lia.
Qed.

Lemma nt_of_le : forall q p ts t, q <= p -> p <= 15 -> derives (nt_of q) ts t -> derives (nt_of p) ts t.
Proof.
  intros q p ts t H. induction H; intros Hp Hd; auto. apply nt_of_S; [lia|]. apply IHle; auto; lia.
Qed.

Lemma minimal_body : forall o l x r y,
  op_level o <= 15 -> let n := op_level o in
  (if in_dec op_eq_dec o assignments
   then derives (nt_of (n - 1)) l x /\ derives (nt_of n) r y
   else derives (nt_of n) l x /\ derives (nt_of (n - 1)) r y) ->
  derives (nt_of n) (l ++ TOp o :: r) (EBin o x y).
Proof.
  intros o l x r y Hn n H.
  destruct o; vm_compute in Hn; try (exfalso; lia); subst n; vm_compute in H; destruct H as [H1 H2];
  match goal with |- derives ?n _ _ => let v := eval vm_compute in n in change n with v end;
  first
    [ apply D_member; assumption
    | apply D_infix; [assumption|assumption|cbn; tauto]
    | apply D_test; [assumption|assumption|cbn; tauto]
    | apply D_infix; [assumption|apply D_cond_base; assumption|cbn; tauto]
    | apply D_assign; [assumption|assumption|cbn; tauto] ].
Qed.

Lemma minimal_derives : forall e, binary_tree e -> forall p, p <= 15 -> derives (nt_of p) (minimal e p) e.
Proof.
  induction 1 as [n|o l r Ho Hl IHl Hr IHr]; intros p Hp.
  - apply nt_of_le with (q := 0); [lia|auto|]. constructor.
  - cbn [minimal].
    set (body := if in_dec op_eq_dec o assignments then _ else _).
    assert (Hb : derives (nt_of (op_level o)) body (EBin o l r)).
    { unfold body. clear body.
      pose proof (minimal_body o) as Hm.
      destruct (in_dec op_eq_dec o assignments) as [Hi|Hi]; apply Hm; auto; split;
        (apply IHl || apply IHr); lia. }
    destruct (Nat.leb (op_level o) p) eqn:E.
    + apply Nat.leb_le in E. eapply nt_of_le; eauto.
    + apply nt_of_le with (q := 0); [lia|auto|]. cbn. apply D_paren.
      change (NLevel 15) with (nt_of 15). eapply (nt_of_le (op_level o)); auto.
Qed.

Theorem parse_minimal : forall e, binary_tree e -> parse (minimal e 15) = Ok e.
Proof. intros e H. apply parse_denotes. apply (minimal_derives e H 15). lia. Qed.

Lemma atom_level : forall p ts t, p <= 15 -> derives NAtom ts t -> derives (nt_of p) ts t.
Proof. intros p ts t Hp H. apply nt_of_le with (q := 0); auto; lia. Qed.

Lemma written_denotes : forall e, expressible e -> denotes (written e) e.
Proof.
  unfold denotes.
  assert (Hat : forall e, derives (NLevel 15) (written e) e ->
                derives NAtom (TLeft Round :: written e ++ [TRight Round]) e)
    by (intros; apply D_paren; auto).
  induction 1 as [n|o e He IH Ho|o l r Hl IHl Hr IHr Ho|c a b Hc IHc Ha IHa Hb IHb]; cbn [written].
  - apply (atom_level 15); [lia|]. constructor.
  - apply Hat in IH. destruct (in_dec op_eq_dec o prefixes) as [Hi|Hi].
    + apply (nt_of_le 2 15); [lia|lia|]. cbn. apply D_unary_pre. apply D_pre; auto.
      apply D_pre_base, D_atom. exact IH.
    + apply in_app_or in Ho. destruct Ho as [Ho|Ho]; [contradiction|].
      apply (nt_of_le 2 15); [lia|lia|]. cbn [nt_of]. apply D_unary_post.
      apply D_post; auto. apply D_post_base, D_atom. exact IH.
  - apply Hat in IHl. apply Hat in IHr.
    assert (Hlv : op_level o <= 15).
    { destruct Ho as [Ho|[n Ho]].
      - cbn in Ho. repeat (destruct Ho as [<-|Ho]; [vm_compute; lia|]). contradiction.
      - do 15 (destruct n as [|n]; [cbn in Ho; repeat (destruct Ho as [<-|Ho]; [vm_compute; lia|]);
               contradiction|]). cbn in Ho. contradiction. }
    apply (nt_of_le (op_level o) 15); [lia|lia|].
    apply minimal_body; auto.
    destruct (in_dec op_eq_dec o assignments); split; apply atom_level; auto; lia.
  - apply Hat in IHc. apply Hat in IHa. apply Hat in IHb.
    apply (D_assign_base). apply D_tighter; [|discriminate]. apply D_cond.
    + apply (atom_level 13); [lia|auto].
    + apply D_mid_base. apply (atom_level 13); [lia|auto].
    + apply D_cond_base. apply (atom_level 13); [lia|auto].
Qed.

Theorem parse_written : forall e, expressible e -> parse (written e) = Ok e.
Proof. intros e H. apply parse_denotes, written_denotes, H. Qed.

Theorem denotes_unique : forall ts t1 t2, denotes ts t1 -> denotes ts t2 -> t1 = t2.
Proof. intros ts t1 t2 H1 H2. apply parse_denotes in H1, H2. congruence. Qed.

(** *** The model's fuel is sufficient *)

Lemma push_expression_ops : forall e s s', push_expression e s = Ok s' -> ops s' = ops s.
Proof.
  intros e s s' H. unfold push_expression in H. destruct (ops s) eqn:E.
  - inversion H; reflexivity.
  - destruct (rp s <=? 0)%Z; inversion H; reflexivity.
Qed.

Lemma pop_expression_ops : forall s e s', pop_expression s = Ok (e, s') -> ops s' = ops s.
Proof. intros s e s' H. unfold pop_expression in H. destruct (exps s); inversion H; reflexivity. Qed.

Definition fine {A} (P : A -> Prop) (r : res A) : Prop :=
  match r with Ok a => P a | OutOfFuel => False | _ => True end.

Lemma fine_bind : forall A B (P : A -> Prop) (Q : B -> Prop) (r : res A) (f : A -> res B),
  fine P r -> (forall a, P a -> fine Q (f a)) -> fine Q (bind r f).
Proof. intros A B P Q [a| | |] f H1 H2; cbn in *; auto. Qed.

Lemma fine_impl : forall A (P Q : A -> Prop) r, fine P r -> (forall a, P a -> Q a) -> fine Q r.
Proof. intros A P Q [a| | |] H1 H2; cbn in *; auto. Qed.

Definition lenle {A} (k : nat) (p : A * stacks) : Prop := length (ops (snd p)) <= k.

Lemma fine_pop : forall s, fine (fun p => ops (snd p) = ops s) (pop_expression s).
Proof. intros s. unfold pop_expression. destruct (exps s); cbn; auto. Qed.
Lemma fine_push : forall e s, fine (fun s' => ops s' = ops s) (push_expression e s).
Proof.
  intros e s. unfold push_expression. destruct (ops s); cbn; auto. destruct (rp s <=? 0)%Z; cbn; auto.
Qed.
Lemma reset_ops : forall s, ops (reset_rp s) = ops s.
Proof. intros [[|o os] es r]; reflexivity. Qed.
Lemma fine_combine_binary : forall o l r s, fine (fun p => ops (snd p) = ops s) (combine_binary o l r s).
Proof.
  intros o l r s. unfold combine_binary.
  destruct (build2 o l r) eqn:E; cbn; auto using reset_ops.
  unfold build2 in E. destruct o; try discriminate; [destruct r|destruct l]; discriminate.
Qed.
Lemma fine_combine_unary : forall o e s, fine (fun p => ops (snd p) = ops s) (combine_unary o e s).
Proof. intros. unfold combine_unary. cbn. apply reset_ops. Qed.

Lemma fuel_enough : forall n,
  (forall o s, 2 * length (ops s) < n -> fine (lenle (length (ops s))) (combine1 n o s)) /\
  (forall p s, 2 * length (ops s) <= n -> 0 < n ->
     fine (lenle (length (ops s) - 1)) (combine_loop n p s)).
Proof.
  induction n as [|f [IH1 IH2]]; [split; intros; lia|]. split.
  - intros o s Hn. cbn [combine1].
    destruct (Nat.ltb (adhere o) (arity o)).
    + eapply fine_bind; [apply fine_pop|]. intros [r s1] Hs1. cbn [snd] in Hs1.
      destruct (Nat.eqb (arity o) 1).
      * eapply fine_impl; [apply fine_combine_unary|]. intros [a b] H. unfold lenle. cbn in *.
        rewrite H, Hs1. lia.
      * rewrite Hs1. destruct (ops s) as [|top rest] eqn:Eo.
        -- eapply fine_bind; [apply fine_pop|]. intros [l s2] Hs2. cbn [snd] in Hs2.
           eapply fine_impl; [apply fine_combine_binary|]. intros [a b] H. unfold lenle. cbn in *.
           rewrite H, Hs2, Hs1. cbn. lia.
        -- cbn [length] in *. destruct (parent_op o) as [p|].
           ++ destruct (op_eq_dec p top).
              ** eapply fine_bind; [apply fine_pop|]. intros [l s2] Hs2. cbn [snd] in Hs2.
                 eapply fine_bind; [apply fine_combine_binary|]. intros [e1 s3] Hs3. cbn [snd] in Hs3.
                 eapply fine_bind; [apply fine_push|]. intros s4 Hs4.
                 eapply fine_impl; [apply IH1; cbn [ops]; lia|]. intros [a b] H. unfold lenle in *. cbn in *. lia.
              ** eapply fine_bind; [apply IH2; rewrite ?Hs1; cbn [length]; lia|]. intros [l s2] Hs2.
                 unfold lenle in Hs2. cbn [snd] in Hs2. rewrite Hs1 in Hs2. cbn [length] in Hs2.
                 eapply fine_impl; [apply fine_combine_binary|]. intros [a b] H. unfold lenle. cbn in *.
                 rewrite H. lia.
           ++ destruct (negb _ && negb _).
              ** eapply fine_bind; [apply IH1; cbn [ops]; lia|]. intros [l s2] Hs2.
                 unfold lenle in Hs2. cbn [snd ops] in Hs2.
                 eapply fine_impl; [apply fine_combine_binary|]. intros [a b] H. unfold lenle. cbn in *.
                 rewrite H. lia.
              ** eapply fine_bind; [apply fine_pop|]. intros [l s2] Hs2. cbn [snd] in Hs2.
                 eapply fine_impl; [apply fine_combine_binary|]. intros [a b] H. unfold lenle. cbn in *.
                 rewrite H, Hs2, Hs1. cbn. lia.
    + destruct (ops s) as [|top rest] eqn:Eo.
      * eapply fine_bind; [apply fine_pop|]. intros [l s2] Hs2. cbn [snd] in Hs2.
        eapply fine_impl; [apply fine_combine_unary|]. intros [a b] H. unfold lenle. cbn in *.
        rewrite H, Hs2, Eo. cbn. lia.
      * cbn [length] in *. destruct (negb _ && negb _).
        -- eapply fine_bind; [apply IH1; cbn [ops]; lia|]. intros [l s2] Hs2.
           unfold lenle in Hs2. cbn [snd ops] in Hs2.
           eapply fine_impl; [apply fine_combine_unary|]. intros [a b] H. unfold lenle. cbn in *.
           rewrite H. lia.
        -- eapply fine_bind; [apply fine_pop|]. intros [l s2] Hs2. cbn [snd] in Hs2.
           eapply fine_impl; [apply fine_combine_unary|]. intros [a b] H. unfold lenle. cbn in *.
           rewrite H, Hs2, Eo. cbn. lia.
  - intros p s Hn H0. cbn [combine_loop]. destruct (ops s) as [|top rest] eqn:Eo; [exact I|].
    cbn [length] in *.
    eapply fine_bind; [apply IH1; cbn [ops]; lia|]. intros [e s1] Hs1. unfold lenle in Hs1. cbn [snd ops] in Hs1.
    destruct (ops s1) as [|top2 rest2] eqn:Eo1; [exact I|].
    destruct (op_eq_dec top2 p).
    + cbn. unfold lenle. cbn [snd]. rewrite Eo1. cbn [length] in *. lia.
    + eapply fine_bind; [apply fine_push|]. intros s2 Hs2. rewrite Eo1 in Hs2.
      destruct f as [|f]; [lia|].
      eapply fine_impl; [apply IH2; rewrite ?Hs2; cbn [length] in *; lia|].
      intros [a b] H. unfold lenle in *. rewrite Hs2 in H. cbn [snd length] in *. lia.
Qed.

Lemma until_fine : forall n q s, 2 * length (ops s) < n -> fine (fun _ => True) (combine_until n q s).
Proof.
  induction n as [|f IH]; intros q s Hn; [lia|]. cbn [combine_until].
  destruct (ops s) as [|top rest] eqn:Eo; [exact I|]. cbn [length] in Hn.
  destruct (Nat.ltb (priority top) q); [|exact I].
  eapply fine_bind; [apply (proj1 (fuel_enough f)); cbn [ops]; lia|]. intros [e s1] Hs1.
  unfold lenle in Hs1. cbn [snd ops] in Hs1.
  eapply fine_bind; [apply fine_push|]. intros s2 Hs2. apply IH. rewrite Hs2. lia.
Qed.

Lemma push_operator_fine : forall o s, fine (fun _ => True) (push_operator o s).
Proof.
  intros o s. unfold push_operator.
  destruct (Nat.ltb _ _); [exact I|]. destruct (Nat.ltb _ _); [exact I|].
  destruct (_ && _); [exact I|].
  eapply fine_bind; [apply until_fine; unfold fuel_of; lia|]. intros s1 _. exact I.
Qed.

Lemma combine_all_fine : forall s, fine (fun _ => True) (combine_all s).
Proof.
  intros s. unfold combine_all.
  eapply fine_bind; [apply until_fine; unfold fuel_of; lia|]. intros s1 _.
  eapply fine_bind; [apply fine_pop|]. intros [e s2] _. exact I.
Qed.

Lemma run_fine : forall ts s outer, fine (fun _ => True) (run ts s outer).
Proof.
  induction ts as [|[n|o|b|b] ts IH]; intros s outer; cbn [run].
  - destruct outer; [apply combine_all_fine|exact I].
  - eapply fine_bind; [apply fine_push|]. auto.
  - eapply fine_bind; [apply push_operator_fine|]. auto.
  - apply IH.
  - destruct outer as [|[b' s'] outer]; [exact I|]. destruct (bracket_eq_dec b b') as [Hbb|]; [|exact I].
    eapply fine_bind; [apply combine_all_fine|]. intros e _.
    eapply fine_bind; [apply fine_push|]. auto.
Qed.

Theorem parse_fuel : forall ts, parse ts <> OutOfFuel.
Proof. intros ts H. pose proof (run_fine ts init []) as F. unfold parse in H. rewrite H in F. exact F. Qed.

(** *** Operands keep their order *)

Fixpoint flat (es : list expr) : list nat :=
  match es with [] => [] | e :: r => flat r ++ leaves e end.

Definition keeps (l : list nat) (p : expr * stacks) : Prop :=
  l = flat (exps (snd p)) ++ leaves (fst p).

Definition okp {A} (P : A -> Prop) (r : res A) : Prop := match r with Ok a => P a | _ => True end.

Lemma okp_bind : forall A B (P : A -> Prop) (Q : B -> Prop) (r : res A) (f : A -> res B),
  okp P r -> (forall a, P a -> okp Q (f a)) -> okp Q (bind r f).
Proof. intros A B P Q [a| | |] f H1 H2; cbn in *; auto. Qed.

Lemma okp_pop : forall s, okp (keeps (flat (exps s))) (pop_expression s).
Proof. intros s. unfold pop_expression. destruct (exps s); cbn; auto. reflexivity. Qed.

Lemma okp_push : forall e s,
  okp (fun s' => flat (exps s') = flat (exps s) ++ leaves e) (push_expression e s).
Proof.
  intros e s. unfold push_expression. destruct (ops s); cbn; auto. destruct (rp s <=? 0)%Z; cbn; auto.
Qed.

Lemma reset_exps : forall s, exps (reset_rp s) = exps s.
Proof. intros [[|o os] es r]; reflexivity. Qed.

Lemma build2_leaves : forall o l r, okp (fun e => leaves e = leaves l ++ leaves r) (build2 o l r).
Proof.
  intros o l r. unfold build2. destruct o; cbn; auto; [destruct r|destruct l]; cbn; auto;
    rewrite ?app_nil_r, ?flat_map_app; cbn; rewrite ?app_nil_r; reflexivity.
Qed.

Lemma okp_combine_binary : forall o l r s,
  okp (keeps (flat (exps s) ++ leaves l ++ leaves r)) (combine_binary o l r s).
Proof.
  intros o l r s. unfold combine_binary. eapply okp_bind; [apply build2_leaves|].
  intros e He. cbn. unfold keeps. cbn [fst snd]. rewrite reset_exps, He. reflexivity.
Qed.

Lemma okp_combine_unary : forall o e s,
  okp (keeps (flat (exps s) ++ leaves e)) (combine_unary o e s).
Proof. intros. unfold combine_unary. cbn. unfold keeps. cbn. rewrite reset_exps. reflexivity. Qed.

Lemma okp_impl : forall A (P Q : A -> Prop) r, okp P r -> (forall a, P a -> Q a) -> okp Q r.
Proof. intros A P Q [a| | |] H1 H2; cbn in *; auto. Qed.

Ltac keeps_tac :=
  intros; unfold keeps in *; cbn [fst snd exps] in *;
  repeat match goal with a : prod _ _ |- _ => destruct a end; cbn [fst snd exps] in *;
  repeat match goal with H : _ = _ |- _ => rewrite H in * end;
  rewrite <- ?app_assoc in *; congruence.

Lemma combine_keeps : forall n,
  (forall o s, okp (keeps (flat (exps s))) (combine1 n o s)) /\
  (forall p s, okp (keeps (flat (exps s))) (combine_loop n p s)).
Proof.
  induction n as [|f [IH1 IH2]]; [split; intros; exact I|]. split.
  - intros o s. cbn [combine1].
    assert (Hpopb : forall r s1, flat (exps s) = flat (exps s1) ++ leaves r ->
      okp (keeps (flat (exps s))) (do (l, s2) <- pop_expression s1; combine_binary o l r s2)).
    { intros r s1 H. eapply okp_bind; [apply okp_pop|]. intros [l s2] Hk. unfold keeps in Hk. cbn in Hk.
      eapply okp_impl; [apply okp_combine_binary|]. intros [a b] Hk2. unfold keeps in *. cbn in *.
      rewrite <- Hk2, H, Hk, <- app_assoc. reflexivity. }
    assert (Hpopu : okp (keeps (flat (exps s))) (do (l, s2) <- pop_expression s; combine_unary o l s2)).
    { eapply okp_bind; [apply okp_pop|]. intros [l s2] Hk. unfold keeps in Hk. cbn in Hk.
      eapply okp_impl; [apply okp_combine_unary|]. intros [a b] Hk2. unfold keeps in *. cbn in *. congruence. }
    destruct (Nat.ltb (adhere o) (arity o)).
    + eapply okp_bind; [apply okp_pop|]. intros [r s1] Hs1. unfold keeps in Hs1. cbn [fst snd] in Hs1.
      destruct (Nat.eqb (arity o) 1).
      * rewrite Hs1. apply okp_combine_unary.
      * destruct (ops s1) as [|top rest] eqn:Eo; [auto|].
        destruct (parent_op o) as [p|].
        -- destruct (op_eq_dec p top).
           ++ eapply okp_bind; [apply okp_pop|]. intros [l s2] Hs2. unfold keeps in Hs2. cbn [fst snd] in Hs2.
              eapply okp_bind; [apply okp_combine_binary|]. intros [e1 s3] Hs3. unfold keeps in Hs3. cbn [fst snd] in Hs3.
              eapply okp_bind; [apply okp_push|]. intros s4 Hs4. cbn in Hs4.
              eapply okp_impl; [apply IH1|]. intros [a b] H. unfold keeps in *. cbn [fst snd exps] in *.
              rewrite <- H, Hs4, <- Hs3, Hs1, Hs2, <- app_assoc. reflexivity.
           ++ eapply okp_bind; [apply IH2|]. intros [l s2] Hs2. unfold keeps in Hs2. cbn [fst snd] in Hs2.
              eapply okp_impl; [apply okp_combine_binary|]. intros [a b] H. unfold keeps in *. cbn [fst snd] in *.
              rewrite <- H, Hs1, Hs2, <- app_assoc. reflexivity.
        -- destruct (negb _ && negb _); [|auto].
           eapply okp_bind; [apply IH1|]. intros [l s2] Hs2. unfold keeps in Hs2. cbn [fst snd exps] in Hs2.
           eapply okp_impl; [apply okp_combine_binary|]. intros [a b] H. unfold keeps in *. cbn [fst snd] in *.
           rewrite <- H, Hs1, Hs2, <- app_assoc. reflexivity.
    + destruct (ops s) as [|top rest] eqn:Eo; [auto|].
      destruct (negb _ && negb _); [|auto].
      eapply okp_bind; [apply IH1|]. intros [l s2] Hs2. unfold keeps in Hs2. cbn [fst snd exps] in Hs2.
      eapply okp_impl; [apply okp_combine_unary|]. intros [a b] H. unfold keeps in *. cbn [fst snd] in *.
      rewrite <- H, Hs2. reflexivity.
  - intros p s. cbn [combine_loop]. destruct (ops s) as [|top rest]; [exact I|].
    eapply okp_bind; [apply IH1|]. intros [e s1] Hs1. unfold keeps in Hs1. cbn [fst snd exps] in Hs1.
    destruct (ops s1); [exact I|]. destruct (op_eq_dec _ p).
    + exact Hs1.
    + eapply okp_bind; [apply okp_push|]. intros s2 Hs2. cbn in Hs2.
      eapply okp_impl; [apply IH2|]. intros [a b] H. unfold keeps in *. cbn [fst snd] in *. congruence.
Qed.

Lemma until_keeps : forall n q s, okp (fun s' => flat (exps s') = flat (exps s)) (combine_until n q s).
Proof.
  induction n as [|f IH]; intros q s; [exact I|]. cbn [combine_until].
  destruct (ops s) as [|top rest]; [reflexivity|]. destruct (Nat.ltb _ q); [|reflexivity].
  eapply okp_bind; [apply (proj1 (combine_keeps f))|]. intros [e s1] H1. unfold keeps in H1. cbn [fst snd exps] in H1.
  eapply okp_bind; [apply okp_push|]. intros s2 H2. cbn in H2.
  eapply okp_impl; [apply IH|]. cbn. intros a H. congruence.
Qed.

Lemma push_operator_keeps : forall o s,
  okp (fun s' => flat (exps s') = flat (exps s)) (push_operator o s).
Proof.
  intros o s. unfold push_operator.
  destruct (Nat.ltb _ _); [exact I|]. destruct (Nat.ltb _ _); [exact I|].
  destruct (_ && _); [exact I|].
  eapply okp_bind; [apply until_keeps|]. intros s1 H. exact H.
Qed.

Lemma combine_all_keeps : forall s,
  okp (fun e => exists lost, flat (exps s) = lost ++ leaves e) (combine_all s).
Proof.
  intros s. unfold combine_all. eapply okp_bind; [apply until_keeps|]. intros s1 H1. cbn in H1.
  eapply okp_bind; [apply okp_pop|]. intros [e s2] H2. unfold keeps in H2. cbn in *.
  rewrite <- H1, H2. eauto.
Qed.

Lemma subseq_refl : forall A (l : list A), subseq l l.
Proof. induction l; constructor; auto. Qed.
Lemma subseq_nil : forall A (l : list A), subseq [] l.
Proof. induction l; constructor; auto. Qed.
Lemma subseq_app : forall A (a b c d : list A), subseq a b -> subseq c d -> subseq (a ++ c) (b ++ d).
Proof. intros A a b c d H. induction H; intros Hc; cbn; auto; constructor; auto. Qed.
Lemma subseq_app_r : forall A (a b : list A), subseq b (a ++ b).
Proof. induction a; intros; cbn; [apply subseq_refl|constructor; auto]. Qed.
Lemma subseq_trans : forall A (b c : list A), subseq b c -> forall a, subseq a b -> subseq a c.
Proof.
  intros A b c H. induction H; intros a0 Ha; auto.
  - inversion Ha; subst; [constructor 2|constructor 3]; auto.
  - constructor; auto.
Qed.

Fixpoint flat_outer (outer : list (bracket * stacks)) : list nat :=
  match outer with [] => [] | (_, s) :: r => flat_outer r ++ flat (exps s) end.

Lemma run_keeps : forall ts s outer,
  okp (fun t => subseq (leaves t) (flat_outer outer ++ flat (exps s) ++ names ts)) (run ts s outer).
Proof.
  induction ts as [|[n|o|b|b] ts IH]; intros s outer; cbn [run].
  - destruct outer; [|exact I]. eapply okp_impl; [apply combine_all_keeps|].
    cbn. intros e (lost & ->). rewrite app_nil_r. apply subseq_app_r.
  - eapply okp_bind; [apply okp_push|]. intros s1 H1. cbn [leaves] in H1.
    eapply okp_impl; [apply IH|]. cbn. intros t Ht. rewrite H1, <- app_assoc in Ht. exact Ht.
  - eapply okp_bind; [apply push_operator_keeps|]. intros s1 H1. cbn in H1.
    eapply okp_impl; [apply IH|]. cbn. intros t Ht. rewrite H1 in Ht. exact Ht.
  - eapply okp_impl; [apply IH|]. cbn. intros t Ht. rewrite <- app_assoc in Ht. exact Ht.
  - destruct outer as [|[b' s'] outer]; [exact I|]. destruct (bracket_eq_dec b b') as [Hbb|]; [|exact I].
    eapply okp_bind; [apply combine_all_keeps|]. intros e (lost & He).
    eapply okp_bind; [apply okp_push|]. intros s1 H1. cbn in H1.
    eapply okp_impl; [apply IH|]. cbn. intros t Ht. rewrite H1 in Ht.
    eapply subseq_trans; [|exact Ht]. rewrite He. rewrite <- !app_assoc.
    apply subseq_app; [apply subseq_refl|]. apply subseq_app; [apply subseq_refl|].
    apply subseq_app_r.
Qed.

Theorem parse_operands : forall ts t, parse ts = Ok t -> subseq (leaves t) (names ts).
Proof.
  intros ts t H. pose proof (run_keeps ts init []) as K. unfold parse in H. rewrite H in K. exact K.
Qed.

(** *** Rejections *)

Definition rejected (ts : list token) : Prop := forall t, parse ts <> Ok t.

Lemma bind_not_ok : forall A B (r : res A) (f : A -> res B),
  (forall a b, r = Ok a -> f a <> Ok b) -> forall b, bind r f <> Ok b.
Proof. intros A B [a| | |] f H b; cbn; try discriminate. apply H; auto. Qed.

(** Whatever comes before, the rest is read from some state. *)
Lemma run_app : forall pre post s outer,
  (forall s' outer' t, run post s' outer' <> Ok t) -> forall t, run (pre ++ post) s outer <> Ok t.
Proof.
  induction pre as [|[n|o|b|b] pre IH]; intros post s outer H t; cbn [app run]; auto.
  - apply bind_not_ok. intros; apply IH; auto.
  - apply bind_not_ok. intros; apply IH; auto.
  - destruct outer as [|[b' s'] outer]; [discriminate|]. destruct (bracket_eq_dec b b') as [Hbb|]; [|discriminate].
    apply bind_not_ok. intros. apply bind_not_ok. intros; apply IH; auto.
Qed.

Lemma push_operator_state : forall o s s', push_operator o s = Ok s' ->
  exists r, ops s' = o :: r /\ rp s' = right_places o.
Proof.
  intros o s s' H. unfold push_operator in H.
  destruct (Nat.ltb _ _); [discriminate|]. destruct (Nat.ltb _ _); [discriminate|].
  destruct (_ && _); [discriminate|].
  destruct (combine_until _ _ _); try discriminate. cbn in H. inversion H. cbn. eauto.
Qed.

Lemma not_postfix_places : forall o, ~ In o postfixes -> right_places o = 1%Z.
Proof. intros o H. destruct o; try reflexivity; exfalso; apply H; cbn; auto. Qed.
Lemma postfix_places : forall o, In o postfixes -> right_places o = 0%Z.
Proof. intros o H. cbn in H. destruct H as [<-|[<-|[]]]; reflexivity. Qed.
Lemma not_prefix_adhere : forall o, ~ In o prefixes -> adhere o = 1.
Proof. intros o H. destruct o; try reflexivity; exfalso; apply H; cbn; tauto. Qed.

Theorem reject_two_operators : forall pre o1 o2 post,
  ~ In o1 postfixes -> ~ In o2 prefixes -> rejected (pre ++ TOp o1 :: TOp o2 :: post).
Proof.
  intros pre o1 o2 post H1 H2 t. unfold parse. apply run_app. clear t. intros s outer t.
  cbn [run]. apply bind_not_ok. intros s1 b0 E1. apply bind_not_ok. intros s2 b1 E2.
  exfalso. destruct (push_operator_state _ _ _ E1) as (r & Ho & Hr).
  rewrite (not_postfix_places _ H1) in Hr. unfold push_operator in E2.
  destruct (Nat.ltb _ _); [discriminate|]. destruct (Nat.ltb _ _); [discriminate|].
  rewrite Hr, (not_prefix_adhere _ H2) in E2. discriminate.
Qed.

Theorem reject_leading_operator : forall o post,
  ~ In o prefixes -> rejected (TOp o :: post).
Proof.
  intros o post H t. unfold parse. cbn [run]. apply bind_not_ok. intros s1 b E.
  exfalso. unfold push_operator in E. destruct (Nat.ltb _ _); [discriminate|].
  rewrite (not_prefix_adhere _ H) in E. discriminate.
Qed.

Theorem reject_operator_after_bracket : forall pre b o post,
  ~ In o prefixes -> rejected (pre ++ TLeft b :: TOp o :: post).
Proof.
  intros pre b o post H t. unfold parse. apply run_app. clear t. intros s outer t.
  cbn [run]. apply bind_not_ok. intros s1 b0 E.
  exfalso. unfold push_operator in E. destruct (Nat.ltb _ _); [discriminate|].
  rewrite (not_prefix_adhere _ H) in E. discriminate.
Qed.

Theorem reject_empty_brackets : forall pre b b' post, rejected (pre ++ TLeft b :: TRight b' :: post).
Proof.
  intros pre b b' post t. unfold parse. apply run_app. clear t. intros s outer t.
  cbn [run]. destruct (bracket_eq_dec b' b); discriminate.
Qed.

Theorem reject_empty : rejected [].
Proof. intros t. cbn. discriminate. Qed.

Lemma push_rp0 : forall e s o r s', ops s = o :: r -> (rp s <= 0)%Z -> push_expression e s <> Ok s'.
Proof.
  intros e s o r s' Ho Hr. unfold push_expression. rewrite Ho.
  apply Z.leb_le in Hr. rewrite Hr. discriminate.
Qed.

(** After an operator, the operand it expects may not be followed by another one. *)
Theorem reject_second_operand : forall pre o a b post,
  rejected (pre ++ TOp o :: TName a :: TName b :: post).
Proof.
  intros pre o a b post t. unfold parse. apply run_app. clear t. intros s outer t.
  cbn [run]. apply bind_not_ok. intros s1 b0 E1. apply bind_not_ok. intros s2 b1 E2.
  apply bind_not_ok. intros s3 b2 E3. exfalso.
  destruct (push_operator_state _ _ _ E1) as (r & Ho & Hr).
  pose proof (push_expression_ops _ _ _ E2) as Ho2. rewrite Ho in Ho2.
  unfold push_expression in E2. rewrite Ho in E2. destruct (rp s1 <=? 0)%Z; [discriminate|].
  inversion E2. eapply push_rp0; [exact Ho2| |exact E3]. subst s2. cbn. rewrite Hr.
  destruct o; cbn; lia.
Qed.

Theorem reject_operand_after_postfix : forall pre o a post,
  In o postfixes -> rejected (pre ++ TOp o :: TName a :: post).
Proof.
  intros pre o a post H t. unfold parse. apply run_app. clear t. intros s outer t.
  cbn [run]. apply bind_not_ok. intros s1 b0 E1. apply bind_not_ok. intros s2 b1 E2. exfalso.
  destruct (push_operator_state _ _ _ E1) as (r & Ho & Hr). rewrite (postfix_places _ H) in Hr.
  eapply push_rp0; [exact Ho| |exact E2]. lia.
Qed.

(** Brackets of an accepted sequence are properly nested. *)
Lemma balanced_app : forall a b, balanced a -> balanced b -> balanced (a ++ b).
Proof.
  intros a b H Hb. induction H; cbn; auto; try (constructor; auto).
  rewrite <- app_assoc. cbn. constructor; auto.
Qed.

Fixpoint closes (outer : list (bracket * stacks)) (ts : list token) : Prop :=
  match outer with
  | [] => balanced ts
  | (b, _) :: r => exists ts1 ts2, ts = ts1 ++ TRight b :: ts2 /\ balanced ts1 /\ closes r ts2
  end.

Lemma closes_cons : forall x outer ts,
  (forall l, balanced l -> balanced (x :: l)) -> closes outer ts -> closes outer (x :: ts).
Proof.
  intros x [|[b s] outer] ts Hx H; cbn in *; auto.
  destruct H as (ts1 & ts2 & -> & H1 & H2). exists (x :: ts1), ts2. auto.
Qed.

Lemma run_closes : forall ts s outer t, run ts s outer = Ok t -> closes outer ts.
Proof.
  induction ts as [|[n|o|b|b] ts IH]; intros s outer t H; cbn [run] in H.
  - destruct outer; [constructor|discriminate].
  - destruct (push_expression _ _); try discriminate. apply closes_cons; [constructor; auto|]. eauto.
  - destruct (push_operator _ _); try discriminate. apply closes_cons; [constructor; auto|]. eauto.
  - apply IH in H. cbn [closes] in H. destruct H as (ts1 & ts2 & -> & H1 & H2).
    destruct outer as [|[b' s'] outer]; cbn [closes] in *.
    + constructor; auto.
    + destruct H2 as (ts3 & ts4 & -> & H3 & H4).
      exists (TLeft b :: ts1 ++ TRight b :: ts3), ts4. split; [|split; auto].
      * cbn. rewrite <- app_assoc. reflexivity.
      * constructor; auto.
  - destruct outer as [|[b' s'] outer]; [discriminate|]. destruct (bracket_eq_dec b b') as [Hbb|]; [|discriminate].
    subst b'. destruct (combine_all s); try discriminate. cbn in H.
    destruct (push_expression _ _); try discriminate. cbn in H. apply IH in H.
    cbn [closes]. exists [], ts. repeat split; auto. constructor.
Qed.

Theorem parse_balanced : forall ts t, parse ts = Ok t -> balanced ts.
Proof. intros ts t H. apply (run_closes ts init [] t H). Qed.

(** *** Unary operators *)

Lemma pre_derives : forall ps ms m, Forall (fun o => In o prefixes) ps -> derives NMember ms m ->
  derives NPre (map TOp ps ++ ms) (fold_right EUn m ps).
Proof.
  induction ps as [|p ps IH]; intros ms m Hp Hm; cbn.
  - apply D_pre_base; auto.
  - inversion Hp; subst. apply D_pre; auto.
Qed.

Lemma post_derives : forall qs ms m, Forall (fun o => In o postfixes) qs -> derives NPost ms m ->
  derives NPost (ms ++ map TOp qs) (fold_left (fun e o => EUn o e) qs m).
Proof.
  induction qs as [|q qs IH]; intros ms m Hp Hm; cbn.
  - rewrite app_nil_r; auto.
  - inversion Hp; subst. replace (ms ++ TOp q :: map TOp qs) with ((ms ++ [TOp q]) ++ map TOp qs)
      by (rewrite <- app_assoc; reflexivity).
    apply IH; auto. apply D_post; auto.
Qed.

Lemma level_up : forall n p ts t, 2 <= n -> n <= p -> p <= 15 -> n <> 13 -> p <> 13 ->
  derives (NLevel n) ts t -> derives (NLevel p) ts t.
Proof.
  intros n p ts t H0 H1 H2 H3 H4 H.
  assert (E : forall k, 2 <= k -> k <> 13 -> nt_of k = NLevel k).
  { intros k K1 K2. unfold nt_of. do 13 (destruct k as [|k]; [lia || reflexivity|]).
    destruct k as [|k]; [lia|reflexivity]. }
  rewrite <- E in * by lia. eapply nt_of_le; eauto.
Qed.

Theorem parse_prefixes : forall ps ms m,
  Forall (fun o => In o prefixes) ps -> derives NMember ms m ->
  parse (map TOp ps ++ ms) = Ok (fold_right EUn m ps).
Proof.
  intros ps ms m Hp Hm. apply parse_denotes. apply (level_up 2 15); try lia.
  apply D_unary_pre, pre_derives; auto.
Qed.

Theorem parse_postfixes : forall qs ms m,
  Forall (fun o => In o postfixes) qs -> derives NMember ms m ->
  parse (ms ++ map TOp qs) = Ok (fold_left (fun e o => EUn o e) qs m).
Proof.
  intros ps ms m Hp Hm. apply parse_denotes. apply (level_up 2 15); try lia.
  apply D_unary_post, post_derives; auto. apply D_post_base; auto.
Qed.

Theorem parse_prefix_infix : forall ps ms m o n rs r,
  Forall (fun o => In o prefixes) ps -> derives NMember ms m ->
  In o (infix_at (S n)) -> derives (NLevel n) rs r ->
  parse (map TOp ps ++ ms ++ TOp o :: rs) = Ok (EBin o (fold_right EUn m ps) r).
Proof.
  intros ps ms m o n rs r Hp Hm Ho Hr. apply parse_denotes. rewrite app_assoc.
  destruct (infix_lbin _ _ Ho) as (_ & _ & Hn & H13 & H15 & _).
  assert (S n <= 15).
  { clear -Ho. do 15 (destruct n as [|n]; [lia|]). cbn in Ho. contradiction. }
  apply (level_up (S n) 15); try lia.
  apply D_infix; auto. apply (level_up 2 (S n)); try lia.
  apply D_unary_pre, pre_derives; auto.
Qed.

Theorem parse_cond : forall c x m y e z,
  derives NTest c x -> derives NMid m y -> derives (NLevel 13) e z ->
  parse (c ++ TOp OQMark :: m ++ TOp OQColon :: e) = Ok (ECond x y z).
Proof.
  intros. apply parse_denotes. apply D_assign_base. apply D_tighter; [|discriminate].
  apply D_cond; auto.
Qed.

(** The wrong reading of a prefix followed by a postfix operator. *)
Theorem prefix_postfix_wrong : forall p q a, In p prefixes -> In q postfixes ->
  parse [TOp p; TName a; TOp q] = Ok (EUn q (EUn p (EName a))).
Proof.
  intros p q a Hp Hq. cbn in Hp, Hq. destruct Hq as [<-|[<-|[]]];
  repeat (destruct Hp as [<-|Hp]; [reflexivity|]); contradiction.
Qed.

Theorem missing_colon : forall n o a b c, In o (infix_at n) -> n < 13 ->
  parse [TName c; TOp OQMark; TName a; TOp o; TName b] = Ok (ECond (EName c) (EName a) (EName b)).
Proof.
  intros n o a b c H Hn. do 13 (destruct n as [|n]; [cbn in H;
    repeat (destruct H as [<-|H]; [reflexivity|]); contradiction|]). lia.
Qed.
