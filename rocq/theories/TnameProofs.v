From Coq Require Import ZArith List Bool Lia.
From Verif Require Import TnameModel TnameSpec.
Import ListNotations.
Local Open Scope nat_scope.

(* ---- a lookup finds the first declaration with the key ---- *)

Lemma first_such_unique D Q i j : first_such D Q i -> first_such D Q j -> i = j.
Proof.
  intros [(d & Ed & Qd) Fi] [(e & Ee & Qe) Fj].
  destruct (lt_eq_lt_dec i j) as [[L|E]|L]; [|exact E|].
  - destruct (Fj i d L Ed Qd).
  - destruct (Fi j e L Ee Qe).
Qed.

Lemma first_such_ext D (Q R : decl -> Prop) i :
  (forall j d, nth_error D j = Some d -> (Q d <-> R d)) ->
  (first_such D Q i <-> first_such D R i).
Proof.
  intros H. split; intros [(d & Ed & Qd) F]; (split; [exists d; split; [exact Ed|now apply (H i d Ed)]|]);
    intros j e L E X; apply (F j e L E); now apply (H j e E).
Qed.

Lemma named_unique D P n c i j : named D P n c i -> named D P n c j -> i = j.
Proof.
  unfold named. intros [A|(NA & A & _)] [B|(NB & B & _)].
  - exact (first_such_unique _ _ _ _ A B).
  - destruct (NB _ A).
  - destruct (NA _ B).
  - exact (first_such_unique _ _ _ _ A B).
Qed.

Lemma find_seq f n : forall s,
  match find f (seq s n) with
  | Some i => s <= i < s + n /\ f i = true /\ forall j, s <= j < i -> f j = false
  | None => forall j, s <= j < s + n -> f j = false
  end.
Proof.
  induction n as [|n IH]; intros s; cbn [seq find]; [lia|].
  destruct (f s) eqn:E.
  - split; [lia|]. split; [exact E|]. lia.
  - specialize (IH (S s)). destruct (find f (seq (S s) n)) as [i|].
    + destruct IH as (L & T & F). split; [lia|]. split; [exact T|].
      intros j H. destruct (Nat.eq_dec j s) as [->|]; [exact E|]. apply F. lia.
    + intros j H. destruct (Nat.eq_dec j s) as [->|]; [exact E|]. apply IH. lia.
Qed.

Lemma look_such D a ns n c host (Q : decl -> Prop) :
  (forall i d, nth_error D i = Some d -> (has_key D a ns n c host i = true <-> Q d)) ->
  match look D a ns n c host with
  | Some i => first_such D Q i
  | None => forall i, ~ first_such D Q i
  end.
Proof.
  intros H. unfold look. pose proof (find_seq (has_key D a ns n c host) (length D) 0) as F.
  destruct (find (has_key D a ns n c host) (seq 0 (length D))) as [i|].
  - destruct F as (L & T & F). assert (exists d, nth_error D i = Some d) as [d E].
    { destruct (nth_error D i) eqn:E; [eauto|]. apply nth_error_None in E. lia. }
    split.
    + exists d. split; [exact E|]. now apply (H i d E).
    + intros j e LJ EJ QJ. apply (H j e EJ) in QJ. rewrite F in QJ by lia. discriminate QJ.
  - intros i [(d & E & Qd) _]. apply (H i d E) in Qd.
    assert (i < length D) by (apply nth_error_Some; congruence).
    rewrite F in Qd by lia. discriminate Qd.
Qed.

Lemma same_path_iff a b : same_path a b = true <-> a = b.
Proof. unfold same_path. destruct (list_eq_dec Z.eq_dec a b); split; congruence. Qed.

Lemma same_host_iff a b : same_host a b = true <-> a = b.
Proof.
  destruct a as [x|], b as [y|]; cbn; try (split; congruence).
  rewrite Nat.eqb_eq. split; congruence.
Qed.

Lemma key_count_open d : key_count d = None <-> open d.
Proof.
  unfold key_count, open. destruct (d_many d); cbn [andb].
  - destruct (d_params d) as [|p ps]; cbn [length Nat.eqb negb]; split; intros H;
      try discriminate; try reflexivity.
    + destruct H as [_ H]. congruence.
    + split; [reflexivity|discriminate].
  - split; [discriminate|]. intros [H _]. discriminate H.
Qed.

Lemma key_count_exact d c : key_count d = Some c <-> ~ open d /\ length (d_params d) = c.
Proof.
  rewrite <- key_count_open. unfold key_count.
  destruct (d_many d && negb (length (d_params d) =? 0)).
  - split; [discriminate|]. intros [H _]. congruence.
  - split; [intros H; split; congruence|intros [_ <-]; reflexivity].
Qed.

Section Decls.
Variable D : list decl.
Hypothesis GD : good_decls D.

Lemma space_fuel i : forall f g, i <= f -> i <= g -> space_of D f i = space_of D g i.
Proof.
  induction i as [i IH] using lt_wf_ind. intros f g LF LG.
  destruct f as [|f], g as [|g]; cbn [space_of]; destruct (nth_error D i) as [d|] eqn:E; auto;
    destruct (d_host d) as [h|] eqn:EH; auto; destruct (GD i d h E EH) as [LH _]; try lia.
  apply IH; lia.
Qed.

Lemma space_host i d h : nth_error D i = Some d -> d_host d = Some h ->
  space_of D (length D) i = space_of D (length D) h.
Proof.
  intros E EH. destruct (GD i d h E EH) as [LH _].
  assert (i < length D) by (apply nth_error_Some; congruence).
  destruct (length D) as [|n] eqn:EL; [lia|]. cbn [space_of]. rewrite E, EH.
  rewrite (space_fuel h n (S n)) by lia. cbn [space_of]. reflexivity.
Qed.

Lemma key_top a ns n c i d : nth_error D i = Some d ->
  (has_key D a ns n c None i = true <-> at_top a ns d /\ d_name d = n /\ key_count d = c).
Proof.
  intros E. unfold has_key, at_top. rewrite E, !andb_true_iff, Nat.eqb_eq, same_path_iff,
    Z.eqb_eq, (same_host_iff (d_host d)). unfold same_count. rewrite same_host_iff.
  assert (S0 : d_host d = None -> space_of D (length D) i = d_space d).
  { intros H. destruct (length D); cbn [space_of]; now rewrite E, H. }
  split.
  - intros ((((Ha & Hs) & Hn) & Hc) & Hh). rewrite S0 in Hs by exact Hh. auto.
  - intros ((Hh & Ha & Hs) & Hn & Hc). rewrite S0 by exact Hh. auto.
Qed.

Lemma key_nested a n c h e i d : nth_error D h = Some e -> d_asm e = a ->
  nth_error D i = Some d ->
  (has_key D a (space_of D (length D) h) n c (Some h) i = true <->
   in_type h d /\ d_name d = n /\ key_count d = c).
Proof.
  intros Eh Ea E. unfold has_key, in_type. rewrite E, !andb_true_iff, Nat.eqb_eq, same_path_iff,
    Z.eqb_eq, (same_host_iff (d_host d)). unfold same_count. rewrite same_host_iff.
  split.
  - intros ((((Ha & Hs) & Hn) & Hc) & Hh). auto.
  - intros (Hh & Hn & Hc). destruct (GD i d h E Hh) as (_ & e' & Eh' & Ea').
    rewrite (space_host i d h E Hh). repeat split; auto. congruence.
Qed.

Lemma get_named a ns n c host (P : decl -> Prop) :
  (forall i d k, nth_error D i = Some d ->
     (has_key D a (match host with None => ns | Some h => space_of D (length D) h end) n k host i = true
      <-> P d /\ d_name d = n /\ key_count d = k)) ->
  match get_general_type D a ns n c host with
  | Some i => named D P n c i
  | None => forall i, ~ named D P n c i
  end.
Proof.
  intros H. unfold get_general_type.
  set (ns' := match host with None => ns | Some h => space_of D (length D) h end) in *.
  pose proof (look_such D a ns' n (Some c) host
    (fun d => P d /\ d_name d = n /\ ~ open d /\ length (d_params d) = c)) as X.
  destruct (look D a ns' n (Some c) host) as [i|] eqn:LE.
  - left. apply X. intros j d E. rewrite (H j d (Some c) E), key_count_exact. tauto.
  - assert (NX : forall i, ~ first_such D
      (fun d => P d /\ d_name d = n /\ ~ open d /\ length (d_params d) = c) i).
    { apply X. intros j d E. rewrite (H j d (Some c) E), key_count_exact. tauto. }
    pose proof (look_such D a ns' n None host (fun d => P d /\ d_name d = n /\ open d)) as Y.
    destruct (look D a ns' n None host) as [i|] eqn:LL.
    + assert (FI : first_such D (fun d => P d /\ d_name d = n /\ open d) i).
      { apply Y. intros j d E. now rewrite (H j d None E), key_count_open. }
      destruct FI as [(d & E & Pd) Fi]. rewrite E.
      destruct (length (d_params d) - 1 <=? c) eqn:EL.
      * apply Nat.leb_le in EL. right. split; [exact NX|]. split; [split; [exists d; auto|exact Fi]|].
        intros d' E'. assert (d' = d) as -> by congruence. lia.
      * apply Nat.leb_gt in EL. intros j [A|(_ & A & B)]; [exact (NX j A)|].
        assert (j = i) as ->.
        { apply (first_such_unique D (fun d => P d /\ d_name d = n /\ open d)); [exact A|].
          split; [exists d; auto|exact Fi]. }
        specialize (B d E). lia.
    + intros j [A|(_ & A & B)]; [exact (NX j A)|]. revert A. apply Y.
      intros k d E. now rewrite (H k d None E), key_count_open.
Qed.

(* ---- nested types ---- *)

(* The type is in the assembly in which its nested types are looked for. *)
Definition homed (a : nat) (t : ty) : Prop :=
  match t with
  | TGeneral i => exists d, nth_error D i = Some d /\ d_asm d = a
  | TInstance i _ _ => exists d, nth_error D i = Some d
  | _ => False
  end.

Lemma named_decl P n c i : named D P n c i -> exists d, nth_error D i = Some d /\ P d /\ d_name d = n.
Proof.
  intros [[(d & E & Q) _]|(_ & [(d & E & Q) _] & _)]; exists d; tauto.
Qed.

Lemma homed_made a t u h i : homed a t -> of_decl t h ->
  named D (in_type h) (u_name u) (length (u_args u)) i -> homed a (made i u t).
Proof.
  intros HT OD NM. destruct (named_decl _ _ _ _ NM) as (d & E & P & _). unfold in_type in P.
  destruct (GD i d h E P) as (_ & e & Eh & Ea). unfold made.
  destruct t as [k|j k|j|j args host]; cbn [homed of_decl] in *; try tauto.
  - subst j. destruct HT as (e' & Eh' & Ea'). destruct (u_args u); cbn [homed]; eauto.
    exists d. split; [exact E|congruence].
  - eauto.
Qed.

Lemma nest_spec a ns t h u : homed a t -> of_decl t h ->
  match nest D a ns t u with
  | Some n => exists i, named D (in_type h) (u_name u) (length (u_args u)) i /\ n = made i u t
  | None => forall i, ~ named D (in_type h) (u_name u) (length (u_args u)) i
  end.
Proof.
  intros HT OD. unfold nest, get_type.
  assert (exists b e, nth_error D h = Some e /\ d_asm e = b /\
    match Some t with
    | Some (TInstance i _ _) => match nth_error D i with Some d => d_asm d | None => a end
    | _ => a end = b /\ raw_type t = Some h) as (b & e & Eh & Eb & -> & ->).
  { destruct t as [k|j k|j|j args host]; cbn [homed of_decl raw_type] in *; try tauto; subst j.
    - destruct HT as (d & E & Ea). exists a, d. auto.
    - destruct HT as (d & E). rewrite E. exists (d_asm d), d. auto. }
  pose proof (get_named b ns (u_name u) (length (u_args u)) (Some h) (in_type h)) as G.
  destruct (get_general_type D b ns (u_name u) (length (u_args u)) (Some h)) as [i|].
  - assert (NM : named D (in_type h) (u_name u) (length (u_args u)) i).
    { apply G. intros j d k E. now apply (key_nested b _ _ h e j d). }
    unfold is_generic. destruct t as [k|j k|j|j args host]; cbn [homed of_decl is_instance orb] in *; try tauto;
      destruct (u_args u) eqn:EA; cbn [orb];
      (exists i; split; [first [exact NM|rewrite EA in NM; exact NM]|unfold made; now rewrite EA]).
  - apply G. intros j d k E. now apply (key_nested b _ _ h e j d).
Qed.

Lemma homed_decl a t : homed a t -> exists h, of_decl t h.
Proof. destruct t; cbn; try tauto; eauto. Qed.

Lemma nest_all_spec a ns us : forall t, homed a t ->
  match nest_all D a ns t us with
  | Some n => inside D t us n
  | None => forall n, ~ inside D t us n
  end.
Proof.
  induction us as [|u us IH]; intros t HT; cbn [nest_all]; [constructor|].
  destruct (homed_decl a t HT) as [h OD].
  pose proof (nest_spec a ns t h u HT OD) as N. destruct (nest D a ns t u) as [n|].
  - destruct N as (i & NM & ->). specialize (IH _ (homed_made a t u h i HT OD NM)).
    destruct (nest_all D a ns (made i u t) us) as [m|].
    + econstructor; eauto.
    + intros m IN. inversion IN as [|? h' ? ? i' ? OD' NM' IN']; subst.
      assert (h' = h) as -> by (clear - OD OD'; destruct t; cbn in *; try tauto; congruence).
      rewrite (named_unique _ _ _ _ _ _ NM' NM) in IN'. exact (IH m IN').
  - intros m IN. inversion IN as [|? h' ? ? i' ? OD' NM' IN']; subst.
    assert (h' = h) as -> by (clear - OD OD'; destruct t; cbn in *; try tauto; congruence). exact (N i' NM').
Qed.

Lemma inside_unique t us n m : inside D t us n -> inside D t us m -> n = m.
Proof.
  intros A. revert m. induction A as [t|t h u us i t' OD NM IN IH]; intros m B.
  - now inversion B.
  - inversion B as [|? h' ? ? i' ? OD' NM' IN']; subst.
    assert (h' = h) as -> by (clear - OD OD'; destruct t; cbn in *; try tauto; congruence).
    rewrite (named_unique _ _ _ _ _ _ NM' NM) in IN'. exact (IH m IN').
Qed.

(* ---- namespaces ---- *)

Lemma find_nest_top a ns i d u us : nth_error D i = Some d -> d_host d = None -> d_asm d = a ->
  find_nest_type D a ns (Some (top i u)) us = nest_all D a ns (top i u) us.
Proof.
  intros E EH EA. destruct us as [|v us]; [reflexivity|].
  cbn [find_nest_type climb nest_all]. destruct (nest D a ns (top i u) v); [reflexivity|].
  assert (host_of D (top i u) = None) as ->.
  { unfold top. destruct (u_args u); cbn [host_of]; [now rewrite E, EH|reflexivity]. }
  now destruct (length D).
Qed.

Lemma homed_top a i d u : nth_error D i = Some d -> d_asm d = a -> homed a (top i u).
Proof. intros E EA. unfold top. destruct (u_args u); cbn [homed]; eauto. Qed.

Lemma get_top a ns u :
  match get_type D a ns u None with
  | Some t => exists i, named D (at_top a ns) (u_name u) (length (u_args u)) i /\ t = top i u
  | None => forall i, ~ named D (at_top a ns) (u_name u) (length (u_args u)) i
  end.
Proof.
  unfold get_type.
  pose proof (get_named a ns (u_name u) (length (u_args u)) None (at_top a ns)) as G.
  destruct (get_general_type D a ns (u_name u) (length (u_args u)) None) as [i|].
  - exists i. split; [apply G; intros j d k E; now apply key_top|].
    unfold is_generic, top. now destruct (u_args u).
  - apply G. intros j d k E. now apply key_top.
Qed.

Lemma reads_unique a ns us k t t' : reads D a ns us k t -> reads D a ns us k t' -> t = t'.
Proof.
  intros (ps & u & rest & i & -> & L1 & _ & NM & IN) (ps' & u' & rest' & i' & EQ & L2 & _ & NM' & IN').
  assert (ps = ps' /\ u :: rest = u' :: rest') as [-> E].
  { clear - L1 L2 EQ. revert k ps' L1 L2 EQ.
    induction ps as [|p ps IH]; intros k [|p' ps'] L1 L2 EQ; cbn in *; try lia.
    - auto.
    - injection EQ as -> EQ. destruct k; [lia|].
      destruct (IH k ps' ltac:(lia) ltac:(lia) EQ) as [-> ->]. auto. }
  injection E as -> ->.
  rewrite (named_unique _ _ _ _ _ _ NM' NM) in IN'. exact (inside_unique _ _ _ _ IN IN').
Qed.

Lemma space_unique a ns us t t' : space_meaning D a ns us t -> space_meaning D a ns us t' -> t = t'.
Proof.
  intros (k & R & M) (k' & R' & M'). destruct (lt_eq_lt_dec k k') as [[L|E]|L].
  - destruct (M' k t L R).
  - subst k'. exact (reads_unique _ _ _ _ _ _ R R').
  - destruct (M k' t' L R').
Qed.

(* The first unit names the type, or it belongs to the namespace. *)
Lemma reads_zero a ns u us t : reads D a ns (u :: us) 0 t <->
  exists i, named D (at_top a ns) (u_name u) (length (u_args u)) i /\ inside D (top i u) us t.
Proof.
  split.
  - intros (ps & v & rest & i & EQ & L & _ & NM & IN). destruct ps; [|discriminate L].
    cbn in EQ. injection EQ as -> ->. cbn in NM. rewrite app_nil_r in NM. eauto.
  - intros (i & NM & IN). exists [], u, us, i. cbn. rewrite app_nil_r. auto.
Qed.

Lemma reads_succ a ns u us k t : reads D a ns (u :: us) (S k) t <->
  plain u /\ reads D a (ns ++ [u_name u]) us k t.
Proof.
  split.
  - intros (ps & v & rest & i & EQ & L & F & NM & IN). destruct ps as [|p ps]; [discriminate L|].
    cbn in EQ. injection EQ as -> ->. inversion F; subst. split; [assumption|].
    exists ps, v, rest, i. rewrite <- app_assoc. cbn in *. repeat split; auto.
  - intros (P & ps & v & rest & i & EQ & L & F & NM & IN). subst us.
    exists (u :: ps), v, rest, i. rewrite <- app_assoc in NM. cbn in *. repeat split; auto.
Qed.

Lemma find_type_spec a us : forall ns,
  match find_type D a ns us with
  | Some t => space_meaning D a ns us t
  | None => forall k t, ~ reads D a ns us k t
  end.
Proof.
  induction us as [|u us IH]; intros ns; cbn [find_type].
  - intros k t (ps & v & rest & i & EQ & _). destruct ps; discriminate EQ.
  - pose proof (get_top a ns u) as G.
    assert (Z0 : match find_nest_type D a ns (get_type D a ns u None) us with
                 | Some t => reads D a ns (u :: us) 0 t
                 | None => forall t, ~ reads D a ns (u :: us) 0 t end).
    { destruct (get_type D a ns u None) as [t|].
      - destruct G as (i & NM & ->). destruct (named_decl _ _ _ _ NM) as (d & E & (EH & EA & _) & _).
        rewrite (find_nest_top a ns i d u us E EH EA).
        pose proof (nest_all_spec a ns us (top i u) (homed_top a i d u E EA)) as NS.
        destruct (nest_all D a ns (top i u) us) as [n|].
        + apply reads_zero. eauto.
        + intros t R. apply reads_zero in R. destruct R as (i' & NM' & IN).
          rewrite (named_unique _ _ _ _ _ _ NM' NM) in IN. exact (NS t IN).
      - assert (find_nest_type D a ns None us = None) as ->
          by (destruct us; [reflexivity|]; cbn [find_nest_type climb]; reflexivity).
        intros t R. apply reads_zero in R. destruct R as (i' & NM' & _). exact (G i' NM'). }
    destruct (find_nest_type D a ns (get_type D a ns u None) us) as [t|].
    + exists 0. split; [exact Z0|]. intros k' t' L. lia.
    + unfold is_generic. destruct (u_args u) as [|x xs] eqn:EA.
      * specialize (IH (ns ++ [u_name u])).
        destruct (find_type D a (ns ++ [u_name u]) us) as [t|].
        -- destruct IH as (k & R & M). exists (S k). split.
           ++ apply reads_succ. split; [exact EA|exact R].
           ++ intros [|k'] t' L R'; [exact (Z0 t' R')|]. apply reads_succ in R'.
              apply (M k' t'); [lia|tauto].
        -- intros [|k] t R; [exact (Z0 t R)|]. apply reads_succ in R. apply (IH k t). tauto.
      * intros [|k] t R; [exact (Z0 t R)|]. apply reads_succ in R.
        destruct R as [P _]. unfold plain in P. congruence.
Qed.

Lemma find_type_iff a ns us t : find_type D a ns us = Some t <-> space_meaning D a ns us t.
Proof.
  pose proof (find_type_spec a us ns) as F. split.
  - intros E. rewrite E in F. exact F.
  - intros M. destruct (find_type D a ns us) as [t'|].
    + f_equal. exact (space_unique _ _ _ _ _ F M).
    + destruct M as (k & R & _). destruct (F k t R).
Qed.

Lemma find_type_none a ns us : find_type D a ns us = None <-> forall t, ~ space_meaning D a ns us t.
Proof.
  split.
  - intros E t M. apply find_type_iff in M. congruence.
  - intros H. destruct (find_type D a ns us) as [t|] eqn:E; [|reflexivity].
    destruct (H t). now apply find_type_iff.
Qed.

(* Going on one unit later tries nothing new. *)
Lemma search_find a us : forall ns, search_type D a ns us = find_type D a ns us.
Proof.
  induction us as [|u us IH]; intros ns; [reflexivity|].
  cbn [search_type]. destruct (find_type D a ns (u :: us)) as [t|] eqn:E; [reflexivity|].
  destruct us as [|v us]; [reflexivity|].
  destruct (is_generic u) eqn:G; [reflexivity|]. rewrite IH.
  cbn [find_type] in E. rewrite G in E.
  destruct (find_nest_type D a ns (get_type D a ns u None) (v :: us)); [discriminate E|].
  exact E.
Qed.

(* ---- lists of namespaces ---- *)

Definition try (p : nat * path * list unit_) : option ty :=
  find_type D (fst (fst p)) (snd (fst p)) (snd p).

Fixpoint first_of (l : list (nat * path * list unit_)) : option ty :=
  match l with
  | [] => None
  | p :: l' => match try p with Some t => Some t | None => first_of l' end
  end.

Lemma first_of_app l m : first_of (l ++ m) =
  match first_of l with Some t => Some t | None => first_of m end.
Proof.
  induction l as [|p l IH]; [reflexivity|]. cbn [first_of app].
  destruct (try p); [reflexivity|exact IH].
Qed.

Lemma first_of_iff l t : first_of l = Some t <-> first_meaning D l t.
Proof.
  induction l as [|p l IH]; cbn [first_of].
  - split; [discriminate|]. intros (b & q & r & E & _). destruct b; discriminate E.
  - unfold try. destruct (find_type D (fst (fst p)) (snd (fst p)) (snd p)) as [t'|] eqn:E.
    + apply find_type_iff in E. split.
      * intros X. injection X as ->. exists [], p, l. split; [reflexivity|]. split; [exact E|].
        intros q t' [].
      * intros (b & q & r & EQ & M & B). destruct b as [|q0 b].
        -- cbn in EQ. injection EQ as <- <-. f_equal. exact (space_unique _ _ _ _ _ E M).
        -- cbn in EQ. injection EQ as <- _. destruct (B p t' (or_introl eq_refl) E).
    + pose proof (proj1 (find_type_none _ _ _) E) as N. rewrite IH. split.
      * intros (b & q & r & -> & M & B). exists (p :: b), q, r. split; [reflexivity|].
        split; [exact M|]. intros q' t' [<-|I]; [exact (N t')|exact (B q' t' I)].
      * intros (b & q & r & EQ & M & B). destruct b as [|q0 b].
        -- cbn in EQ. injection EQ as <- <-. destruct (N t M).
        -- cbn in EQ. injection EQ as <- ->. exists b, q, r. split; [reflexivity|].
           split; [exact M|]. intros q' t' I. apply B. now right.
Qed.

End Decls.

Lemma strip_starts p : forall us,
  match strip p us with
  | Some ((_ :: _) as rest) => starts_with p us = true /\ rest = skipn (length p) us
  | _ => starts_with p us = false
  end.
Proof.
  induction p as [|x p IH]; intros us; cbn [strip starts_with].
  - destruct us; cbn; auto.
  - destruct us as [|u us]; [reflexivity|]. unfold unit_is, is_generic.
    destruct (u_args u); [|reflexivity]. cbn [negb andb].
    rewrite (Z.eqb_sym x). destruct (Z.eqb (u_name u) x); [|reflexivity].
    cbn [andb length skipn]. exact (IH us).
Qed.

Section Resolve.
Variable C : context.
Hypothesis GC : good_context C.
Let D := c_decls C.

Lemma GD : good_decls D.
Proof. exact (proj1 GC). Qed.

Lemma own_spaces_ok us : forall back,
  search_spaces D (c_asm C) back us =
  first_of D (map (fun k => (c_asm C, firstn k (rev back), us)) (rev (seq 0 (S (length back))))).
Proof.
  induction back as [|x back IH].
  - cbn. unfold try. cbn. now destruct (find_type D (c_asm C) [] us).
  - rewrite seq_S, rev_app_distr. cbn [rev app map first_of plus].
    cbn [search_spaces]. unfold try at 1. cbn [fst snd].
    rewrite firstn_all2 by (cbn [rev]; rewrite app_length, rev_length; cbn; lia).
    cbn [rev]. destruct (find_type D (c_asm C) (rev back ++ [x]) us) as [t|]; [reflexivity|].
    rewrite IH. cbn [length]. f_equal. apply map_ext_in. intros k I. apply in_rev in I.
    rewrite rev_involutive in I || idtac.
    apply in_seq in I. rewrite firstn_app, rev_length.
    replace (k - length back) with 0 by lia. cbn [firstn]. now rewrite app_nil_r.
Qed.

Lemma imports_ok us ms : us <> [] ->
  search_imports D ms us = first_of D (flat_map (import_space us) ms).
Proof.
  intros NE. induction ms as [|m ms IH]; [reflexivity|].
  cbn [search_imports flat_map]. rewrite first_of_app, IH. clear IH.
  assert ((match import_prefix m us with
           | O => None
           | S n => match i_asm m with
                  | Some a => search_type D a [] (skipn (S n) us) | None => None end
           end) = first_of D (import_space us m)) as ->; [|reflexivity].
  unfold import_prefix, import_space, called. destruct us as [|u us]; [congruence|].
  destruct (i_alias m) as [x|].
  - pose proof (strip_starts [x] (u :: us)) as ST. cbn [strip starts_with] in *.
    unfold unit_is, is_generic in *. destruct (u_args u) as [|? ?].
    + cbn [negb andb] in *. rewrite (Z.eqb_sym x) in *.
      destruct (Z.eqb (u_name u) x).
      * cbn [skipn]. destruct (i_asm m) as [a|]; [|reflexivity]. cbn [first_of]. unfold try. cbn [fst snd].
        rewrite search_find. now destruct (find_type D a [] us).
      * destruct (i_asm m); reflexivity.
    + cbn [negb andb]. destruct (i_asm m); reflexivity.
  - destruct (i_name m) as [|y p] eqn:EN.
    + cbn [starts_with length]. destruct (i_asm m); reflexivity.
    + pose proof (strip_starts (y :: p) (u :: us)) as ST.
      destruct (strip (y :: p) (u :: us)) as [[|v rest]|].
      * rewrite ST. destruct (i_asm m) as [a|]; reflexivity.
      * destruct ST as [-> ER]. destruct (i_asm m) as [a|]; [|reflexivity].
        cbn [length]. cbn [length] in ER. rewrite <- ER. cbn [first_of]. unfold try. cbn [fst snd].
        rewrite search_find. now destruct (find_type D a [] (v :: rest)).
      * rewrite ST. destruct (i_asm m); reflexivity.
Qed.

Lemma global_ok us : us <> [] -> search_global C us = first_of D (global_spaces C us).
Proof.
  intros NE. unfold search_global, global_spaces. destruct (c_document C) as [[ms ss]|]; [|reflexivity].
  cbn [first_of]. unfold try. cbn [fst snd]. fold D. rewrite search_find, imports_ok by exact NE.
  reflexivity.
Qed.

Lemma app_ne {B} (l m : list B) : m <> [] -> l ++ m <> [].
Proof. destruct l; [auto|discriminate]. Qed.

Lemma usings_ok us ss : us <> [] ->
  search_usings C ss us = first_of D (flat_map (using_spaces C us) ss).
Proof.
  intros NE. induction ss as [|s ss IH]; [reflexivity|].
  cbn [search_usings flat_map]. rewrite first_of_app, IH. clear IH.
  assert ((match s_alias s, us with
           | None, _ => search_global C (map (fun n => Unit n []) (s_space s) ++ us)
           | Some x, u :: ((_ :: _) as us') =>
               if unit_is u x then search_global C (map (fun n => Unit n []) (s_space s) ++ us')
               else None
           | Some _, _ => None
           end) = first_of D (using_spaces C us s)) as ->; [|reflexivity].
  unfold using_spaces, spelled. destruct (s_alias s) as [x|].
  - destruct us as [|u [|v us]]; [congruence| |].
    + cbn [strip]. destruct (u_args u); [|reflexivity]. now destruct (Z.eqb x (u_name u)).
    + cbn [strip]. unfold unit_is, is_generic. destruct (u_args u); [|reflexivity].
      cbn [negb andb]. rewrite (Z.eqb_sym x). destruct (Z.eqb (u_name u) x); [|reflexivity].
      now rewrite global_ok by (apply app_ne; discriminate).
  - now rewrite global_ok by (apply app_ne; exact NE).
Qed.

(* ---- inside types ---- *)

Lemma climb_spec u us : forall fuel i, (exists d, nth_error D i = Some d /\ d_asm d = c_asm C) ->
  i < fuel ->
  match climb D fuel (c_asm C) (c_space C) (Some (TGeneral i)) u us with
  | Some t => exists closer j, enclosing D i closer j /\ inside D (TGeneral j) (u :: us) t /\
      forall k n, In k closer -> ~ named D (in_type k) (u_name u) (length (u_args u)) n
  | None => forall t closer j, enclosing D i closer j -> inside D (TGeneral j) (u :: us) t ->
      exists k n, In k closer /\ named D (in_type k) (u_name u) (length (u_args u)) n
  end.
Proof.
  induction fuel as [|fuel IH]; intros i HI LF; [lia|]. cbn [climb].
  pose proof (nest_spec D GD (c_asm C) (c_space C) (TGeneral i) i u HI eq_refl) as NS.
  destruct (nest D (c_asm C) (c_space C) (TGeneral i) u) as [n|].
  - destruct NS as (m & NM & ->).
    pose proof (nest_all_spec D GD (c_asm C) (c_space C) us _
      (homed_made D GD (c_asm C) (TGeneral i) u i m HI eq_refl NM)) as NA.
    destruct (nest_all D (c_asm C) (c_space C) (made m u (TGeneral i)) us) as [t|].
    + exists [], i. split; [constructor|]. split; [|intros k n []].
      econstructor; [reflexivity|exact NM|exact NA].
    + intros t closer j EN IN. inversion EN as [|? d h closer' ? E EH EN']; subst.
      * inversion IN as [|? h' ? ? i' ? OD NM' IN']; subst. cbn in OD. subst h'.
        rewrite (named_unique _ _ _ _ _ _ NM' NM) in IN'. destruct (NA t IN').
      * exists i, m. split; [now left|exact NM].
  - destruct HI as (d & E & EA). cbn [host_of]. rewrite E.
    destruct (d_host d) as [h|] eqn:EH.
    + destruct (GD i d h E EH) as (LH & e & Eh & Ea).
      specialize (IH h (ex_intro _ e (conj Eh (eq_trans Ea EA))) ltac:(lia)).
      destruct (climb D fuel (c_asm C) (c_space C) (Some (TGeneral h)) u us) as [t|].
      * destruct IH as (closer & j & EN & IN & N). exists (i :: closer), j.
        split; [econstructor; eauto|]. split; [exact IN|].
        intros k n [<-|I]; [exact (NS n)|exact (N k n I)].
      * intros t closer j EN IN. inversion EN as [|? d' h' closer' ? E' EH' EN']; subst.
        -- inversion IN as [|? h' ? ? i' ? OD NM' IN']; subst. cbn in OD. subst h'.
           destruct (NS i' NM').
        -- assert (h' = h) as -> by congruence.
           destruct (IH t closer' j EN' IN) as (k & n & I & NM). exists k, n. split; [now right|exact NM].
    + assert (climb D fuel (c_asm C) (c_space C) None u us = None) as -> by (now destruct fuel).
      intros t closer j EN IN. inversion EN as [|? d' h' closer' ? E' EH' EN']; subst; [|congruence].
      inversion IN as [|? h' ? ? i' ? OD NM' IN']; subst. cbn in OD. subst h'. destruct (NS i' NM').
Qed.

Lemma nested_spec us : us <> [] ->
  match match c_type C with
        | None => None
        | Some i => find_nest_type D (c_asm C) (c_space C) (Some (TGeneral i)) us
        end with
  | Some t => nested_meaning C us t
  | None => forall t, ~ nested_meaning C us t
  end.
Proof.
  intros NE. destruct us as [|u us]; [congruence|]. destruct (c_type C) as [i|] eqn:ET.
  - cbn [find_nest_type]. destruct (proj2 GC i ET) as (d & E & EA).
    assert (i < length D) by (apply nth_error_Some; unfold D; congruence).
    pose proof (climb_spec u us (S (length D)) i (ex_intro _ d (conj E EA)) ltac:(lia)) as CS.
    destruct (climb D (S (length D)) (c_asm C) (c_space C) (Some (TGeneral i)) u us) as [t|].
    + destruct CS as (closer & j & EN & IN & N). exists u, us, i, closer, j. auto.
    + intros t (u' & us' & i' & closer & j & EQ & ET' & EN & IN & N). injection EQ as <- <-.
      assert (i' = i) as -> by congruence.
      destruct (CS t closer j EN IN) as (k & n & I & NM). exact (N k n I NM).
  - intros t (u' & us' & i' & closer & j & EQ & ET' & _). congruence.
Qed.

Lemma enclosing_first i c1 j1 c2 j2 : enclosing D i c1 j1 -> enclosing D i c2 j2 ->
  (c1 = c2 /\ j1 = j2) \/ In j1 c2 \/ In j2 c1.
Proof.
  intros A. revert c2 j2. induction A as [i|i d h c1 j1 E EH A IH]; intros c2 j2 B.
  - inversion B; subst; [auto|]. right. left. now left.
  - inversion B as [|? d' h' c2' ? E' EH' B']; subst.
    + right. right. now left.
    + assert (h' = h) as -> by congruence. destruct (IH c2' j2 B') as [[-> ->]|[I|I]]; auto.
      * right. left. now right.
      * right. right. now right.
Qed.

Lemma nested_unique us t t' : nested_meaning C us t -> nested_meaning C us t' -> t = t'.
Proof.
  intros (u & us1 & i & c1 & j1 & -> & ET & A & IN & N) (u' & us' & i' & c2 & j2 & EQ & ET' & B & IN' & N').
  injection EQ as <- <-. assert (i' = i) as -> by congruence.
  destruct (enclosing_first _ _ _ _ _ A B) as [[-> ->]|[I|I]].
  - exact (inside_unique _ _ _ _ _ IN IN').
  - inversion IN as [|? h ? ? n ? OD NM _]; subst. cbn in OD. subst h. destruct (N' j1 n I NM).
  - inversion IN' as [|? h ? ? n ? OD NM _]; subst. cbn in OD. subst h. destruct (N j2 n I NM).
Qed.

(* ---- generic params ---- *)

Lemma find_param_spec ps n :
  match find_param ps n with
  | Some k => first_param ps n k
  | None => ~ In n ps
  end.
Proof.
  induction ps as [|p ps IH]; cbn [find_param]; [intros []|].
  destruct (Z.eqb p n) eqn:E.
  - apply Z.eqb_eq in E. subst p. split; [reflexivity|]. intros j L. lia.
  - apply Z.eqb_neq in E. destruct (find_param ps n) as [k|].
    + destruct IH as [H1 H2]. split; [exact H1|]. intros [|j] L; cbn; [congruence|].
      apply H2. lia.
    + intros [->|I]; [congruence|exact (IH I)].
Qed.

Lemma first_param_in ps n k : first_param ps n k -> In n ps.
Proof. intros [H _]. exact (nth_error_In _ _ H). Qed.

Lemma first_param_unique ps n j k : first_param ps n j -> first_param ps n k -> j = k.
Proof.
  intros [A A'] [B B']. destruct (lt_eq_lt_dec j k) as [[L|E]|L]; [|exact E|].
  - destruct (B' j L A).
  - destruct (A' k L B).
Qed.

Lemma type_param_spec n : forall fuel i, i < fuel -> i < length D ->
  match find_type_param D fuel i n with
  | Some t => exists closer j k, enclosing D i closer j /\ first_param (params_of D j) n k /\
      t = TParam j k /\ forall i', In i' closer -> ~ In n (params_of D i')
  | None => forall closer j, enclosing D i closer j -> ~ In n (params_of D j)
  end.
Proof.
  induction fuel as [|fuel IH]; intros i LF LI; [lia|]. cbn [find_type_param].
  destruct (nth_error D i) as [d|] eqn:E; [|apply nth_error_None in E; lia].
  pose proof (find_param_spec (d_params d) n) as FP.
  assert (EP : params_of D i = d_params d) by (unfold params_of; now rewrite E).
  destruct (find_param (d_params d) n) as [k|].
  - exists [], i, k. split; [constructor|]. rewrite EP. split; [exact FP|]. split; [reflexivity|].
    intros i' [].
  - destruct (d_host d) as [h|] eqn:EH.
    + destruct (GD i d h E EH) as (LH & e & Eh & _).
      specialize (IH h ltac:(lia) ltac:(lia)). destruct (find_type_param D fuel h n) as [t|].
      * destruct IH as (closer & j & k & EN & F & -> & N). exists (i :: closer), j, k.
        split; [econstructor; eauto|]. split; [exact F|]. split; [reflexivity|].
        intros i' [<-|I]; [now rewrite EP|exact (N i' I)].
      * intros closer j EN. inversion EN as [|? d' h' closer' ? E' EH' EN']; subst; [now rewrite EP|].
        assert (h' = h) as -> by congruence. exact (IH _ _ EN').
    + intros closer j EN. inversion EN as [|? d' h' closer' ? E' EH' EN']; subst; [now rewrite EP|congruence].
Qed.

Lemma param_spec us :
  match param_meaning C us with
  | Some t => param_means C us t
  | None => forall t, ~ param_means C us t
  end.
Proof.
  unfold param_meaning. destruct us as [|u [|v us]].
  - intros t (n & EQ & _). discriminate EQ.
  - destruct u as [n args]. unfold is_generic. cbn [u_args u_name]. destruct args as [|x args].
    + pose proof (find_param_spec (method_params C) n) as FP. unfold method_params in FP.
      assert ((match c_method C with Some ps => find_param ps n | None => None end) =
              find_param (method_params C) n) as -> by (unfold method_params; now destruct (c_method C)).
      change (match c_method C with Some ps => ps | None => [] end) with (method_params C) in FP.
      destruct (find_param (method_params C) n) as [k|].
      * exists n. split; [reflexivity|]. left. eauto.
      * destruct (c_type C) as [i|] eqn:ET.
        -- destruct (proj2 GC i ET) as (d & E & _).
           assert (LI : i < length D) by (apply nth_error_Some; unfold D; congruence).
           pose proof (type_param_spec n (S (length D)) i ltac:(lia) LI) as TS. fold D.
           destruct (find_type_param D (S (length D)) i n) as [t|].
           ++ destruct TS as (closer & j & k & EN & F & -> & N). exists n. split; [reflexivity|].
              right. split; [exact FP|]. exists i, closer, j, k. auto.
           ++ intros t (n' & EQ & [(k & F & _)|(_ & i' & closer & j & k & ET' & EN & F & _)]);
                injection EQ as <-.
              ** exact (FP (first_param_in _ _ _ F)).
              ** assert (i' = i) as -> by congruence. exact (TS closer j EN (first_param_in _ _ _ F)).
        -- intros t (n' & EQ & [(k & F & _)|(_ & i' & closer & j & k & ET' & _)]); injection EQ as <-.
           ++ exact (FP (first_param_in _ _ _ F)).
           ++ congruence.
    + intros t (n' & EQ & _). discriminate EQ.
  - intros t (n & EQ & _). discriminate EQ.
Qed.

Lemma param_unique us t t' : param_means C us t -> param_means C us t' -> t = t'.
Proof.
  intros (n & -> & P) (n' & EQ & P'). injection EQ as <-.
  destruct P as [(k & F & ->)|(NI & i & c1 & j & k & ET & A & F & -> & N)],
           P' as [(k' & F' & ->)|(NI' & i' & c2 & j' & k' & ET' & B & F' & -> & N')].
  - f_equal. exact (first_param_unique _ _ _ _ F F').
  - destruct (NI' (first_param_in _ _ _ F)).
  - destruct (NI (first_param_in _ _ _ F')).
  - assert (i' = i) as -> by congruence.
    destruct (enclosing_first _ _ _ _ _ A B) as [[-> ->]|[I|I]].
    + f_equal. exact (first_param_unique _ _ _ _ F F').
    + destruct (N' j I (first_param_in _ _ _ F)).
    + destruct (N j' I (first_param_in _ _ _ F')).
Qed.

Theorem meaning_iff us t : us <> [] -> (meaning C GDefault us = Some t <-> means C us t).
Proof.
  intros NE. unfold meaning, means. pose proof (param_spec us) as PS.
  destruct (param_meaning C us) as [p|].
  - split.
    + intros E. injection E as ->. now left.
    + intros [P|[NP _]]; [f_equal; exact (param_unique _ _ _ PS P)|destruct (NP p PS)].
  - unfold general_meaning. pose proof (nested_spec us NE) as NS. fold D.
    destruct (match c_type C with
              | Some i => find_nest_type D (c_asm C) (c_space C) (Some (TGeneral i)) us
              | None => None end) as [q|].
    + split.
      * intros E. injection E as ->. right. auto.
      * intros [P|[_ [N|[NN _]]]]; [destruct (PS t P)|f_equal; exact (nested_unique _ _ _ NS N)|
          destruct (NN q NS)].
    + assert (match search_spaces D (c_asm C) (rev (c_space C)) us with
              | Some t => Some t
              | None => match search_global C us with
                        | Some t => Some t
                        | None => match c_document C with
                                  | Some (_, ss) => search_usings C ss us
                                  | None => None end end end
              = first_of D (spaces C us)) as ->.
      { unfold spaces, own_spaces. rewrite !first_of_app, own_spaces_ok, rev_length, rev_involutive.
        rewrite global_ok by exact NE.
        destruct (c_document C) as [[ms ss]|]; [rewrite usings_ok by exact NE|]; reflexivity. }
      rewrite (first_of_iff D GD). split.
      * intros F. right. split; [exact PS|]. right. auto.
      * intros [P|[_ [N|[_ F]]]]; [destruct (PS t P)|destruct (NS t N)|exact F].
Qed.

End Resolve.

Section Root.
Variable C : context.
Hypothesis GC : good_context C.

Lemma root_global us : us <> [] -> c_document C <> None ->
  general_meaning C GRoot us = general_meaning C GGlobal us.
Proof.
  intros NE ND. cbn [general_meaning].
  destruct (find_type (c_decls C) (c_asm C) [] us) as [t|] eqn:E; [|reflexivity].
  unfold search_global. destruct (c_document C) as [[ms ss]|]; [|congruence].
  now rewrite search_find, E.
Qed.

Theorem root_iff g us t : g <> GDefault -> us <> [] -> c_document C <> None ->
  (meaning C g us = Some t <-> root_means C us t).
Proof.
  intros NG NE ND. unfold meaning, root_means. pose proof (param_spec C GC us) as PS.
  destruct (param_meaning C us) as [p|].
  - split.
    + intros E. injection E as ->. now left.
    + intros [P|[NP _]]; [f_equal; exact (param_unique C _ _ _ PS P)|destruct (NP p PS)].
  - assert (general_meaning C g us = first_of (c_decls C) (global_spaces C us)) as ->.
    { transitivity (general_meaning C GGlobal us).
      - destruct g; [congruence|apply root_global; assumption|reflexivity].
      - cbn [general_meaning]. now apply global_ok. }
    rewrite (first_of_iff _ (GD C GC)). split.
    + intros F. right. auto.
    + intros [P|[_ F]]; [destruct (PS t P)|exact F].
Qed.

End Root.

(* ---- more assemblies ---- *)

Section More.
Variables (D E : list decl) (a : nat).
Hypothesis GD0 : good_decls D.
Hypothesis GD1 : good_decls (D ++ E).
Hypothesis OTHER : forall d, In d E -> d_asm d <> a.

Lemma first_such_more (Q : decl -> Prop) i : (forall d, In d E -> ~ Q d) ->
  (first_such (D ++ E) Q i <-> first_such D Q i).
Proof.
  intros NQ.
  assert (A : forall j d, nth_error (D ++ E) j = Some d -> Q d -> nth_error D j = Some d).
  { intros j d EJ QD. destruct (Nat.lt_ge_cases j (length D)) as [L|L].
    - now rewrite nth_error_app1 in EJ by exact L.
    - rewrite nth_error_app2 in EJ by exact L. destruct (NQ d (nth_error_In _ _ EJ) QD). }
  assert (B : forall j d, nth_error D j = Some d -> nth_error (D ++ E) j = Some d).
  { intros j d EJ. rewrite nth_error_app1; [exact EJ|]. apply nth_error_Some. congruence. }
  split; intros [(d & Ed & Qd) F].
  - split; [exists d; split; [exact (A i d Ed Qd)|exact Qd]|].
    intros j e L EJ. exact (F j e L (B j e EJ)).
  - split; [exists d; split; [exact (B i d Ed)|exact Qd]|].
    intros j e L EJ QE. exact (F j e L (A j e EJ QE) QE).
Qed.

Lemma named_more (P : decl -> Prop) n c i : (forall d, In d E -> ~ P d) ->
  (named (D ++ E) P n c i <-> named D P n c i).
Proof.
  intros NP. unfold named. cbv zeta.
  assert (A : forall j, first_such (D ++ E) (fun d => P d /\ d_name d = n /\ ~ open d /\
      length (d_params d) = c) j <-> first_such D (fun d => P d /\ d_name d = n /\ ~ open d /\
      length (d_params d) = c) j).
  { intros j. apply first_such_more. intros d I (X & _). exact (NP d I X). }
  assert (B : forall j, first_such (D ++ E) (fun d => P d /\ d_name d = n /\ open d) j <->
      first_such D (fun d => P d /\ d_name d = n /\ open d) j).
  { intros j. apply first_such_more. intros d I (X & _). exact (NP d I X). }
  rewrite A, B.
  assert (L : first_such D (fun d => P d /\ d_name d = n /\ open d) i ->
              nth_error (D ++ E) i = nth_error D i).
  { intros [(d & Ed & _) _]. apply nth_error_app1. apply nth_error_Some. congruence. }
  split; (intros [H|(N & F & M)]; [now left|right; split; [|split; [exact F|]]]).
  - intros j X. apply (N j). now apply A.
  - rewrite (L F) in M. exact M.
  - intros j X. apply (N j). now apply A.
  - rewrite (L F). exact M.
Qed.

(* A declaration of the assembly *)
Definition own (h : nat) : Prop := exists e, nth_error D h = Some e /\ d_asm e = a.

Lemma not_nested h d : own h -> In d E -> ~ in_type h d.
Proof.
  intros (e & Eh & Ea) I H. destruct (In_nth_error _ _ I) as [j EJ].
  assert (EJ' : nth_error (D ++ E) (length D + j) = Some d)
    by (rewrite nth_error_app2 by lia; now replace (length D + j - length D) with j by lia).
  destruct (GD1 _ _ _ EJ' H) as (_ & e' & Eh' & Ea').
  rewrite nth_error_app1 in Eh' by (apply nth_error_Some; congruence).
  apply (OTHER d I). congruence.
Qed.

Lemma own_nested h n c i : own h -> named D (in_type h) n c i -> own i.
Proof.
  intros (e & Eh & Ea) NM. destruct (named_decl _ _ _ _ _ NM) as (d & Ed & P & _).
  destruct (GD0 i d h Ed P) as (_ & e' & Eh' & Ea'). exists d. split; [exact Ed|]. congruence.
Qed.

Lemma made_decl i u t j : of_decl (made i u t) j -> j = i.
Proof. unfold made. destruct t; destruct (u_args u); cbn; congruence. Qed.

Lemma inside_more t us n : (forall h, of_decl t h -> own h) ->
  (inside (D ++ E) t us n <-> inside D t us n).
Proof.
  intros OW. split; intros IN.
  - revert OW. induction IN as [t|t h u us i t' OD NM IN IH]; intros OW; [constructor|].
    apply named_more in NM; [|intros d I; exact (not_nested h d (OW h OD) I)].
    apply (in_next _ _ h _ _ i); [exact OD|exact NM|]. apply IH.
    intros j OJ. apply made_decl in OJ. subst j. exact (own_nested h _ _ i (OW h OD) NM).
  - revert OW. induction IN as [t|t h u us i t' OD NM IN IH]; intros OW; [constructor|].
    apply (in_next _ _ h _ _ i); [exact OD| |].
    + apply named_more; [|exact NM]. intros d I; exact (not_nested h d (OW h OD) I).
    + apply IH. intros j OJ. apply made_decl in OJ. subst j.
      exact (own_nested h _ _ i (OW h OD) NM).
Qed.

Lemma not_top ns d : In d E -> ~ at_top a ns d.
Proof. intros I (_ & EA & _). exact (OTHER d I EA). Qed.

Lemma own_top ns n c i : named D (at_top a ns) n c i -> own i.
Proof.
  intros NM. destruct (named_decl _ _ _ _ _ NM) as (d & Ed & (_ & EA & _) & _). exists d. auto.
Qed.

Lemma top_decl i u j : of_decl (top i u) j -> j = i.
Proof. unfold top. destruct (u_args u); cbn; congruence. Qed.

Lemma reads_more ns us k t : reads (D ++ E) a ns us k t <-> reads D a ns us k t.
Proof.
  split; intros (ps & u & rest & i & EQ & L & F & NM & IN);
    exists ps, u, rest, i; repeat (split; [assumption|]).
  - apply named_more in NM; [|intros d; apply not_top]. split; [exact NM|].
    apply inside_more in IN; [exact IN|]. intros h OH. apply top_decl in OH. subst h.
    exact (own_top _ _ _ _ NM).
  - split; [apply named_more; [intros d; apply not_top|exact NM]|].
    apply inside_more; [|exact IN]. intros h OH. apply top_decl in OH. subst h.
    exact (own_top _ _ _ _ NM).
Qed.

Lemma space_more ns us t : space_meaning (D ++ E) a ns us t <-> space_meaning D a ns us t.
Proof.
  split; intros (k & R & M); exists k; (split; [now apply reads_more|]);
    intros k' t' L R'; apply (M k' t' L); now apply reads_more.
Qed.

Lemma enclosing_more i closer j : own i ->
  (enclosing (D ++ E) i closer j <-> enclosing D i closer j) .
Proof.
  intros OW. split; intros EN; revert OW.
  - induction EN as [i|i d h closer j Ed EH EN IH]; intros OW; [constructor|].
    destruct OW as (e & Ee & Ea).
    rewrite nth_error_app1 in Ed by (apply nth_error_Some; congruence).
    destruct (GD0 _ _ _ Ed EH) as (_ & e' & Eh & Ea').
    apply (enc_host _ i d h closer j Ed EH). apply IH. exists e'. split; [exact Eh|]. congruence.
  - induction EN as [i|i d h closer j Ed EH EN IH]; intros OW; [constructor|].
    destruct OW as (e & Ee & Ea). destruct (GD0 _ _ _ Ed EH) as (_ & e' & Eh & Ea').
    apply (enc_host _ i d h closer j); [|exact EH|].
    + rewrite nth_error_app1; [exact Ed|]. apply nth_error_Some. congruence.
    + apply IH. exists e'. split; [exact Eh|]. congruence.
Qed.

Lemma enclosing_own i closer j : own i -> enclosing D i closer j ->
  own j /\ forall k, In k closer -> own k.
Proof.
  intros OW EN. revert OW. induction EN as [i|i d h closer j Ed EH EN IH]; intros OW.
  - split; [exact OW|]. intros k [].
  - assert (OH : own h).
    { destruct OW as (e & Ee & Ea). destruct (GD0 _ _ _ Ed EH) as (_ & e' & Eh & Ea').
      exists e'. split; [exact Eh|]. congruence. }
    destruct (IH OH) as [OJ OC]. split; [exact OJ|]. intros k [<-|I]; [exact OW|exact (OC k I)].
Qed.

Lemma params_more j : own j -> params_of (D ++ E) j = params_of D j.
Proof.
  intros (e & Ee & _). unfold params_of.
  rewrite nth_error_app1; [reflexivity|]. apply nth_error_Some. congruence.
Qed.

End More.

Section Extends.
Variables C C' : context.
Hypothesis GC : good_context C.
Hypothesis GC' : good_context C'.
Hypothesis X : extends C C'.

Lemma nested_extends us t : nested_meaning C' us t <-> nested_meaning C us t.
Proof.
  destruct X as (_ & (E & ED & OT) & EA & EM & ET & ES).
  pose proof (proj1 GC) as G0. pose proof (proj1 GC') as G1. rewrite ED in G1.
  unfold nested_meaning. rewrite ED, ET. set (D := c_decls C) in *.
  split; intros (u & rest & i & closer & j & EQ & CT & EN & IN & N);
    destruct (proj2 GC i CT) as (d & Ed & Ea);
    assert (OI : own D (c_asm C) i) by (exists d; auto);
    exists u, rest, i, closer, j; (split; [exact EQ|]); (split; [exact CT|]).
  - apply (enclosing_more D E (c_asm C) G0) in EN; [|exact OI].
    destruct (enclosing_own D (c_asm C) G0 _ _ _ OI EN) as [OJ OC].
    split; [exact EN|]. split.
    + apply (inside_more D E (c_asm C) G0 G1 OT) in IN; [exact IN|]. intros h OH. cbn in OH. now subst h.
    + intros k n I NM. apply (N k n I). apply named_more; [|exact NM].
      intros e IE. exact (not_nested D E (c_asm C) G1 OT k e (OC k I) IE).
  - destruct (enclosing_own D (c_asm C) G0 _ _ _ OI EN) as [OJ OC].
    split; [now apply (enclosing_more D E (c_asm C) G0)|]. split.
    + apply (inside_more D E (c_asm C) G0 G1 OT); [|exact IN]. intros h OH. cbn in OH. now subst h.
    + intros k n I NM. apply (N k n I). apply named_more in NM; [exact NM|].
      intros e IE. exact (not_nested D E (c_asm C) G1 OT k e (OC k I) IE).
Qed.

Lemma param_extends us t : param_means C' us t <-> param_means C us t.
Proof.
  destruct X as (_ & (E & ED & OT) & EA & EM & ET & ES).
  pose proof (proj1 GC) as G0. pose proof (proj1 GC') as G1. rewrite ED in G1.
  unfold param_means, method_params. rewrite ED, ET, EM. set (D := c_decls C) in *.
  split; intros (n & EQ & P); exists n; (split; [exact EQ|]);
    (destruct P as [P|(NI & i & closer & j & k & CT & EN & F & EK & N)]; [left; exact P|right]);
    (split; [exact NI|]); exists i, closer, j, k; (split; [exact CT|]);
    destruct (proj2 GC i CT) as (d & Ed & Ea);
    assert (OI : own D (c_asm C) i) by (exists d; auto).
  - apply (enclosing_more D E (c_asm C) G0) in EN; [|exact OI].
    destruct (enclosing_own D (c_asm C) G0 _ _ _ OI EN) as [OJ OC].
    rewrite (params_more D E (c_asm C) j OJ) in F. repeat (split; [assumption|]).
    intros i' I. rewrite <- (params_more D E (c_asm C) i' (OC i' I)). exact (N i' I).
  - destruct (enclosing_own D (c_asm C) G0 _ _ _ OI EN) as [OJ OC].
    split; [now apply (enclosing_more D E (c_asm C) G0)|].
    rewrite (params_more D E (c_asm C) j OJ). repeat (split; [assumption|]).
    intros i' I. rewrite (params_more D E (c_asm C) i' (OC i' I)). exact (N i' I).
Qed.

Theorem extends_keeps us t : us <> [] ->
  meaning C GDefault us = Some t -> meaning C' GDefault us = Some t.
Proof.
  intros NE M. apply (meaning_iff C GC us t NE) in M. apply (meaning_iff C' GC' us t NE).
  destruct M as [P|[NP [N|[NN F]]]].
  - left. now apply param_extends.
  - right. split; [intros t' P; apply (NP t'); now apply param_extends|].
    left. now apply nested_extends.
  - right. split; [intros t' P; apply (NP t'); now apply param_extends|].
    right. split; [intros t' P; apply (NN t'); now apply nested_extends|].
    destruct X as (EN & (E & ED & OT) & EA & EM & ET & ES).
    pose proof (proj1 GC) as G0. pose proof (proj1 GC') as G1. rewrite ED in G1.
    assert (SP : spaces C us = own_spaces C us).
    { unfold spaces, global_spaces. rewrite EN. now rewrite !app_nil_r. }
    rewrite SP in F. destruct F as (b & p & r & EQ & M & B).
    assert (OS : own_spaces C' us = own_spaces C us) by (unfold own_spaces; now rewrite EA, ES).
    assert (AP : forall q, In q (own_spaces C us) -> fst (fst q) = c_asm C).
    { intros q I. unfold own_spaces in I. apply in_map_iff in I. destruct I as (k & <- & _). reflexivity. }
    assert (PM : forall q n, In q (own_spaces C us) ->
      (place_meaning (c_decls C') q n <-> place_meaning (c_decls C) q n)).
    { intros q n I. unfold place_meaning. rewrite (AP q I), ED.
      exact (space_more (c_decls C) E (c_asm C) G0 G1 OT _ _ _). }
    exists b, p, (r ++ global_spaces C' us ++ match c_document C' with
      | None => [] | Some (_, ss) => flat_map (using_spaces C' us) ss end).
    split; [|split].
    + unfold spaces. rewrite OS, EQ, <- app_assoc. reflexivity.
    + apply PM; [|exact M]. rewrite EQ. apply in_or_app. right. now left.
    + intros q n I Q. apply (B q n I). apply PM; [|exact Q]. rewrite EQ. apply in_or_app. now left.
Qed.

End Extends.
