(* Lemmas for PropertiesNet.v: every sentence of an LL(1) grammar is accepted. *)
From Coq Require Import ZArith List Bool Arith Lia.
From Verif Require Import NetModel NetSpec NetProofs NetTotalProofs.
Import ListNotations.
Local Open Scope nat_scope.

(* ---- no format error without a missing branch ---- *)

Definition clean {A} (o : outcome A) : Prop := o <> FormatError.

Lemma clean_bind : forall A B (o : outcome A) (f : A -> outcome B),
  clean o -> (forall a, clean (f a)) -> clean (bind o f).
Proof.
  intros A B [a| | |] f H HF; cbn [bind]; try (intros E; discriminate E).
  - exact (HF a).
  - exfalso. apply H. reflexivity.
Qed.

Lemma clean_ok : forall A (a : A), clean (Ok a).
Proof. intros A a E. discriminate E. Qed.

Lemma clean_each : forall A B (f : A -> outcome B) l, (forall x, clean (f x)) -> clean (each f l).
Proof.
  intros A B f l H. induction l as [|x r IH]; cbn [each]; [apply clean_ok |].
  apply clean_bind; [apply H |]. intros y. apply clean_bind; [exact IH |]. intros ys. apply clean_ok.
Qed.

Lemma clean_settled : forall A (o : outcome A), settled o -> clean o -> exists a, o = Ok a.
Proof.
  intros A [a| | |] H C; [exists a; reflexivity | | destruct H | destruct H].
  exfalso. apply C. reflexivity.
Qed.

Section Complete.

Variable g : net.
Hypothesis L : ll1 g.
Variable own : nat -> Z.
Hypothesis HB : forall b n, begins g b n -> own n = b.
Hypothesis HN : forall n m, In m (nd_next (nt_node g n)) -> own m = own n.
Hypothesis HE : forall n b, nd_end (nt_node g n) = Some b -> own n = b.
Variable m : nat.
Variable rank : Z -> nat.
Hypothesis rank_max : forall b, rank b <= m.
Hypothesis rank_down : forall b n b', begins g b n -> nd_key (nt_node g n) = KRef b' ->
  nd_expandable (nt_node g n) = true -> rank b' < rank b.
Variable rank2 : Z -> nat.
Hypothesis rank2_max : forall b, rank2 b <= m.
Hypothesis rank2_down : forall b n b', begins g b n -> nd_key (nt_node g n) = KRef b' ->
  nd_end (nt_node g n) <> None -> rank2 b' < rank2 b.

Lemma expand_clean : forall fuel path l, clean (expand fuel g path l).
Proof.
  induction fuel as [|f IH]; intros path l; [intros E; discriminate E |].
  rewrite expand_S. induction l as [|n r IHl]; [apply clean_ok |].
  rewrite expand_loop_cons. apply clean_bind.
  - destruct (nd_key (nt_node g n)) as [v|b] eqn:EK; [apply clean_ok |].
    destruct (ll1_refs g L n b EK) as [EX [_ [ES _]]]. rewrite EX.
    destruct (nt_start g b) as [s|]; [apply IH | exfalso; apply ES; reflexivity].
  - intros d. apply clean_bind; [exact IHl |]. intros rest. apply clean_ok.
Qed.

Lemma units_clean : forall fuel p k, clean (units_of fuel g p k).
Proof.
  intros fuel p k. unfold units_of, reachable.
  apply clean_bind; [| intros a; apply clean_ok].
  apply clean_bind; [apply expand_clean | intros a; apply clean_ok].
Qed.

Lemma enter_clean : forall fuel set k, clean (enter fuel g set k).
Proof.
  intros fuel set k. unfold enter. apply clean_bind; [| intros a; apply clean_ok].
  apply clean_each. intros p. apply units_clean.
Qed.

Lemma items_clean : forall fuel w stay p set e, clean (items_of fuel g w stay p set e).
Proof.
  intros fuel w stay p set e. unfold items_of. apply clean_bind; [| intros a; apply clean_ok].
  apply clean_each. intros k. unfold item_of. apply clean_bind; [apply enter_clean |].
  intros [|x r].
  - destruct (stay && w_invisible w (key_value k)); apply clean_ok.
  - apply clean_bind; [apply units_clean |]. intros [|u us]; apply clean_ok.
Qed.

Lemma pop_clean : forall i fuel fr below acts, clean (pop fuel g i fr below acts).
Proof.
  intros i. induction fuel as [|f IH]; intros fr below acts; cbn [pop].
  - destruct (end_of g (f_place fr)); [| apply clean_ok].
    destruct below; [apply clean_ok | intros E; discriminate E].
  - destruct (end_of g (f_place fr)) as [b|]; [| apply clean_ok].
    destruct below as [|p r]; [apply clean_ok |].
    apply clean_bind; [apply enter_clean |]. intros _.
    apply clean_bind; [apply units_clean |]. intros [|u0 ur]; [intros E; discriminate E |].
    apply clean_bind; [apply enter_clean |]. intros dst.
    apply clean_bind; [| intros ls; apply clean_ok].
    apply clean_each. intros u. cbn beta zeta. destruct (Nat.eqb (u_step u) 0); apply IH.
Qed.

(* ---- what is found ---- *)

Lemma expand_heads : forall fuel path l us, expand fuel g path l = Ok us ->
  forall n, In n l -> In (Unit (ToNode n) path) us.
Proof.
  intros [|f] path l us E; [discriminate E |]. rewrite expand_S in E. revert us E.
  induction l as [|x r IH]; intros us E n I; [destruct I |].
  rewrite expand_loop_cons in E. apply bind_ok in E. destruct E as [d [_ E]].
  apply bind_ok in E. destruct E as [rest [Er E]]. injection E as <-.
  destruct I as [<- | I]; [left; reflexivity | right].
  apply in_app_iff. right. exact (IH rest Er n I).
Qed.

Lemma expand_closed : forall fuel path l us, expand fuel g path l = Ok us ->
  forall q r b n, In (Unit (ToNode r) q) us -> nd_key (nt_node g r) = KRef b -> begins g b n ->
  In (Unit (ToNode n) (q ++ [b])) us.
Proof.
  induction fuel as [|f IH]; intros path l us E; [discriminate E |].
  rewrite expand_S in E. revert us E. induction l as [|x s IHl]; intros us E q r b n I EK HBn.
  - injection E as <-. destruct I.
  - rewrite expand_loop_cons in E. apply bind_ok in E. destruct E as [d [Ed E]].
    apply bind_ok in E. destruct E as [rest [Er E]]. injection E as <-.
    right. apply in_app_iff. destruct I as [I | I].
    + injection I as -> <-. left. rewrite EK in Ed.
      destruct (ll1_refs g L r b EK) as [EX _]. rewrite EX in Ed.
      destruct HBn as [st [ES In0]]. rewrite ES in Ed. exact (expand_heads _ _ _ _ Ed n In0).
    + apply in_app_iff in I. destruct I as [I | I]; [left | right].
      * destruct (nd_key (nt_node g x)) as [v|b0]; [injection Ed as <-; destruct I |].
        destruct (nd_expandable (nt_node g x)); [| injection Ed as <-; destruct I].
        destruct (nt_start g b0) as [s0|]; [| discriminate Ed].
        exact (IH _ _ _ Ed q r b n I EK HBn).
      * exact (IHl rest Er q r b n I EK HBn).
Qed.

Lemma expand_sound : forall p fuel path l us, expand fuel g path l = Ok us ->
  (forall n, In n l -> reach g p path n) ->
  forall u, In u us -> exists n, u_to u = ToNode n /\ reach g p (u_path u) n.
Proof.
  intros p. induction fuel as [|f IH]; intros path l us E; [discriminate E |].
  rewrite expand_S in E. revert us E. induction l as [|x s IHl]; intros us E HR u I.
  - injection E as <-. destruct I.
  - rewrite expand_loop_cons in E. apply bind_ok in E. destruct E as [d [Ed E]].
    apply bind_ok in E. destruct E as [rest [Er E]]. injection E as <-.
    destruct I as [<- | I].
    + exists x. split; [reflexivity |]. apply HR. left. reflexivity.
    + apply in_app_iff in I. destruct I as [I | I].
      * destruct (nd_key (nt_node g x)) as [v|b0] eqn:EK; [injection Ed as <-; destruct I |].
        destruct (nd_expandable (nt_node g x)); [| injection Ed as <-; destruct I].
        destruct (nt_start g b0) as [s0|] eqn:ES; [| discriminate Ed].
        apply (IH _ _ _ Ed); [| exact I]. intros n In0.
        apply (reach_into g p path x b0 n); [apply HR; left; reflexivity | exact EK |].
        exists s0. split; assumption.
      * apply (IHl rest Er); [| exact I]. intros n In0. apply HR. right. exact In0.
Qed.

Lemma target_eqb_refl : forall t, target_eqb t t = true.
Proof. intros [x|[|x]]; cbn [target_eqb]; try reflexivity; apply Nat.eqb_refl. Qed.

Lemma distinct_unseen : forall l seen u, In u (distinct seen l) -> existsb (same_stack u) seen = false.
Proof.
  induction l as [|x r IH]; intros seen u I; cbn [distinct] in I; [destruct I |].
  destruct (existsb (same_stack x) seen) eqn:E; [exact (IH seen u I) |].
  destruct I as [<- | I]; [exact E |].
  pose proof (IH _ _ I) as H. cbn [existsb] in H. apply orb_false_iff in H. exact (proj2 H).
Qed.

Lemma distinct_nodup : forall l seen, NoDup (distinct seen l).
Proof.
  induction l as [|x r IH]; intros seen; cbn [distinct]; [constructor |].
  destruct (existsb (same_stack x) seen); [apply IH |]. constructor; [| apply IH].
  intros I. pose proof (distinct_unseen _ _ _ I) as H. cbn [existsb] in H.
  apply orb_false_iff in H. destruct H as [H _]. unfold same_stack in H.
  rewrite target_eqb_refl, Nat.eqb_refl in H. discriminate H.
Qed.

(* By one key at most one unit is found, and it is found when there is one. *)
Lemma units_ll : forall fuel p k, m + 2 <= fuel ->
  (units_of fuel g p k = Ok [] /\ forall path n, reach g p path n -> nd_key (nt_node g n) <> k) \/
  (exists path n, units_of fuel g p k = Ok [Unit (ToNode n) path] /\
     reach g p path n /\ nd_key (nt_node g n) = k).
Proof.
  intros fuel p k LF.
  destruct (clean_settled _ _ (units_settled g m rank rank_max rank_down fuel p k LF)
              (units_clean fuel p k)) as [us EU].
  assert (ALL : forall u, In u us ->
            exists n, u = Unit (ToNode n) (u_path u) /\ reach g p (u_path u) n /\ nd_key (nt_node g n) = k).
  { intros u I. unfold units_of, reachable in EU.
    apply bind_ok in EU. destruct EU as [l [E1 E]]. injection E as <-.
    apply bind_ok in E1. destruct E1 as [l0 [E1 E2]]. injection E2 as <-.
    apply filter_In in I. destruct I as [I HK]. apply distinct_incl in I.
    destruct (expand_sound p _ _ _ _ E1 (fun n In0 => reach_link g p n In0) u I) as [n [ET HR]].
    exists n. unfold has_key, unit_key in HK. rewrite ET in HK. apply key_eqb_eq in HK.
    split; [destruct u as [t q]; cbn [u_to u_path] in *; rewrite ET; reflexivity |].
    split; assumption. }
  assert (FND : forall path n, reach g p path n -> nd_key (nt_node g n) = k -> us <> []).
  { intros path n HR EK. unfold units_of, reachable in EU.
    apply bind_ok in EU. destruct EU as [l [E1 E]]. injection E as <-.
    apply bind_ok in E1. destruct E1 as [l0 [E1 E2]]. injection E2 as <-.
    assert (I0 : In (Unit (ToNode n) path) l0).
    { clear EK ALL. induction HR as [n In0 | path r b n HR IH EKr HBn].
      - exact (expand_heads _ _ _ _ E1 n In0).
      - exact (expand_closed _ _ _ _ E1 path r b n IH EKr HBn). }
    destruct (distinct_keeps l0 [] _ I0) as [v' [Ev [[] | Iv]]].
    intros EF. assert (IF : In v' (filter (has_key g k) (distinct [] l0))).
    { apply filter_In. split; [exact Iv |]. unfold has_key, unit_key. rewrite Ev. cbn [u_to].
      rewrite EK. apply key_eqb_refl. }
    rewrite EF in IF. destruct IF. }
  assert (ND : NoDup us).
  { unfold units_of, reachable in EU.
    apply bind_ok in EU. destruct EU as [l [E1 E]]. injection E as <-.
    apply bind_ok in E1. destruct E1 as [l0 [E1 E2]]. injection E2 as <-.
    apply NoDup_filter. apply distinct_nodup. }
  destruct us as [|u [|v r]].
  - left. split; [exact EU |]. intros path n HR EK. exact (FND path n HR EK eq_refl).
  - right. destruct (ALL u (or_introl eq_refl)) as [n [Eu [HR EK]]].
    exists (u_path u), n. rewrite <- Eu. split; [exact EU |]. split; assumption.
  - exfalso. destruct (ALL u (or_introl eq_refl)) as [n1 [E1 [R1 K1]]].
    destruct (ALL v (or_intror (or_introl eq_refl))) as [n2 [E2 [R2 K2]]].
    destruct (ll1_next g L p _ _ _ _ R1 R2) as [EP EN]; [congruence |].
    inversion ND as [|x y NI ND']; subst. apply NI. left. rewrite E1, E2, EP. reflexivity.
Qed.

Lemma units_reach : forall fuel p path n, m + 2 <= fuel -> reach g p path n ->
  units_of fuel g p (nd_key (nt_node g n)) = Ok [Unit (ToNode n) path].
Proof.
  intros fuel p path n LF HR.
  destruct (units_ll fuel p (nd_key (nt_node g n)) LF) as [[_ H] | [path' [n' [E [HR' EK]]]]].
  - exfalso. exact (H path n HR eq_refl).
  - destruct (ll1_next g L p _ _ _ _ HR HR') as [<- <-]; [congruence |]. exact E.
Qed.

Lemma units_none : forall fuel p k, m + 2 <= fuel ->
  (forall path n, reach g p path n -> nd_key (nt_node g n) <> k) -> units_of fuel g p k = Ok [].
Proof.
  intros fuel p k LF H. destruct (units_ll fuel p k LF) as [[E _] | [path [n [_ [HR EK]]]]]; [exact E |].
  exfalso. exact (H path n HR EK).
Qed.

(* The set of a frame holds the place of the frame. *)
Lemma enter_has : forall fuel set k p path n, m + 2 <= fuel -> In p set ->
  reach g p path n -> nd_key (nt_node g n) = k ->
  exists dst, enter fuel g set k = Ok dst /\ In (At n) dst.
Proof.
  intros fuel set k p path n LF I HR EK.
  destruct (clean_settled _ _ (enter_settled g m rank rank_max rank_down fuel set k LF)
              (enter_clean fuel set k)) as [dst ED].
  exists dst. split; [exact ED |]. unfold enter in ED. apply bind_ok in ED. destruct ED as [ls [EL E]].
  injection E as <-. subst k.
  assert (IL : In [Unit (ToNode n) path] ls).
  { clear - EL I HR LF rank_max rank_down L. revert ls EL.
    induction set as [|q s IH]; intros ls EL; [destruct I |]. cbn [each] in EL.
    apply bind_ok in EL. destruct EL as [y [Ey EL]]. apply bind_ok in EL. destruct EL as [ys [Eys EL]].
    injection EL as <-. destruct I as [-> | I].
    - rewrite (units_reach fuel p path n LF HR) in Ey. injection Ey as <-. left. reflexivity.
    - right. exact (IH I ys Eys). }
  apply in_map_iff. exists (Unit (ToNode n) path). split; [reflexivity |].
  apply in_concat. exists [Unit (ToNode n) path]. split; [exact IL | left; reflexivity].
Qed.

Lemma items_reach : forall fuel w stay p set k path n, m + 2 <= fuel -> In p set ->
  reach g p path n -> nd_key (nt_node g n) = k ->
  exists dst, items_of fuel g w stay p set (One k) = Ok [Item (key_value k) [Unit (ToNode n) path] dst] /\
    In (At n) dst.
Proof.
  intros fuel w stay p set k path n LF I HR EK.
  destruct (enter_has fuel set k p path n LF I HR EK) as [dst [ED ID]].
  exists dst. split; [| exact ID]. unfold items_of. cbn [keys_of each]. unfold item_of. rewrite ED.
  cbn [bind]. destruct dst as [|d0 dr]; [destruct ID |].
  subst k. rewrite (units_reach fuel p path n LF HR). reflexivity.
Qed.

Lemma items_none : forall fuel w stay p set k, m + 2 <= fuel ->
  (stay = true -> w_invisible w (key_value k) = false) ->
  (forall path n, reach g p path n -> nd_key (nt_node g n) <> k) ->
  items_of fuel g w stay p set (One k) = Ok [].
Proof.
  intros fuel w stay p set k LF HV H. unfold items_of. cbn [keys_of each]. unfold item_of.
  destruct (clean_settled _ _ (enter_settled g m rank rank_max rank_down fuel set k LF)
              (enter_clean fuel set k)) as [dst ED].
  rewrite ED. cbn [bind]. destruct dst as [|d0 dr].
  - destruct stay; [rewrite (HV eq_refl) |]; reflexivity.
  - rewrite (units_none fuel p k LF H). reflexivity.
Qed.

(* ---- stacks of places ---- *)

(* A place, and below it places with the element their child began at. *)
Definition stack := (place * list (place * nat))%type.

Definition over (path : list Z) (p : place) (c : nat) (rest : list (place * nat)) : list (place * nat) :=
  match path with [] => rest | _ :: _ => (p, c) :: rest end.

(* Before the element at i is taken, branches may end. *)
Inductive points (i : nat) : stack -> list report -> stack -> Prop :=
| point_here s : points i s [] s
| point_after n q c rest b path r rs s :
    nd_end (nt_node g n) = Some b -> reach g q path r -> nd_key (nt_node g r) = KRef b ->
    points i (At r, over path q c rest) rs s ->
    points i (At n, (q, c) :: rest) (Report b c i :: rs) s.

Inductive grows (i : nat) (k : key) : stack -> list report -> stack -> Prop :=
| grow_here p rest path n :
    reach g p path n -> nd_key (nt_node g n) = k -> grows i k (p, rest) [] (At n, over path p i rest)
| grow_after n q c rest b path r rs s :
    nd_end (nt_node g n) = Some b -> reach g q path r -> nd_key (nt_node g r) = KRef b ->
    grows i k (At r, over path q c rest) rs s ->
    grows i k (At n, (q, c) :: rest) (Report b c i :: rs) s.

Inductive runs : stack -> word -> list report -> stack -> Prop :=
| run_nil s : runs s [] [] s
| run_cons s i k rs1 s1 w rs2 s2 :
    grows i k s rs1 s1 -> runs s1 w rs2 s2 -> runs s ((i, k) :: w) (rs1 ++ rs2) s2.

Lemma points_grows : forall i s rs p, points i s rs p ->
  forall k s', grows i k p [] s' -> grows i k s rs s'.
Proof.
  intros i s rs p H. induction H as [s | n q c rest b path r rs s EN HR EK H IH]; intros k s' G; [exact G |].
  exact (grow_after i k n q c rest b path r rs s' EN HR EK (IH k s' G)).
Qed.

Lemma points_app : forall i s rs p, points i s rs p ->
  forall rs' p', points i p rs' p' -> points i s (rs ++ rs') p'.
Proof.
  intros i s rs p H. induction H as [s | n q c rest b path r rs s EN HR EK H IH]; intros rs' p' G; [exact G |].
  cbn [app]. exact (point_after i n q c rest b path r _ p' EN HR EK (IH rs' p' G)).
Qed.

Lemma runs_app : forall s a rs1 s1 b rs2 s2,
  runs s a rs1 s1 -> runs s1 b rs2 s2 -> runs s (a ++ b) (rs1 ++ rs2) s2.
Proof.
  intros s a rs1 s1 b rs2 s2 H. induction H as [s | s i k ra s0 w rb s1 G H IH]; intros H2; [exact H2 |].
  cbn [app]. rewrite <- app_assoc. econstructor; [exact G | exact (IH H2)].
Qed.

Scheme matches_walks := Induction for matches Sort Prop
  with walks_matches := Induction for walks Sort Prop.

Lemma walks_run : forall b n w next rs, walks g b n w next rs ->
  forall s p rest path rs0, points (first w next) s rs0 (p, rest) ->
    (forall x, begins g b x -> reach g p path x) ->
    exists s' rsr rsp, runs s w rsr s' /\
      points next s' rsp (At n, over path p (first w next) rest) /\ rsr ++ rsp = rs0 ++ rs.
Proof.
  apply (walks_matches g
    (fun n w next rs _ => forall s p rest path rs0, points (first w next) s rs0 (p, rest) ->
       reach g p path n ->
       exists s' rsr rsp, runs s w rsr s' /\
         points next s' rsp (At n, over path p (first w next) rest) /\ rsr ++ rsp = rs0 ++ rs)
    (fun b n w next rs _ => forall s p rest path rs0, points (first w next) s rs0 (p, rest) ->
       (forall x, begins g b x -> reach g p path x) ->
       exists s' rsr rsp, runs s w rsr s' /\
         points next s' rsp (At n, over path p (first w next) rest) /\ rsr ++ rsp = rs0 ++ rs)).
  - intros n i next s p rest path rs0 HP HR. cbn [first] in *.
    exists (At n, over path p i rest), (rs0 ++ []), []. split; [| split; [apply point_here |]].
    + econstructor; [| apply run_nil]. apply (points_grows i s rs0 _ HP).
      apply grow_here; [exact HR | reflexivity].
    + apply app_nil_r.
  - intros n b q w next rs EK HW IH EN s p rest path rs0 HP HR.
    destruct (IH s p rest (path ++ [b]) rs0 HP (fun x Hx => reach_into g p path n b x HR EK Hx))
      as [s' [rsr [rsp [R [P E]]]]].
    exists s', rsr, (rsp ++ [Report b (first w next) next]). split; [exact R |]. split.
    + assert (EO : over (path ++ [b]) p (first w next) rest = (p, first w next) :: rest)
        by (destruct path; reflexivity).
      rewrite EO in P. apply (points_app _ _ _ _ P).
      apply (point_after next q p (first w next) rest b path n); [exact EN | exact HR | exact EK | apply point_here].
    + rewrite app_assoc, E, <- app_assoc. reflexivity.
  - intros b n w next rs HBe HM IH s p rest path rs0 HP HR. exact (IH s p rest path rs0 HP (HR n HBe)).
  - intros b q n w1 w2 next rs1 rs2 HW IH1 HI HM IH2 s p rest path rs0 HP HR.
    rewrite first_app in *.
    destruct (IH1 s p rest path rs0 HP HR) as [s1 [ra [pa [R1 [P1 E1]]]]].
    destruct (IH2 s1 (At q) (over path p (first w1 (first w2 next)) rest) [] pa P1
                (reach_link g (At q) n HI)) as [s2 [rb [pb [R2 [P2 E2]]]]].
    exists s2, (ra ++ rb), pb. split; [exact (runs_app _ _ _ _ _ _ _ R1 R2) |]. split; [exact P2 |].
    rewrite <- app_assoc, E2, app_assoc, E1, <- app_assoc. reflexivity.
Qed.

(* ---- the engine follows ---- *)

Definition entry (fr : frame) : place * nat := (f_place fr, f_child fr).
Definition stack_of (fr : frame) (below : list frame) : stack := (f_place fr, map entry below).
Definition sets_ok (below : list frame) : Prop := Forall (fun fr => In (f_place fr) (f_set fr)) below.
Definition reported (rs : list report) : list action :=
  map (fun r => Matched (r_branch r) (r_from r) (r_upto r)) rs.

Lemma reports_reported : forall rs, reports (reported rs) = rs.
Proof.
  induction rs as [|[b i j] r IH]; [reflexivity |]. cbn [reported map reports r_branch r_from r_upto].
  unfold reported in IH. rewrite IH. reflexivity.
Qed.

Lemma over_base : forall u fr below,
  map entry (if Nat.eqb (u_step u) 0 then below else fr :: below) =
  over (u_path u) (f_place fr) (f_child fr) (map entry below).
Proof.
  intros [t path] fr below. unfold u_step. cbn [u_path].
  destruct path as [|z r]; reflexivity.
Qed.

(* One unit, nothing recorded before [apply]. *)
Lemma grow_one : forall i apply paths fr rest acts k v n path dst,
  apply <= position (Unit (ToNode n) path) paths ->
  exists paths' l, let '(sw, no, paths1) :=
      grow (One k) i apply paths fr rest acts [Item v [Unit (ToNode n) path] dst] in
    paths1 = paths' /\ sw ++ no = [l] /\
    f_place (l_top l) = At n /\ f_set (l_top l) = dst /\
    l_rest l = (match path with [] => rest | _ :: _ => Frame (f_place fr) (f_set fr) i :: rest end) /\
    l_acts l = acts.
Proof.
  intros i apply paths fr rest acts k v n path dst LA. unfold grow.
  destruct path as [|z q];
    cbn [pass_items i_units filter u_step u_path length Nat.eqb Bool.eqb i_value i_dst pass_units];
    apply Nat.leb_le in LA; rewrite LA;
    eexists; eexists; (split; [reflexivity |]); (split; [reflexivity |]);
    (split; [reflexivity |]); (split; [reflexivity |]); split; reflexivity.
Qed.

Lemma grow_nothing : forall e i apply paths fr rest acts,
  grow e i apply paths fr rest acts [] = ([], [], paths).
Proof. reflexivity. Qed.

(* Nothing comes of the end of a branch that the element does not follow. *)
Lemma check_end_nil : forall w k i fuel paths parent below acts b,
  m + 2 + length below * (m + 2) + (S m - rank2 b) <= fuel ->
  propped g own parent below -> supported g (f_place parent) b ->
  ~ follows g k b ->
  check_end fuel g w (One k) i paths parent below acts b = Ok [].
Proof.
  intros w k i. induction fuel as [|f IH]; intros paths parent below acts b LF HP HS NF; [lia |].
  rewrite check_end_S. destruct (Z.eqb b root_value) eqn:EB0; [reflexivity |].
  destruct (clean_settled _ _ (enter_settled g m rank rank_max rank_down (S f) (f_set parent) (KRef b) ltac:(lia))
              (enter_clean (S f) (f_set parent) (KRef b))) as [ref_set ERS].
  rewrite ERS. cbn [bind].
  destruct (units_ll (S f) (f_place parent) (KRef b) ltac:(lia)) as [[EU _] | [path [r [EU [HR EK]]]]].
  { exfalso. exact (HS _ _ EU eq_refl). }
  rewrite EU. cbn [bind refs_loop to_place u_to].
  rewrite (items_none (S f) w false (At r) ref_set k ltac:(lia)); [| discriminate |].
  2: { intros path' n' HR' EK'. apply NF. exact (follow_direct g k b r path' n' EK HR' EK'). }
  cbn [bind]. rewrite grow_nothing. cbn [app].
  destruct (ll1_refs g L r b EK) as [_ [DD [_ _]]]. rewrite DD.
  destruct (nd_end (nt_node g r)) as [b'|] eqn:EN; [| reflexivity].
  assert (NF' : ~ follows g k b').
  { intros HF. apply NF. exact (follow_end g k b r b' EK EN HF). }
  pose proof (propped_unit g own HB HN _ parent below _ _ (Unit (ToNode r) path) ref_set 0 HP EU (or_introl eq_refl)) as HU.
  pose proof (HE r b' EN) as EO.
  destruct (units_supported g own HB _ _ _ _ (Unit (ToNode r) path) EU (or_introl eq_refl)) as [n0 [ET [_ [HSu _]]]].
  cbn [u_to] in ET. injection ET as <-. cbn [u_path] in HSu.
  destruct path as [|z q]; cbn [u_step u_path length Nat.eqb] in *.
  - destruct (Z.eqb b' root_value) eqn:ER0; [reflexivity |]. apply Z.eqb_neq in ER0.
    cbn [to_place u_to] in HU.
    inversion HU as [fr0 HRt | fr0 x p rr EP HSp HPp]; subst.
    + exfalso. apply ER0. exact (HRt r eq_refl).
    + cbn [f_place] in EP. injection EP as <-. cbn [length] in LF. rewrite IH; [reflexivity | | exact HPp | exact HSp | exact NF'].
      pose proof (rank2_max (own r)). lia.
  - assert (Hy : begins g b' r).
    { destruct (units_found _ _ _ _ _ _ EU (or_introl eq_refl)) as [n1 [E1 [_ [[E2 _] | [_ [y [_ Hy]]]]]]];
        [discriminate E2 |]. cbn [u_to] in E1. injection E1 as <-.
      rewrite <- (HB y r Hy) in Hy. rewrite EO in Hy. exact Hy. }
    assert (RK : rank2 b < rank2 b').
    { apply (rank2_down b' r b Hy EK). rewrite EN. discriminate. }
    pose proof (rank2_max b').
    rewrite IH; [reflexivity | lia | exact HP | rewrite <- EO; apply HSu; discriminate | exact NF'].
Qed.

Lemma grows_follows : forall i k s rs s', grows i k s rs s' -> forall r b,
  fst s = At r -> nd_key (nt_node g r) = KRef b -> follows g k b.
Proof.
  intros i k s rs s' G. induction G as [p rest path n HR EK | n q c rest b0 path r0 rs s EN HR EK0 G IH];
    intros r b ES EK1; cbn [fst] in *.
  - subst p. exact (follow_direct g k b r path n EK1 HR EK).
  - injection ES as <-. apply (follow_end g k b n b0 EK1 EN). exact (IH r0 b0 eq_refl EK0).
Qed.

Lemma check_end_one : forall w k i fuel parent below acts b s' rs path r,
  m + 2 + length below * (m + 2) + (S m - rank2 b) <= fuel ->
  propped g own parent below -> supported g (f_place parent) b ->
  sets_ok (parent :: below) ->
  reach g (f_place parent) path r -> nd_key (nt_node g r) = KRef b ->
  grows i k (At r, over path (f_place parent) (f_child parent) (map entry below)) rs s' ->
  exists l, check_end fuel g w (One k) i [] parent below acts b = Ok [l] /\
    stack_of (l_top l) (l_rest l) = s' /\ sets_ok (l_top l :: l_rest l) /\
    l_acts l = rev (reported (Report b (f_child parent) i :: rs)) ++ acts.
Proof.
  intros w k i. induction fuel as [|f IH]; intros parent below acts b s' rs path r LF HP HS HO HR EK HG; [lia |].
  rewrite check_end_S. destruct (ll1_refs g L r b EK) as [_ [DD [_ NR]]].
  apply Z.eqb_neq in NR. rewrite NR.
  inversion HO as [|x0 y0 HO1 HO2]; subst.
  destruct (enter_has (S f) (f_set parent) (KRef b) _ path r ltac:(lia) HO1 HR EK) as [ref_set [ERS IRS]].
  rewrite ERS. cbn [bind].
  assert (EU : units_of (S f) g (f_place parent) (KRef b) = Ok [Unit (ToNode r) path]).
  { rewrite <- EK. apply units_reach; [lia | exact HR]. }
  rewrite EU. cbn [bind refs_loop to_place u_to length].
  pose proof (propped_unit g own HB HN _ parent below _ _ (Unit (ToNode r) path) ref_set 0 HP EU (or_introl eq_refl)) as HU.
  pose proof (over_base (Unit (ToNode r) path) parent below) as HBase. cbn [u_path] in HBase.
  assert (HOB : sets_ok (if Nat.eqb (u_step (Unit (ToNode r) path)) 0 then below else parent :: below)).
  { destruct (Nat.eqb (u_step (Unit (ToNode r) path)) 0); [exact HO2 | constructor; assumption]. }
  destruct (units_supported g own HB _ _ _ _ (Unit (ToNode r) path) EU (or_introl eq_refl)) as [n0 [ET [_ [HSu _]]]].
  cbn [u_to] in ET. injection ET as <-. cbn [u_path] in HSu.
  rewrite DD.
  (* the recursive call, whatever it is *)
  assert (DEEP : forall paths acts' b', nd_end (nt_node g r) = Some b' -> ~ follows g k b' ->
    (if Nat.eqb (u_step (Unit (ToNode r) path)) 0 then
       if Z.eqb b' root_value then Ok [] else
       match below with
       | [] => Undefined
       | p :: r0 => check_end f g w (One k) i paths p r0 acts' b'
       end
     else check_end f g w (One k) i paths parent below acts' b') = Ok []).
  { intros paths acts' b' EN NF'. pose proof (HE r b' EN) as EO.
    destruct path as [|z q]; cbn [u_step u_path length Nat.eqb] in *.
    - destruct (Z.eqb b' root_value) eqn:ER0; [reflexivity |]. apply Z.eqb_neq in ER0.
      cbn [to_place u_to] in HU.
      inversion HU as [fr0 HRt | fr0 x p rr EP HSp HPp]; subst.
      + exfalso. apply ER0. exact (HRt r eq_refl).
      + cbn [f_place] in EP. injection EP as <-. cbn [length] in LF.
        apply check_end_nil; [pose proof (rank2_max (own r)); lia | exact HPp | exact HSp | exact NF'].
    - assert (Hy : begins g b' r).
      { destruct (units_found _ _ _ _ _ _ EU (or_introl eq_refl)) as [n1 [E1 [_ [[E2 _] | [_ [y [_ Hy]]]]]]];
          [discriminate E2 |]. cbn [u_to] in E1. injection E1 as <-.
        rewrite <- (HB y r Hy) in Hy. rewrite EO in Hy. exact Hy. }
      assert (RK : rank2 b < rank2 b').
      { apply (rank2_down b' r b Hy EK). rewrite EN. discriminate. }
      pose proof (rank2_max b').
      apply check_end_nil; [lia | exact HP | rewrite <- EO; apply HSu; discriminate | exact NF']. }
  remember (over path (f_place parent) (f_child parent) (map entry below)) as tl eqn:Etl.
  inversion HG as [p0 rest0 path2 n2 HR2 EK2 E1 E2 | n2 q2 c2 rest2 b2 path2 r2 rs2 s2 EN2 HR2 EK2 HG2 E1 E2]; subst.
  - (* the reference itself goes on *)
    destruct (items_reach (S f) w false (At r) ref_set (nd_key (nt_node g n2)) path2 n2 ltac:(lia) IRS HR2 eq_refl)
      as [dst [EI ID]].
    rewrite EI. cbn [bind].
    destruct (grow_one i 0 [] (Frame (At r) ref_set 0)
                (if Nat.eqb (u_step (Unit (ToNode r) path)) 0 then below else parent :: below)
                (Matched b (f_child parent) i :: acts) (nd_key (nt_node g n2)) (key_value (nd_key (nt_node g n2))) n2 path2 dst (Nat.le_0_l _))
      as [paths' [l HGr]].
    destruct (grow (One (nd_key (nt_node g n2))) i 0 [] (Frame (At r) ref_set 0)
                (if Nat.eqb (u_step (Unit (ToNode r) path)) 0 then below else parent :: below)
                (Matched b (f_child parent) i :: acts)
                [Item (key_value (nd_key (nt_node g n2))) [Unit (ToNode n2) path2] dst]) as [[sw no] p1].
    destruct HGr as [-> [EL [ETo [EDs [ERe EAc]]]]].
    assert (DN : match nd_end (nt_node g r) with
                 | Some b' =>
                   if Nat.eqb (u_step (Unit (ToNode r) path)) 0 then
                     if Z.eqb b' root_value then Ok [] else
                     match below with
                     | [] => Undefined
                     | p :: r0 => check_end f g w (One (nd_key (nt_node g n2))) i paths' p r0 (Matched b (f_child parent) i :: acts) b'
                     end
                   else check_end f g w (One (nd_key (nt_node g n2))) i paths' parent below (Matched b (f_child parent) i :: acts) b'
                 | None => Ok []
                 end = Ok []).
    { destruct (nd_end (nt_node g r)) as [b'|] eqn:EN; [| reflexivity].
      apply DEEP; [reflexivity |]. exact (ll1_end g L r b' path2 n2 EN HR2). }
    rewrite DN. cbn [bind]. exists l.
    rewrite !app_nil_r, EL. split; [reflexivity |].
    unfold stack_of. rewrite ETo, ERe.
    split; [| split].
    + destruct path2 as [|z2 q2]; cbn [over map entry f_place f_child]; rewrite HBase; reflexivity.
    + constructor; [rewrite ETo, EDs; exact ID |].
      destruct path2 as [|z2 q2]; [exact HOB |]. constructor; [cbn [f_place f_set]; exact IRS | exact HOB].
    + rewrite EAc. reflexivity.
  - (* it ends its branch too *)
    match goal with H : (q2, c2) :: rest2 = _ |- _ => rename H into Etl end.
    pose proof (grows_follows i k _ _ _ HG2 r2 b2 eq_refl EK2) as FO.
    rewrite (items_none (S f) w false (At r) ref_set k ltac:(lia)); [| discriminate |].
    2: { intros path' n' HR' EK'. apply (ll1_end g L r b2 path' n' EN2 HR'). rewrite EK'. exact FO. }
    cbn [bind]. rewrite grow_nothing. cbn [app]. rewrite EN2.
    pose proof (HE r b2 EN2) as EO.
    destruct path as [|z q]; cbn [u_step u_path length Nat.eqb over] in *.
    + (* the frame below *)
      destruct (ll1_refs g L r2 b2 EK2) as [_ [_ [_ NR2]]]. apply Z.eqb_neq in NR2. rewrite NR2.
      destruct below as [|p rr]; [discriminate Etl |]. cbn [map] in Etl. injection Etl as Eq2 Ec2 Er2. subst q2 c2 rest2.
      cbn [to_place u_to] in HU.
      inversion HU as [|fr0 x p0 rr0 EP HSp HPp]; subst. cbn [f_place] in EP. injection EP as <-.
      destruct (IH p rr (Matched b (f_child parent) i :: acts) (own r) s' rs2 path2 r2) as [l [EL [ES [HOl EAc]]]].
      * cbn [length] in LF. pose proof (rank2_max (own r)). lia.
      * exact HPp.
      * exact HSp.
      * exact HO2.
      * exact HR2.
      * exact EK2.
      * exact HG2.
      * exists l. rewrite EL. split; [reflexivity |]. split; [exact ES |]. split; [exact HOl |].
        rewrite EAc. cbn [reported map rev]. rewrite <- !app_assoc. reflexivity.
    + injection Etl as Eq2 Ec2 Er2. subst q2 c2 rest2.
      assert (Hy : begins g b2 r).
      { destruct (units_found _ _ _ _ _ _ EU (or_introl eq_refl)) as [n1 [E1 [_ [[E2 _] | [_ [y [_ Hy]]]]]]];
          [discriminate E2 |]. cbn [u_to] in E1. injection E1 as <-.
        rewrite <- (HB y r Hy) in Hy. rewrite EO in Hy. exact Hy. }
      assert (RK : rank2 b < rank2 b2).
      { apply (rank2_down b2 r b Hy EK). rewrite EN2. discriminate. }
      pose proof (rank2_max b2).
      destruct (IH parent below (Matched b (f_child parent) i :: acts) b2 s' rs2 path2 r2) as [l [EL [ES [HOl EAc]]]].
      * lia.
      * exact HP.
      * rewrite <- EO. apply HSu. discriminate.
      * exact HO.
      * exact HR2.
      * exact EK2.
      * exact HG2.
      * exists l. rewrite EL. split; [reflexivity |]. split; [exact ES |]. split; [exact HOl |].
        rewrite EAc. cbn [reported map rev]. rewrite <- !app_assoc. reflexivity.
Qed.

Lemma push_one : forall w k i fuel l rs s',
  (length (l_rest l) + 2) * (m + 2) <= fuel ->
  propped g own (l_top l) (l_rest l) -> sets_ok (l_top l :: l_rest l) ->
  w_invisible w (key_value k) = false ->
  grows i k (stack_of (l_top l) (l_rest l)) rs s' ->
  exists l', push_leaf fuel g w (One k) i l = Ok [l'] /\
    stack_of (l_top l') (l_rest l') = s' /\ sets_ok (l_top l' :: l_rest l') /\
    l_acts l' = rev (reported rs) ++ l_acts l.
Proof.
  intros w k i fuel [[tp ts tc] rest acts] rs s' LF HP HO HV HG. unfold stack_of in HG.
  unfold push_leaf. cbn [l_top l_rest l_acts f_place f_set] in *.
  inversion HO as [|x0 y0 HO1 HO2]; subst. cbn [f_place f_set] in HO1.
  remember (map entry rest) as tl eqn:Etl.
  inversion HG as [p0 rest0 path2 n2 HR2 EK2 E1 E2 | n2 q2 c2 rest2 b2 path2 r2 rs2 s2 EN2 HR2 EK2 HG2 E1 E2].
  - subst p0 rest0 s' rs.
    destruct (items_reach fuel w true tp ts k path2 n2 ltac:(nia) HO1 HR2 EK2) as [dst [EI ID]].
    rewrite EI. cbn [bind].
    destruct (grow_one i 0 [] (Frame tp ts tc) rest acts k (key_value k) n2 path2 dst (Nat.le_0_l _))
      as [paths' [l HGr]].
    destruct (grow (One k) i 0 [] (Frame tp ts tc) rest acts
                [Item (key_value k) [Unit (ToNode n2) path2] dst]) as [[sw no] p1].
    destruct HGr as [-> [EL [ETo [EDs [ERe EAc]]]]].
    set (acts2 := match sw, no with [], n :: _ => l_acts n | _, _ => acts end).
    assert (DN : match end_of g tp with
                 | None => Ok []
                 | Some b =>
                     if Z.eqb b root_value then Ok [] else
                     match rest with
                     | [] => Undefined
                     | p :: r => check_end fuel g w (One k) i paths' p r acts2 b
                     end
                 end = Ok []).
    { destruct tp as [|n]; cbn [end_of]; [reflexivity |].
      destruct (nd_end (nt_node g n)) as [b|] eqn:EN; [| reflexivity].
      pose proof (HE n b EN) as EO.
      destruct (Z.eqb b root_value) eqn:ER; [reflexivity |]. apply Z.eqb_neq in ER.
      inversion HP as [fr0 HRt | fr0 x p r EP HSp HPp]; subst.
      - exfalso. apply ER. exact (HRt n eq_refl).
      - cbn [f_place] in EP. injection EP as <-. cbn [length] in LF.
        apply check_end_nil; [nia | exact HPp | exact HSp |].
        exact (ll1_end g L n (own n) path2 n2 EN HR2). }
    rewrite DN. cbn [bind]. exists l. rewrite app_nil_r, EL. split; [reflexivity |].
    unfold stack_of. rewrite ETo, ERe. split; [| split].
    + destruct path2 as [|z2 q2]; cbn [over map entry f_place f_child]; subst tl; reflexivity.
    + constructor; [rewrite ETo, EDs; exact ID |].
      destruct path2 as [|z2 q2]; [exact HO2 |]. constructor; [exact HO1 | exact HO2].
    + rewrite EAc. reflexivity.
  - match goal with H : (q2, c2) :: rest2 = tl |- _ => rename H into Eqt end. subst tp s2 rs.
    pose proof (grows_follows i k _ _ _ HG2 r2 b2 eq_refl EK2) as FO.
    rewrite (items_none fuel w true (At n2) ts k ltac:(nia)); [| intros _; exact HV |].
    2: { intros path' n' HR' EK'. apply (ll1_end g L n2 b2 path' n' EN2 HR'). rewrite EK'. exact FO. }
    cbn [bind]. rewrite grow_nothing. cbn [end_of]. rewrite EN2.
    destruct (ll1_refs g L r2 b2 EK2) as [_ [_ [_ NR2]]]. apply Z.eqb_neq in NR2. rewrite NR2.
    destruct rest as [|p rr]; [subst tl; discriminate Eqt |].
    rewrite Etl in Eqt. cbn [map] in Eqt. injection Eqt as -> -> ->.
    inversion HP as [|fr0 x p0 rr0 EP HSp HPp]; subst. cbn [f_place] in EP. injection EP as <-.
    rewrite (HE n2 b2 EN2) in HSp. cbn [length] in LF.
    destruct (check_end_one w k i fuel p rr acts b2 s' rs2 path2 r2) as [l [EL [ES [HOl EAc]]]];
      [pose proof (rank2_max b2); nia | exact HPp | exact HSp | exact HO2 | exact HR2 | exact EK2 | exact HG2 |].
    exists l. rewrite EL. split; [reflexivity |]. split; [exact ES |]. split; [exact HOl | exact EAc].
Qed.

(* One leaf, standing as the stack says, and what has been reported. *)
Definition stands (n : nat) (s : state) (rs : list report) (st : stack) : Prop :=
  exists l, s_leaves s = [l] /\ stack_of (l_top l) (l_rest l) = st /\
    sets_ok (l_top l :: l_rest l) /\ propped g own (l_top l) (l_rest l) /\ length (l_rest l) <= n /\
    l_acts l = [] /\ reports (s_done s) = rs.

Lemma go_element_one : forall w k i fuel n s rs0 rs st st',
  (n + 2) * (m + 2) <= fuel -> stands n s rs0 st -> w_invisible w (key_value k) = false ->
  grows i k st rs st' ->
  exists s', go_element fuel g w i (One k) s = Ok s' /\ stands (S n) s' (rs0 ++ rs) st'.
Proof.
  intros w k i fuel n s rs0 rs st st' LF [l [EL [ES [HO [HP [HL [EA ER]]]]]]] HV HG. subst st.
  destruct (push_one w k i fuel l rs st' ltac:(nia) HP HO HV HG) as [l' [EP [ES' [HO' EA']]]].
  pose proof (push_good g own HB HN HE m rank rank_max rank_down rank2 rank2_max rank2_down w (One k) i fuel l
                ltac:(nia) HP) as [_ HQ].
  destruct (HQ _ EP l' (or_introl eq_refl)) as [HP' HL'].
  unfold go_element. rewrite EL. cbn [each]. rewrite EP. cbn [bind concat app merge_leaves].
  eexists. split; [reflexivity |]. unfold execute. cbn [s_leaves s_done].
  exists (Leaf (l_top l') (l_rest l') []). cbn [l_top l_rest s_leaves s_done l_acts].
  split; [reflexivity |]. split; [exact ES' |]. split; [exact HO' |]. split; [exact HP' |].
  split; [lia |]. split; [reflexivity |].
  rewrite EA', EA, app_nil_r, rev_involutive, reports_app, ER, reports_reported. reflexivity.
Qed.

Lemma go_all_one : forall w fuel st wd rs st', runs st wd rs st' -> forall i n s rs0,
  (n + length wd + 2) * (m + 2) <= fuel -> stands n s rs0 st ->
  (forall j k, In (j, k) wd -> w_invisible w (key_value k) = false) ->
  map fst wd = seq i (length wd) ->
  exists s', go_all fuel g w i (plain (map snd wd)) s = Ok s' /\ stands (n + length wd) s' (rs0 ++ rs) st'.
Proof.
  intros w fuel st wd rs st' R.
  induction R as [st | st j k rs1 s1 wd rs2 s2 G R IH]; intros i n s rs0 LF HS HV HI.
  - exists s. split; [reflexivity |]. cbn [length]. rewrite Nat.add_0_r, app_nil_r. exact HS.
  - cbn [length seq map fst] in *. injection HI as -> HI. cbn [snd plain map go_all].
    destruct (go_element_one w k i fuel n s rs0 rs1 st s1 ltac:(nia) HS (HV i k (or_introl eq_refl)) G)
      as [s' [E HS']].
    rewrite E. cbn [bind].
    destruct (IH (S i) (S n) s' (rs0 ++ rs1) ltac:(nia) HS' (fun j0 k0 I0 => HV j0 k0 (or_intror I0)) HI)
      as [sf [Ef HSf]].
    exists sf. split; [exact Ef |]. replace (n + S (length wd)) with (S n + length wd) by lia.
    rewrite app_assoc. exact HSf.
Qed.

Lemma pop_one : forall i st rs fin, points i st rs fin -> forall n b, fin = (At n, []) ->
  nd_end (nt_node g n) = Some b ->
  forall fuel fr below acts ls,
  stack_of fr below = st -> pop fuel g i fr below acts = Ok ls ->
  exists l, ls = [l] /\ l_acts l = rev (reported rs) ++ acts.
Proof.
  intros i st rs fin P. induction P as [st | n0 q c rest b0 path r rs st EN0 HR EK P IH];
    intros n b EF EN fuel fr below acts ls ES E.
  - subst st. unfold stack_of in ES. injection ES as EP EM. destruct below as [|x y]; [| discriminate EM].
    destruct fuel as [|f]; cbn [pop] in E; rewrite EP in E; cbn [end_of] in E; rewrite EN in E;
      injection E as <-; eexists; split; reflexivity.
  - unfold stack_of in ES. injection ES as EP EM. destruct below as [|p rr]; [discriminate EM |].
    cbn [map entry] in EM. injection EM as Eq Ec Er. subst q c rest.
    destruct fuel as [|f]; cbn [pop] in E; rewrite EP in E; cbn [end_of] in E; rewrite EN0 in E;
      [discriminate E |].
    apply bind_ok in E. destruct E as [d0 [_ E]]. apply bind_ok in E. destruct E as [refs [EU E]].
    match type of E with
    | match _ with [] => _ | _ :: _ => ?body end = _ =>
        assert (E' : body = Ok ls) by (destruct refs; [discriminate E | exact E])
    end.
    clear E. apply bind_ok in E'. destruct E' as [dst [_ E]].
    assert (IU : refs = [Unit (ToNode r) path]).
    { rewrite <- EK in EU.
      pose proof (units_reach (Nat.max (S f) (m + 2)) (f_place p) path r (Nat.le_max_r _ _) HR) as EU2.
      exact (units_same g _ _ _ _ _ _ EU EU2). }
    subst refs. apply bind_ok in E. destruct E as [xs [EX E]]. cbn [each] in EX.
    apply bind_ok in EX. destruct EX as [y [Ey EX]]. injection EX as <-.
    cbn [concat] in E. rewrite app_nil_r in E. injection E as <-. cbn beta zeta in Ey.
    assert (R : exists l, y = [l] /\ l_acts l = rev (reported rs) ++ Matched b0 (f_child p) i :: acts).
    { destruct path as [|z t]; cbn [u_step u_path length Nat.eqb to_place u_to] in Ey.
      - apply (IH n b EF EN f (Frame (At r) dst (f_child p)) rr (Matched b0 (f_child p) i :: acts) y);
          [reflexivity | exact Ey].
      - apply (IH n b EF EN f (Frame (At r) dst 0) (p :: rr) (Matched b0 (f_child p) i :: acts) y);
          [reflexivity | exact Ey]. }
    destruct R as [l [-> EA]]. exists l. split; [reflexivity |].
    rewrite EA. cbn [reported map rev]. rewrite <- app_assoc. reflexivity.
Qed.

Lemma numbered_first : forall ks, first (numbered ks) (length ks) = 0.
Proof. intros [|k r]; reflexivity. Qed.

Lemma combine_fst : forall (ks : list key) i,
  map fst (combine (seq i (length ks)) ks) = seq i (length (combine (seq i (length ks)) ks)).
Proof.
  induction ks as [|k r IH]; intros i; [reflexivity |].
  cbn [length seq combine map fst]. f_equal. apply IH.
Qed.

Lemma combine_snd : forall (ks : list key) i, map snd (combine (seq i (length ks)) ks) = ks.
Proof.
  induction ks as [|k r IH]; intros i; [reflexivity |].
  cbn [length seq combine map snd]. f_equal. apply IH.
Qed.

Lemma sentence_accepted : forall w fuel ks rs,
  sentence g (numbered ks) (length ks) rs ->
  (forall k, In k ks -> w_invisible w (key_value k) = false) ->
  (length ks + 2) * (m + 2) <= fuel ->
  exists s, analyze fuel g w (plain ks) = Ok s /\ s_leaves s <> [] /\
    reports (s_done s) = rs ++ [Report root_value 0 (length ks)].
Proof.
  intros w fuel ks rs [n [HW EN]] HV LF.
  destruct (walks_run root_value n _ _ rs HW (Top, []) Top [] [] [] (point_here _ _))
    as [st [rsr [rsp [R [P ER]]]]].
  { intros x [s [ES I]]. apply reach_link. cbn [links]. rewrite ES. exact I. }
  cbn [over app] in *.
  assert (LN : length (numbered ks) = length ks).
  { unfold numbered. rewrite combine_length, seq_length. apply Nat.min_id. }
  destruct (go_all_one w fuel (Top, []) (numbered ks) rsr st R 0 0 start []) as [s [EG HS]].
  - rewrite LN. exact LF.
  - exists (Leaf (Frame Top [Top] 0) [] []). split; [reflexivity |]. split; [reflexivity |].
    split; [constructor; [left; reflexivity | constructor] |]. split.
    { constructor. intros n0 E0. discriminate E0. }
    split; [cbn [l_rest length]; lia |]. split; reflexivity.
  - intros j k I. apply HV. unfold numbered in I. exact (in_combine_r _ _ _ _ I).
  - apply combine_fst.
  - unfold numbered in EG at 1. rewrite combine_snd in EG.
    destruct HS as [l [EL [ES [HO [HP [HL [EA EDn]]]]]]].
    unfold analyze. rewrite EG. cbn [bind]. unfold go_end. rewrite EL. cbn [each].
    cbn [plus app] in HL, EDn. rewrite LN in HL.
    replace (length (plain ks)) with (length ks) by (symmetry; apply map_length).
    assert (HM : match f_place (l_top l) with Top => 0 | At x => S m - rank2 (own x) end <= m + 2)
      by (destruct (f_place (l_top l)); lia).
    destruct (clean_settled _ _
      (pop_settled g own HB HN HE m rank rank_max rank_down rank2 rank2_max rank2_down
         (length ks) fuel (l_top l) (l_rest l) (l_acts l) ltac:(nia) HP)
      (pop_clean _ _ _ _ _)) as [ls EP].
    destruct (pop_one _ st rsp _ P n root_value eq_refl EN fuel (l_top l) (l_rest l) (l_acts l) ls ES EP)
      as [x [-> EAx]].
    rewrite EP. cbn [bind concat app pick_final].
    eexists. split; [reflexivity |]. unfold execute. cbn [s_leaves s_done].
    split; [discriminate |].
    rewrite !reports_app, EDn, EAx, EA, app_nil_r, rev_involutive, reports_reported, ER. reflexivity.
Qed.

End Complete.

Lemma ll1_accepts : forall g m w fuel ks rs,
  tidy g -> grounded g m -> ll1 g ->
  sentence g (numbered ks) (length ks) rs ->
  (forall k, In k ks -> w_invisible w (key_value k) = false) ->
  (length ks + 2) * (m + 2) <= fuel ->
  exists s, analyze fuel g w (plain ks) = Ok s /\ s_leaves s <> [] /\
    reports (s_done s) = rs ++ [Report root_value 0 (length ks)].
Proof.
  intros g m w fuel ks rs [own [HB [HN HE]]] [[r1 [M1 D1]] [r2 [M2 D2]]] HL HS HV LF.
  exact (sentence_accepted g HL own HB HN HE m r1 M1 D1 r2 M2 D2 w fuel ks rs HS HV LF).
Qed.

Lemma ll1_one_reading : forall g m ks rs1 rs2,
  tidy g -> grounded g m -> ll1 g ->
  sentence g (numbered ks) (length ks) rs1 ->
  sentence g (numbered ks) (length ks) rs2 -> rs1 = rs2.
Proof.
  intros g m ks rs1 rs2 T G HL H1 H2.
  set (w := World (fun _ => 0%Z) (fun _ _ => false) (fun _ => false)).
  destruct (ll1_accepts g m w _ ks rs1 T G HL H1 (fun _ _ => eq_refl) (le_n _)) as [s1 [E1 [_ R1]]].
  destruct (ll1_accepts g m w _ ks rs2 T G HL H2 (fun _ _ => eq_refl) (le_n _)) as [s2 [E2 [_ R2]]].
  rewrite E1 in E2. injection E2 as <-. rewrite R1 in R2. exact (app_inv_tail _ _ _ R2).
Qed.

(* An element no sentence goes on with is reported when it is read. *)
Lemma go_all_app : forall fuel g w a b i s,
  go_all fuel g w i (a ++ b) s = bind (go_all fuel g w i a s) (go_all fuel g w (i + length a) b).
Proof.
  intros fuel g w a b. induction a as [|e r IH]; intros i s; cbn [app go_all length].
  - rewrite Nat.add_0_r. reflexivity.
  - destruct (go_element fuel g w i e s) as [s1| | |]; cbn [bind]; try reflexivity.
    rewrite IH. replace (i + S (length r)) with (S i + length r) by lia. reflexivity.
Qed.

Lemma error_at_element : forall g w m fuel els,
  tidy g -> no_dead_ends g -> grounded g m -> (length els + 2) * (m + 2) <= fuel ->
  (forall wd ch, reads (w_invisible w) 0 els wd ch -> ~ sentence_start g wd) ->
  forall more, go_all fuel g w 0 (els ++ more) start = FormatError.
Proof.
  intros g w m fuel els T D G LF H more. rewrite go_all_app.
  pose proof T as T0. destruct T0 as [own [HB [HN HE]]]. destruct G as [[r1 [M1 D1]] [r2 [M2 D2]]].
  destruct (go_all_fine g own HB HN HE m r1 M1 D1 r2 M2 D2 w fuel els 0 0 start) as [ST _].
  - exact LF.
  - intros l [<- | []]. cbn [l_top l_rest length]. split; [| lia].
    constructor. intros n E. discriminate E.
  - destruct (go_all fuel g w 0 els start) as [s| | |] eqn:E; [| reflexivity | destruct ST | destruct ST].
    exfalso. destruct (go_all_viable g w T D fuel els s E) as [wd [ch [HR HS]]].
    exact (H wd ch HR HS).
Qed.
