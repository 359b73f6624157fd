(* Lemmas for PropertiesNet.v: the analysis comes to an end and follows no null
   pointer. *)
From Coq Require Import ZArith List Bool Arith Lia.
From Verif Require Import NetModel NetSpec NetProofs.
Import ListNotations.
Local Open Scope nat_scope.

(* An outcome that is a result or a reported error. *)
Definition settled {A} (o : outcome A) : Prop :=
  match o with Ok _ | FormatError => True | Overflow | Undefined => False end.

Lemma settled_bind : forall A B (o : outcome A) (f : A -> outcome B),
  settled o -> (forall a, o = Ok a -> settled (f a)) -> settled (bind o f).
Proof.
  intros A B [a| | |] f H HF; cbn [bind]; try exact H. exact (HF a eq_refl).
Qed.

Lemma settled_each : forall A B (f : A -> outcome B) l,
  (forall x, In x l -> settled (f x)) -> settled (each f l).
Proof.
  intros A B f. induction l as [|x r IH]; intros H; cbn [each]; [exact Logic.I |].
  apply settled_bind; [apply H; left; reflexivity |]. intros y _.
  apply settled_bind; [apply IH; intros z Iz; apply H; right; exact Iz |].
  intros ys _. exact Logic.I.
Qed.

(* ---- the expansion ---- *)

Definition expand_loop (f : nat) (g : net) (path : list Z) : list nat -> outcome (list unit_) :=
  fix go (l : list nat) : outcome (list unit_) :=
    match l with
    | [] => Ok []
    | n :: r =>
        deeper <-
          match nd_key (nt_node g n) with
          | KToken _ => Ok []
          | KRef b =>
              if nd_expandable (nt_node g n) then
                match nt_start g b with
                | Some s => expand f g (path ++ [b]) s
                | None => FormatError
                end
              else Ok []
          end ;;
        rest <- go r ;;
        Ok (Unit (ToNode n) path :: deeper ++ rest)
    end.

Lemma expand_S : forall f g path l, expand (S f) g path l = expand_loop f g path l.
Proof. reflexivity. Qed.

Lemma expand_loop_cons : forall f g path n r,
  expand_loop f g path (n :: r) =
  (deeper <-
     match nd_key (nt_node g n) with
     | KToken _ => Ok []
     | KRef b =>
         if nd_expandable (nt_node g n) then
           match nt_start g b with
           | Some s => expand f g (path ++ [b]) s
           | None => FormatError
           end
         else Ok []
     end ;;
   rest <- expand_loop f g path r ;;
   Ok (Unit (ToNode n) path :: deeper ++ rest)).
Proof. reflexivity. Qed.

Lemma expand_mono : forall g f path l us, expand f g path l = Ok us ->
  forall f', f <= f' -> expand f' g path l = Ok us.
Proof.
  intros g. induction f as [|f IH]; intros path l us E f' L; [discriminate E |].
  destruct f' as [|f']; [lia |]. rewrite expand_S in *.
  assert (L' : f <= f') by lia. clear L. revert us E.
  induction l as [|n r IHl]; intros us E; [exact E |].
  rewrite expand_loop_cons in *. apply bind_ok in E. destruct E as [d [Ed E]].
  apply bind_ok in E. destruct E as [rest [Er E]]. rewrite (IHl rest Er).
  replace (match nd_key (nt_node g n) with
           | KToken _ => Ok []
           | KRef b => if nd_expandable (nt_node g n)
                       then match nt_start g b with
                            | Some s => expand f' g (path ++ [b]) s
                            | None => FormatError
                            end
                       else Ok []
           end) with (@Ok (list unit_) d).
  - cbn [bind]. exact E.
  - destruct (nd_key (nt_node g n)) as [v|b]; [symmetry; exact Ed |].
    destruct (nd_expandable (nt_node g n)); [| symmetry; exact Ed].
    destruct (nt_start g b) as [s|]; [| discriminate Ed].
    symmetry. exact (IH _ _ _ Ed f' L').
Qed.

Lemma expand_same : forall g f1 f2 path l a b,
  expand f1 g path l = Ok a -> expand f2 g path l = Ok b -> a = b.
Proof.
  intros g f1 f2 path l a b E1 E2.
  pose proof (expand_mono g f1 path l a E1 (Nat.max f1 f2) (Nat.le_max_l _ _)) as H1.
  pose proof (expand_mono g f2 path l b E2 (Nat.max f1 f2) (Nat.le_max_r _ _)) as H2.
  rewrite H1 in H2. injection H2 as ->. reflexivity.
Qed.

Lemma units_same : forall g f1 f2 p k a b,
  units_of f1 g p k = Ok a -> units_of f2 g p k = Ok b -> a = b.
Proof.
  intros g f1 f2 p k a b E1 E2. unfold units_of, reachable in *.
  apply bind_ok in E1. destruct E1 as [x [E1 X1]]. apply bind_ok in E1. destruct E1 as [y [E1 Y1]].
  apply bind_ok in E2. destruct E2 as [x' [E2 X2]]. apply bind_ok in E2. destruct E2 as [y' [E2 Y2]].
  pose proof (expand_same g f1 f2 _ _ y y' E1 E2) as ->.
  injection Y1 as <-. injection Y2 as <-. injection X1 as <-. injection X2 as <-. reflexivity.
Qed.

(* A branch entered on the way is found itself. *)
Lemma expand_support : forall g fuel path l us, expand fuel g path l = Ok us ->
  forall u, In u us ->
    u_path u = path \/
    exists n y r v s, u_to u = ToNode n /\ nt_start g y = Some s /\ In n s /\
      In v us /\ u_to v = ToNode r /\ nd_key (nt_node g r) = KRef y.
Proof.
  intros g. induction fuel as [|f IH]; intros path l us E; [discriminate E |].
  rewrite expand_S in E. revert us E. induction l as [|n r IHl]; intros us E u I.
  - injection E as <-. destruct I.
  - rewrite expand_loop_cons in E. apply bind_ok in E. destruct E as [d [Ed E]].
    apply bind_ok in E. destruct E as [rest [Er E]]. injection E as <-.
    destruct I as [<- | I]; [left; reflexivity |].
    apply in_app_iff in I. destruct I as [I | I].
    + destruct (nd_key (nt_node g n)) as [v|b] eqn:EK; [injection Ed as <-; destruct I |].
      destruct (nd_expandable (nt_node g n)); [| injection Ed as <-; destruct I].
      destruct (nt_start g b) as [s|] eqn:ES; [| discriminate Ed].
      right. destruct (IH _ _ _ Ed u I) as [EP | H].
      * assert (HD : exists m, u_to u = ToNode m /\ In m s).
        { clear - Ed I EP. destruct f as [|f]; [discriminate Ed |]. rewrite expand_S in Ed.
          assert (GEN : forall l us, expand_loop f g (path ++ [b]) l = Ok us -> In u us ->
                    exists m, u_to u = ToNode m /\ In m l).
          { induction l as [|m q IHq]; intros us0 E0 I0.
            - injection E0 as <-. destruct I0.
            - rewrite expand_loop_cons in E0. apply bind_ok in E0. destruct E0 as [d0 [Ed0 E0]].
              apply bind_ok in E0. destruct E0 as [rest0 [Er0 E0]]. injection E0 as <-.
              destruct I0 as [<- | I0]; [exists m; split; [reflexivity | left; reflexivity] |].
              apply in_app_iff in I0. destruct I0 as [I0 | I0].
              + exfalso. destruct (nd_key (nt_node g m)) as [v|b1]; [injection Ed0 as <-; destruct I0 |].
                destruct (nd_expandable (nt_node g m)); [| injection Ed0 as <-; destruct I0].
                destruct (nt_start g b1) as [s1|]; [| discriminate Ed0].
                assert (LONG : forall fu p0 l0 us0, expand fu g p0 l0 = Ok us0 ->
                          forall x, In x us0 -> length p0 <= length (u_path x)).
                { clear. induction fu as [|fu IHf]; intros p0 l0 us0 E0 x I0; [discriminate E0 |].
                  rewrite expand_S in E0. revert us0 E0 x I0. induction l0 as [|n0 r0 IHl0]; intros us0 E0 x I0.
                  - injection E0 as <-. destruct I0.
                  - rewrite expand_loop_cons in E0. apply bind_ok in E0. destruct E0 as [d0 [Ed0 E0]].
                    apply bind_ok in E0. destruct E0 as [rest0 [Er0 E0]]. injection E0 as <-.
                    destruct I0 as [<- | I0]; [apply Nat.le_refl |].
                    apply in_app_iff in I0. destruct I0 as [I0 | I0]; [| exact (IHl0 _ Er0 x I0)].
                    destruct (nd_key (nt_node g n0)) as [v|b]; [injection Ed0 as <-; destruct I0 |].
                    destruct (nd_expandable (nt_node g n0)); [| injection Ed0 as <-; destruct I0].
                    destruct (nt_start g b) as [s|]; [| discriminate Ed0].
                    pose proof (IHf _ _ _ Ed0 x I0) as HL. rewrite app_length in HL. lia. }
                pose proof (LONG _ _ _ _ Ed0 u I0) as HL. rewrite EP, !app_length in HL.
                cbn [length] in HL. lia.
              + destruct (IHq _ Er0 I0) as [x [Ex Ix]]. exists x. split; [exact Ex | right; exact Ix]. }
          exact (GEN _ _ Ed I). }
        destruct HD as [m [Em Im]].
        exists m, b, n, (Unit (ToNode n) path), s.
        split; [exact Em |]. split; [exact ES |]. split; [exact Im |].
        split; [left; reflexivity |]. split; [reflexivity | exact EK].
      * destruct H as [m [y [r0 [v [s0 [H1 [H2 [H3 [H4 [H5 H6]]]]]]]]]].
        exists m, y, r0, v, s0. repeat (split; [assumption |]).
        split; [right; apply in_app_iff; left; exact H4 |]. split; assumption.
    + destruct (IHl _ Er u I) as [EP | H]; [left; exact EP | right].
      destruct H as [m [y [r0 [v [s0 [H1 [H2 [H3 [H4 [H5 H6]]]]]]]]]].
      exists m, y, r0, v, s0. repeat (split; [assumption |]).
      split; [right; apply in_app_iff; right; exact H4 |]. split; assumption.
Qed.

Lemma target_eqb_eq : forall a b, target_eqb a b = true -> a = b.
Proof.
  intros [x|[|x]] [y|[|y]] H; cbn [target_eqb] in H; try discriminate H;
    try reflexivity; apply Nat.eqb_eq in H; subst; reflexivity.
Qed.

Lemma distinct_keeps : forall l seen v, In v l ->
  exists v', u_to v' = u_to v /\ (In v' seen \/ In v' (distinct seen l)).
Proof.
  induction l as [|x r IH]; intros seen v I; [destruct I |]. cbn [distinct].
  destruct I as [<- | I].
  - destruct (existsb (same_stack x) seen) eqn:E.
    + apply existsb_exists in E. destruct E as [v' [Iv Ev]]. exists v'.
      unfold same_stack in Ev. apply andb_true_iff in Ev. destruct Ev as [Ev _].
      apply target_eqb_eq in Ev. split; [symmetry; exact Ev | left; exact Iv].
    + exists x. split; [reflexivity | right; left; reflexivity].
  - destruct (existsb (same_stack x) seen).
    + exact (IH seen v I).
    + destruct (IH (x :: seen) v I) as [v' [E [[<- | H] | H]]].
      * exists x. split; [exact E | right; left; reflexivity].
      * exists v'. split; [exact E | left; exact H].
      * exists v'. split; [exact E | right; right; exact H].
Qed.

Lemma key_eqb_refl : forall k, key_eqb k k = true.
Proof. intros [v|v]; cbn [key_eqb]; apply Z.eqb_refl. Qed.

(* References to branch b are found from p. *)
Definition supported (g : net) (p : place) (b : Z) : Prop :=
  forall fuel us, units_of fuel g p (KRef b) = Ok us -> us <> [].

Lemma units_supported : forall g own, (forall b n, begins g b n -> own n = b) ->
  forall fuel p k us u, units_of fuel g p k = Ok us -> In u us ->
  exists n, u_to u = ToNode n /\
    (In n (links g p) \/ supported g p (own n)) /\
    (u_path u <> [] -> supported g p (own n)) /\ (u_path u = [] -> In n (links g p)).
Proof.
  intros g own HB fuel p k us u E I.
  destruct (units_found fuel g p k us u E I) as [n [ET [_ HR]]].
  exists n. split; [exact ET |].
  assert (S : u_path u <> [] -> supported g p (own n)).
  { intros NE. unfold units_of, reachable in E.
    apply bind_ok in E. destruct E as [l [E X]]. apply bind_ok in E. destruct E as [l0 [E Y]].
    injection Y as <-. injection X as <-. apply filter_In in I. destruct I as [I _].
    apply distinct_incl in I.
    destruct (expand_support g fuel [] _ _ E u I) as [EP | [m [y [r [v [s [H1 [H2 [H3 [H4 [H5 H6]]]]]]]]]]];
      [contradiction |].
    rewrite ET in H1. injection H1 as <-.
    rewrite (HB y n (ex_intro _ s (conj H2 H3))).
    intros f2 us2 E2. unfold units_of, reachable in E2.
    apply bind_ok in E2. destruct E2 as [l2 [E2 X2]]. apply bind_ok in E2. destruct E2 as [l3 [E2 Y2]].
    pose proof (expand_same g _ _ _ _ _ _ E E2) as <-. injection Y2 as <-. injection X2 as <-.
    destruct (distinct_keeps l0 [] v H4) as [v' [Ev [[] | Iv]]].
    intros EF. assert (IF : In v' (filter (has_key g (KRef y)) (distinct [] l0))).
    { apply filter_In. split; [exact Iv |]. unfold has_key, unit_key. rewrite Ev, H5, H6.
      apply key_eqb_refl. }
    rewrite EF in IF. destruct IF. }
  split; [| split; [exact S |]].
  - destruct HR as [[_ HI] | [NE _]]; [left; exact HI | right; exact (S NE)].
  - intros EP. destruct HR as [[_ HI] | [NE _]]; [exact HI | contradiction].
Qed.

(* ---- enough fuel ---- *)

Section Total.

Variable g : net.
Variable own : nat -> Z.
Hypothesis HB : forall b n, begins g b n -> own n = b.
Hypothesis HN : forall n m, In m (nd_next (nt_node g n)) -> own m = own n.
Hypothesis HE : forall n b, nd_end (nt_node g n) = Some b -> own n = b.
Variable m : nat.
Variable rank : Z -> nat.
Hypothesis rank_max : forall b, rank b <= m.
Hypothesis rank_down : forall b n b', begins g b n -> nd_key (nt_node g n) = KRef b' ->
  nd_expandable (nt_node g n) = true -> rank b' < rank b.
Variable rank2 : Z -> nat.
Hypothesis rank2_max : forall b, rank2 b <= m.
Hypothesis rank2_down : forall b n b', begins g b n -> nd_key (nt_node g n) = KRef b' ->
  nd_end (nt_node g n) <> None -> rank2 b' < rank2 b.
(* every branch named by a reference exists, or its absence is reported *)

Lemma expand_settled : forall fuel k path l, k < fuel ->
  (forall n b', In n l -> nd_key (nt_node g n) = KRef b' -> nd_expandable (nt_node g n) = true -> rank b' < k) ->
  settled (expand fuel g path l).
Proof.
  induction fuel as [|f IH]; intros k path l L H; [lia |].
  rewrite expand_S. induction l as [|n r IHl]; [exact Logic.I |].
  rewrite expand_loop_cons. apply settled_bind.
  - destruct (nd_key (nt_node g n)) as [v|b] eqn:EK; [exact Logic.I |].
    destruct (nd_expandable (nt_node g n)) eqn:EX; [| exact Logic.I].
    destruct (nt_start g b) as [s|] eqn:ES; [| exact Logic.I].
    pose proof (H n b (or_introl eq_refl) EK EX) as HR.
    apply (IH (rank b)); [lia |]. intros n0 b0 I0 K0 X0.
    exact (rank_down b n0 b0 (ex_intro _ s (conj ES I0)) K0 X0).
  - intros d _. apply settled_bind; [| intros rest _; exact Logic.I].
    apply IHl. intros n0 b0 I0. apply (H n0 b0). right. exact I0.
Qed.

Lemma units_settled : forall fuel p k, m + 2 <= fuel -> settled (units_of fuel g p k).
Proof.
  intros fuel p k L. unfold units_of, reachable. apply settled_bind; [| intros a _; exact Logic.I].
  apply settled_bind; [| intros a _; exact Logic.I].
  apply (expand_settled fuel (S m)); [lia |]. intros n b' _ _ _. pose proof (rank_max b'). lia.
Qed.

Lemma enter_settled : forall fuel set k, m + 2 <= fuel -> settled (enter fuel g set k).
Proof.
  intros fuel set k L. unfold enter. apply settled_bind; [| intros a _; exact Logic.I].
  apply settled_each. intros p _. exact (units_settled fuel p k L).
Qed.

Lemma items_settled : forall fuel w stay p set e, m + 2 <= fuel ->
  settled (items_of fuel g w stay p set e).
Proof.
  intros fuel w stay p set e L. unfold items_of. apply settled_bind; [| intros a _; exact Logic.I].
  apply settled_each. intros k _. unfold item_of. apply settled_bind; [apply enter_settled; exact L |].
  intros [|x r] _.
  - destruct (stay && w_invisible w (key_value k)); exact Logic.I.
  - apply settled_bind; [apply units_settled; exact L |]. intros [|u us] _; exact Logic.I.
Qed.

(* A stack whose frames stand on references to their branches. *)
Inductive propped : frame -> list frame -> Prop :=
| prop_bottom fr : (forall n, f_place fr = At n -> own n = root_value) -> propped fr []
| prop_over fr n p below :
    f_place fr = At n -> supported g (f_place p) (own n) -> propped p below ->
    propped fr (p :: below).

Lemma propped_place : forall fr fr' below,
  propped fr below -> f_place fr' = f_place fr -> propped fr' below.
Proof.
  intros fr fr' below H E. inversion H as [fr0 HR | fr0 n p b EP HS HP]; subst.
  - constructor. intros n En. apply HR. rewrite <- E. exact En.
  - econstructor; [rewrite E; exact EP | exact HS | exact HP].
Qed.

(* A step within the branch, and one into another. *)
Lemma propped_step : forall fr below n set c,
  propped fr below -> In n (links g (f_place fr)) -> propped (Frame (At n) set c) below.
Proof.
  intros fr below n set c H I. inversion H as [fr0 HR | fr0 x p b EP HS HP]; subst.
  - constructor. intros n0 E0. cbn [f_place] in E0. injection E0 as <-.
    destruct (f_place fr) as [|y] eqn:EF; cbn [links] in I.
    + destruct (nt_start g root_value) as [s|] eqn:ES; [| destruct I].
      exact (HB root_value n (ex_intro _ s (conj ES I))).
    + rewrite (HN y n I). exact (HR y eq_refl).
  - rewrite EP in I. cbn [links] in I. econstructor; [reflexivity | | exact HP].
    rewrite (HN x n I). exact HS.
Qed.

Lemma propped_unit : forall fuel fr below k us u set c,
  propped fr below -> units_of fuel g (f_place fr) k = Ok us -> In u us ->
  propped (Frame (to_place u) set c) (if Nat.eqb (u_step u) 0 then below else fr :: below).
Proof.
  intros fuel fr below k us u set c H E I.
  destruct (units_supported g own HB fuel _ _ _ _ E I) as [n [ET [_ [HS HL]]]].
  unfold to_place. rewrite ET. destruct (Nat.eqb (u_step u) 0) eqn:EZ.
  - exact (propped_step fr below n set c H (HL (proj1 (step_zero u) EZ))).
  - econstructor; [reflexivity | | exact H]. apply HS. intros EP. apply step_zero in EP.
    rewrite EP in EZ. discriminate EZ.
Qed.

(* What grows is propped, and at most one higher. *)
Lemma items_units : forall fuel w stay p set e items it u,
  items_of fuel g w stay p set e = Ok items -> In it items -> In u (i_units it) ->
  (exists k us, units_of fuel g p k = Ok us /\ In u us) \/ u = Unit (Stay p) [].
Proof.
  intros fuel w stay p set e items it u E I IU. unfold items_of in E.
  apply bind_ok in E. destruct E as [ls [E1 E]]. injection E as <-.
  apply in_concat in I. destruct I as [x [Ix I]].
  destruct (each_in _ _ _ _ _ _ E1 Ix) as [k [Ik Ek]]. unfold item_of in Ek.
  apply bind_ok in Ek. destruct Ek as [dst [Ed Ek]]. destruct dst as [|d0 dr].
  - destruct (stay && w_invisible w (key_value k)); injection Ek as <-; [| destruct I].
    destruct I as [<- | []]. cbn [i_units] in IU. destruct IU as [<- | []]. right. reflexivity.
  - apply bind_ok in Ek. destruct Ek as [us [Eu Ek]]. destruct us as [|u0 ur]; injection Ek as <-;
      [destruct I |].
    destruct I as [<- | []]. cbn [i_units] in IU. left. exists k, (u0 :: ur). split; assumption.
Qed.

Lemma grow_propped : forall fuel w e i stay apply paths fr rest acts set items sw no paths',
  propped fr rest ->
  items_of fuel g w stay (f_place fr) set e = Ok items ->
  grow e i apply paths fr rest acts items = (sw, no, paths') ->
  forall l, In l (sw ++ no) ->
    propped (l_top l) (l_rest l) /\ length (l_rest l) <= S (length rest).
Proof.
  intros fuel w e i stay apply paths fr rest acts set items sw no paths' HP EI EG l IL.
  unfold grow in EG.
  destruct (pass_items apply paths false items) as [sw0 p1] eqn:E1.
  destruct (pass_items apply p1 true items) as [no0 p2] eqn:E2.
  injection EG as <- <- _. apply in_app_iff in IL. destruct IL as [IL | IL].
  - apply leaves_of_in in IL. destruct IL as [it [u [Iit [Iu ->]]]].
    assert (Iit' : In it (fst (pass_items apply paths false items))) by (rewrite E1; exact Iit).
    destruct (pass_items_in _ _ _ _ _ _ Iit' Iu) as [it0 [I0 [_ [_ [Iu0 EZ]]]]].
    unfold switched_leaf. cbn [l_top l_rest length]. split; [| lia].
    destruct (items_units _ _ _ _ _ _ _ _ _ EI I0 Iu0) as [[k [us [EU IU]]] | ->];
      [| discriminate EZ].
    pose proof (propped_unit fuel fr rest k us u (i_dst it) 0 HP EU IU) as HQ. rewrite EZ in HQ.
    inversion HQ as [|fr0 n p b EP HS HQ']; subst. econstructor; [exact EP | exact HS |].
    apply (propped_place fr); [exact HP | reflexivity].
  - apply leaves_of_in in IL. destruct IL as [it [u [Iit [Iu ->]]]].
    assert (Iit' : In it (fst (pass_items apply p1 true items))) by (rewrite E2; exact Iit).
    destruct (pass_items_in _ _ _ _ _ _ Iit' Iu) as [it0 [I0 [_ [_ [Iu0 EZ]]]]].
    unfold normal_leaf. cbn [l_top l_rest]. split; [| lia].
    destruct (items_units _ _ _ _ _ _ _ _ _ EI I0 Iu0) as [[k [us [EU IU]]] | ->].
    + pose proof (propped_unit fuel fr rest k us u (i_dst it) (f_child fr) HP EU IU) as HQ.
      rewrite EZ in HQ. exact HQ.
    + apply (propped_place fr); [exact HP | reflexivity].
Qed.

(* The loop of check_end over the references. *)
Definition refs_loop (f fuel : nat) (w : world) (e : element) (i : nat) (apply : nat)
    (ref_set : list place) (parent : frame) (below : list frame) (acts : list action) (b : Z)
    : list unit_ -> list unit_ -> outcome (list leaf) :=
  fix go (refs : list unit_) (paths : list unit_) : outcome (list leaf) :=
    match refs with
    | [] => Ok []
    | u :: more =>
        let acts' := Matched b (f_child parent) i :: acts in
        let base := if Nat.eqb (u_step u) 0 then below else parent :: below in
        items <- items_of fuel g w false (to_place u) ref_set e ;;
        let '(sw, no, paths1) :=
          grow e i apply paths (Frame (to_place u) ref_set 0) base acts' items in
        deeper <-
          match u_to u with
          | Stay _ => Ok []
          | ToNode n =>
              if nd_dead (nt_node g n) then Ok [] else
              match nd_end (nt_node g n) with
              | None => Ok []
              | Some b' =>
                  if Nat.eqb (u_step u) 0 then
                    if Z.eqb b' root_value then Ok [] else
                    match below with
                    | [] => Undefined
                    | p :: r => check_end f g w e i paths1 p r acts' b'
                    end
                  else check_end f g w e i paths1 parent below acts' b'
              end
          end ;;
        rest <- go more paths1 ;;
        Ok (sw ++ no ++ deeper ++ rest)
    end.

Lemma check_end_S : forall f w e i paths parent below acts b,
  check_end (S f) g w e i paths parent below acts b =
  if Z.eqb b root_value then Ok [] else
  (ref_set <- enter (S f) g (f_set parent) (KRef b) ;;
   refs <- units_of (S f) g (f_place parent) (KRef b) ;;
   match refs with
   | [] => Undefined
   | _ :: _ => refs_loop f (S f) w e i (length paths) ref_set parent below acts b refs paths
   end).
Proof. reflexivity. Qed.

Definition good_leaves (bound : nat) (o : outcome (list leaf)) : Prop :=
  settled o /\ forall ls, o = Ok ls -> forall l, In l ls ->
    propped (l_top l) (l_rest l) /\ length (l_rest l) <= bound.

Lemma good_ok_nil : forall bound, good_leaves bound (Ok []).
Proof. intros bound. split; [exact Logic.I |]. intros ls E. injection E as <-. intros l []. Qed.

Lemma good_bind : forall A bound (o : outcome A) f,
  settled o -> (forall a, o = Ok a -> good_leaves bound (f a)) -> good_leaves bound (bind o f).
Proof.
  intros A bound [a| | |] f H HF; cbn [bind]; try (destruct H; fail).
  - exact (HF a eq_refl).
  - split; [exact Logic.I |]. intros ls E. discriminate E.
Qed.

Lemma check_end_good : forall w e i fuel paths parent below acts b,
  m + 2 + length below * (m + 2) + (S m - rank2 b) <= fuel ->
  propped parent below ->
  supported g (f_place parent) b ->
  good_leaves (length below + 2) (check_end fuel g w e i paths parent below acts b).
Proof.
  intros w e i. induction fuel as [|f IH]; intros paths parent below acts b L HP HS; [lia |].
  rewrite check_end_S. destruct (Z.eqb b root_value); [apply good_ok_nil |].
  apply good_bind; [apply enter_settled; lia |]. intros ref_set _.
  apply good_bind; [apply units_settled; lia |]. intros refs ER.
  destruct refs as [|u0 ur] eqn:EQ; [exfalso; exact (HS _ _ ER eq_refl) |].
  rewrite <- EQ in *. clear u0 ur EQ.
  assert (HI : forall u, In u refs -> In u refs) by auto.
  generalize HI. generalize refs at 1 3 as todo. intros todo. clear HI.
  generalize paths at 2 as ps. generalize (length paths) as apply.
  induction todo as [|u more IHm]; intros apply ps HI; [apply good_ok_nil |].
  cbn [refs_loop].
  apply good_bind; [apply items_settled; lia |]. intros items EI.
  destruct (grow e i apply ps (Frame (to_place u) ref_set 0)
              (if Nat.eqb (u_step u) 0 then below else parent :: below)
              (Matched b (f_child parent) i :: acts) items) as [[sw no] paths1] eqn:EG.
  pose proof (propped_unit _ parent below _ _ u ref_set 0 HP ER (HI u (or_introl eq_refl))) as HU.
  pose proof (grow_propped _ _ _ _ _ _ _ (Frame (to_place u) ref_set 0) _ _ _ _ _ _ _ HU EI EG) as HG.
  assert (HD : good_leaves (length below + 2)
    match u_to u with
    | ToNode n =>
        if nd_dead (nt_node g n) then Ok [] else
        match nd_end (nt_node g n) with
        | None => Ok []
        | Some b' =>
            if Nat.eqb (u_step u) 0 then
              if Z.eqb b' root_value then Ok [] else
              match below with
              | [] => Undefined
              | p :: r => check_end f g w e i paths1 p r (Matched b (f_child parent) i :: acts) b'
              end
            else check_end f g w e i paths1 parent below (Matched b (f_child parent) i :: acts) b'
        end
    | Stay _ => Ok []
    end).
  { destruct (units_supported g own HB _ _ _ _ u ER (HI u (or_introl eq_refl))) as [n [ET [_ [HSu HL]]]].
    destruct (units_found _ _ _ _ _ u ER (HI u (or_introl eq_refl))) as [n' [ET' [EK HR]]].
    rewrite ET in ET'. injection ET' as <-. rewrite ET.
    destruct (nd_dead (nt_node g n)); [apply good_ok_nil |].
    destruct (nd_end (nt_node g n)) as [b'|] eqn:EN; [| apply good_ok_nil].
    pose proof (HE n b' EN) as EO.
    destruct (Nat.eqb (u_step u) 0) eqn:EZ.
    - destruct (Z.eqb b' root_value) eqn:ER0; [apply good_ok_nil |].
      apply Z.eqb_neq in ER0.
      unfold to_place in HU. rewrite ET in HU.
      inversion HU as [fr0 HRt | fr0 x p r EP HSp HPp]; subst.
      + exfalso. apply ER0. exact (HRt n eq_refl).
      + cbn [f_place] in EP. injection EP as <-.
        destruct (IH paths1 p r (Matched b (f_child parent) i :: acts) (own n)) as [G1 G2].
        * cbn [length] in L. pose proof (rank2_max (own n)). lia.
        * exact HPp.
        * exact HSp.
        * split; [exact G1 |]. intros ls El l Il. destruct (G2 ls El l Il) as [Q1 Q2].
          split; [exact Q1 |]. cbn [length]. lia.
    - destruct HR as [[EP _] | [NE [y [_ Hy]]]].
      { apply step_zero in EP. rewrite EP in EZ. discriminate EZ. }
      rewrite (HB y n Hy) in EO. subst b'.
      assert (RK : rank2 b < rank2 y).
      { apply (rank2_down y n b Hy EK). rewrite EN. discriminate. }
      apply IH; [pose proof (rank2_max y); lia | exact HP |].
      rewrite <- (HB y n Hy). exact (HSu NE). }
  apply good_bind; [exact (proj1 HD) |]. intros deeper ED.
  destruct (IHm apply paths1) as [G1 G2]; [intros x Ix; apply HI; right; exact Ix |].
  apply good_bind; [exact G1 |]. intros rest ERs.
  split; [exact Logic.I |]. intros ls El. injection El as <-. intros l Il.
  rewrite app_assoc in Il. apply in_app_iff in Il. destruct Il as [Il | Il].
  { destruct (HG l Il) as [Q1 Q2]. split; [exact Q1 |].
    destruct (Nat.eqb (u_step u) 0); cbn [length] in Q2; lia. }
  apply in_app_iff in Il. destruct Il as [Il | Il].
  - exact (proj2 HD deeper ED l Il).
  - exact (G2 rest ERs l Il).
Qed.

Lemma push_good : forall w e i fuel l,
  (length (l_rest l) + 2) * (m + 2) <= fuel ->
  propped (l_top l) (l_rest l) ->
  good_leaves (S (length (l_rest l))) (push_leaf fuel g w e i l).
Proof.
  intros w e i fuel l L HP. unfold push_leaf.
  apply good_bind; [apply items_settled; nia |]. intros items EI.
  destruct (grow e i 0 [] (l_top l) (l_rest l) (l_acts l) items) as [[sw no] paths] eqn:EG.
  pose proof (grow_propped _ _ _ _ _ _ _ (l_top l) _ _ _ _ _ _ _ HP EI EG) as HG.
  set (acts := match sw, no with [], n :: _ => l_acts n | _, _ => l_acts l end).
  assert (HD : good_leaves (S (length (l_rest l)))
    match end_of g (f_place (l_top l)) with
    | None => Ok []
    | Some b =>
        if Z.eqb b root_value then Ok [] else
        match l_rest l with
        | [] => Undefined
        | p :: r => check_end fuel g w e i paths p r acts b
        end
    end).
  { destruct (f_place (l_top l)) as [|n] eqn:EF; cbn [end_of]; [apply good_ok_nil |].
    destruct (nd_end (nt_node g n)) as [b|] eqn:EN; [| apply good_ok_nil].
    pose proof (HE n b EN) as EO.
    destruct (Z.eqb b root_value) eqn:ER; [apply good_ok_nil |]. apply Z.eqb_neq in ER.
    inversion HP as [fr0 HRt ELf ERest | fr0 x p r EP HSp HPp ELf ERest]; subst.
    - exfalso. apply ER. exact (HRt n EF).
    - rewrite EF in EP. injection EP as <-. rewrite <- ERest in L. cbn [length] in L.
      destruct (check_end_good w e i fuel paths p r acts (own n)) as [G1 G2];
        [nia | exact HPp | exact HSp |].
      split; [exact G1 |]. intros ls El x Ix. destruct (G2 ls El x Ix) as [Q1 Q2].
      split; [exact Q1 | cbn [length]; lia]. }
  apply good_bind; [exact (proj1 HD) |]. intros ended EE.
  split; [exact Logic.I |]. intros ls El. injection El as <-. intros x Ix.
  rewrite app_assoc in Ix. apply in_app_iff in Ix. destruct Ix as [Ix | Ix].
  - exact (HG x Ix).
  - exact (proj2 HD ended EE x Ix).
Qed.

Definition fine (n : nat) (s : state) : Prop :=
  forall l, In l (s_leaves s) -> propped (l_top l) (l_rest l) /\ length (l_rest l) <= n.

Lemma execute_fine : forall n s, fine n s -> fine n (execute s).
Proof.
  intros n [ls d] H l I. unfold execute in I. cbn [s_leaves s_done] in *.
  destruct ls as [|x [|y r]]; [destruct I | | exact (H l I)].
  cbn [s_leaves] in I. destruct I as [<- | []]. exact (H x (or_introl eq_refl)).
Qed.

Lemma go_element_fine : forall w i e fuel n s,
  (n + 2) * (m + 2) <= fuel -> fine n s ->
  settled (go_element fuel g w i e s) /\
  forall s', go_element fuel g w i e s = Ok s' -> fine (S n) s'.
Proof.
  intros w i e fuel n s L H. unfold go_element.
  assert (HPu : forall l, In l (s_leaves s) ->
            good_leaves (S (length (l_rest l))) (push_leaf fuel g w e i l)).
  { intros l I. destruct (H l I) as [HP HL]. apply push_good; [nia | exact HP]. }
  split.
  - apply settled_bind.
    + apply settled_each. intros l I. exact (proj1 (HPu l I)).
    + intros ls _. destruct (concat ls); exact Logic.I.
  - intros s' E. apply bind_ok in E. destruct E as [ls [EL E]].
    destruct (concat ls) as [|x r] eqn:EC; [discriminate E |]. injection E as <-.
    apply execute_fine. intros l I. change (In l (merge_leaves w (x :: r))) in I.
    apply merge_in in I. rewrite <- EC in I. apply in_concat in I. destruct I as [xs [Ix I]].
    destruct (each_in _ _ _ _ _ _ EL Ix) as [l0 [I0 E0]].
    destruct (proj2 (HPu l0 I0) xs E0 l I) as [Q1 Q2]. split; [exact Q1 |].
    destruct (H l0 I0) as [_ HL]. lia.
Qed.

Lemma go_all_fine : forall w fuel els i n s,
  (n + length els + 2) * (m + 2) <= fuel -> fine n s ->
  settled (go_all fuel g w i els s) /\
  forall s', go_all fuel g w i els s = Ok s' -> fine (n + length els) s'.
Proof.
  intros w fuel. induction els as [|e r IH]; intros i n s L H; cbn [go_all length] in *.
  - split; [exact Logic.I |]. intros s' E. injection E as <-. rewrite Nat.add_0_r. exact H.
  - destruct (go_element_fine w i e fuel n s) as [G1 G2]; [nia | exact H |].
    split.
    + apply settled_bind; [exact G1 |]. intros s1 E1.
      apply (IH (S i) (S n) s1); [nia | exact (G2 s1 E1)].
    + intros s' E. apply bind_ok in E. destruct E as [s1 [E1 E]].
      replace (n + S (length r)) with (S n + length r) by lia.
      apply (IH (S i) (S n) s1); [nia | exact (G2 s1 E1) | exact E].
Qed.

Lemma pop_settled : forall i fuel fr below acts,
  m + 2 + length below * (m + 2) +
    (match f_place fr with Top => 0 | At n => S m - rank2 (own n) end) <= fuel ->
  propped fr below -> settled (pop fuel g i fr below acts).
Proof.
  intros i. induction fuel as [|f IH]; intros fr below acts L HP; [lia |].
  cbn [pop]. destruct (f_place fr) as [|n] eqn:EF; cbn [end_of]; [exact Logic.I |].
  destruct (nd_end (nt_node g n)) as [b|] eqn:EN; [| exact Logic.I].
  pose proof (HE n b EN) as EO.
  inversion HP as [fr0 HRt | fr0 x p r EP HSp HPp]; subst; [exact Logic.I |].
  rewrite EF in EP. injection EP as <-.
  apply settled_bind; [apply enter_settled; lia |]. intros _ _.
  apply settled_bind; [apply units_settled; lia |]. intros refs ER.
  destruct refs as [|u0 ur] eqn:EQ; [exact (HSp _ _ ER eq_refl) |]. rewrite <- EQ in *. clear u0 ur EQ.
  apply settled_bind; [apply enter_settled; lia |]. intros dst _.
  apply settled_bind; [| intros ls _; exact Logic.I].
  apply settled_each. intros u Iu. cbn beta zeta.
  pose proof (fun c => propped_unit _ p r _ _ u dst c HPp ER Iu) as HU.
  destruct (units_found _ _ _ _ _ u ER Iu) as [n' [ET [EK HR]]].
  assert (TP : to_place u = At n') by (unfold to_place; rewrite ET; reflexivity).
  destruct (Nat.eqb (u_step u) 0) eqn:EZ.
  - apply IH; [| exact (HU (f_child p))]. cbn [f_place]. rewrite TP.
    cbn [length] in L. pose proof (rank2_max (own n')). lia.
  - destruct HR as [[EP _] | [NE [y [_ Hy]]]].
    { apply step_zero in EP. rewrite EP in EZ. discriminate EZ. }
    destruct (nd_end (nt_node g n')) as [b'|] eqn:EN'.
    + apply IH; [| exact (HU 0)]. cbn [f_place]. rewrite TP, (HB y n' Hy).
      assert (RK : rank2 (own n) < rank2 y).
      { apply (rank2_down y n' (own n) Hy EK). rewrite EN'. discriminate. }
      pose proof (rank2_max y). lia.
    + rewrite TP. destruct f as [|f]; cbn [pop f_place end_of]; rewrite EN'; exact Logic.I.
Qed.

Lemma analyze_settled : forall w els fuel,
  (length els + 2) * (m + 2) <= fuel -> settled (analyze fuel g w els).
Proof.
  intros w els fuel L. unfold analyze.
  assert (H0 : fine 0 start).
  { intros l [<- | []]. cbn [l_top l_rest length]. split; [| lia].
    constructor. intros n E. discriminate E. }
  destruct (go_all_fine w fuel els 0 0 start) as [G1 G2]; [lia | exact H0 |].
  apply settled_bind; [exact G1 |]. intros s E. pose proof (G2 s E) as HF.
  unfold go_end. apply settled_bind; [| intros ls _; exact Logic.I].
  apply settled_each. intros l I. destruct (HF l I) as [HP HL].
  apply pop_settled; [| exact HP].
  assert (HL2 : length (l_rest l) <= length els) by lia.
  assert (HM : match f_place (l_top l) with Top => 0 | At n => S m - rank2 (own n) end <= m + 2)
    by (destruct (f_place (l_top l)); lia).
  nia.
Qed.

End Total.

Lemma analyze_ends : forall g m w els fuel,
  tidy g -> grounded g m -> (length els + 2) * (m + 2) <= fuel ->
  (exists s, analyze fuel g w els = Ok s) \/ analyze fuel g w els = FormatError.
Proof.
  intros g m w els fuel [own [HB [HN HE]]] [[r1 [M1 D1]] [r2 [M2 D2]]] L.
  pose proof (analyze_settled g own HB HN HE m r1 M1 D1 r2 M2 D2 w els fuel L) as H.
  destruct (analyze fuel g w els) as [s| | |]; [left; exists s; reflexivity | right; reflexivity | |];
    destruct H.
Qed.
