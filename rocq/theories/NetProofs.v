(* Lemmas for PropertiesNet.v. *)
From Coq Require Import ZArith List Bool Arith Lia.
From Verif Require Import NetModel NetSpec.
Import ListNotations.
Local Open Scope nat_scope.

(* ---- outcomes ---- *)

Lemma bind_ok : forall A B (o : outcome A) (f : A -> outcome B) b,
  bind o f = Ok b -> exists a, o = Ok a /\ f a = Ok b.
Proof.
  intros A B [a| | |] f b H; cbn [bind] in H; try discriminate H.
  exists a. split; [reflexivity | exact H].
Qed.

Lemma each_in : forall A B (f : A -> outcome B) l ys y,
  each f l = Ok ys -> In y ys -> exists x, In x l /\ f x = Ok y.
Proof.
  intros A B f. induction l as [|x r IH]; intros ys y E I; cbn [each] in E.
  - injection E as <-. destruct I.
  - apply bind_ok in E. destruct E as [y0 [E0 E]].
    apply bind_ok in E. destruct E as [ys0 [E1 E]]. injection E as <-.
    destruct I as [<- | I].
    + exists x. split; [left; reflexivity | exact E0].
    + destruct (IH _ _ E1 I) as [x' [I' E']]. exists x'. split; [right; exact I' | exact E'].
Qed.

(* ---- what can be reached ---- *)

(* Branch b may begin where p goes on. *)
Inductive enters (g : net) (p : place) : Z -> Prop :=
| enter_here r b : In r (links g p) -> nd_key (nt_node g r) = KRef b -> enters g p b
| enter_deep y r b : enters g p y -> begins g y r -> nd_key (nt_node g r) = KRef b -> enters g p b.

Definition reached (g : net) (p : place) (u : unit_) : Prop :=
  exists n, u_to u = ToNode n /\
    ((u_path u = [] /\ In n (links g p)) \/
     (u_path u <> [] /\ exists y, enters g p y /\ begins g y n)).

Lemma app_one_not_nil : forall A (l : list A) x, l ++ [x] <> [].
Proof. intros A l x H. destruct l; discriminate H. Qed.

Lemma expand_reached : forall g p fuel path l us,
  ((path = [] /\ incl l (links g p)) \/
   (path <> [] /\ exists y, enters g p y /\ forall n, In n l -> begins g y n)) ->
  expand fuel g path l = Ok us -> forall u, In u us -> reached g p u.
Proof.
  intros g p. induction fuel as [|f IH]; intros path l us HP E; [discriminate E |].
  cbn [expand] in E. revert us E HP. induction l as [|n r IHl]; intros us E HP u I.
  - injection E as <-. destruct I.
  - apply bind_ok in E. destruct E as [deeper [ED E]].
    apply bind_ok in E. destruct E as [rest [ER E]]. injection E as <-.
    assert (HPn : (path = [] /\ In n (links g p)) \/
                  (path <> [] /\ exists y, enters g p y /\ begins g y n)).
    { destruct HP as [[-> HI] | [HN [y [HE HB]]]].
      - left. split; [reflexivity |]. apply HI. left. reflexivity.
      - right. split; [exact HN |]. exists y. split; [exact HE |]. apply HB. left. reflexivity. }
    destruct I as [<- | I].
    + exists n. split; [reflexivity |]. exact HPn.
    + apply in_app_iff in I. destruct I as [I | I].
      * destruct (nd_key (nt_node g n)) as [v | b] eqn:EK.
        { injection ED as <-. destruct I. }
        destruct (nd_expandable (nt_node g n)); [| injection ED as <-; destruct I].
        destruct (nt_start g b) as [s |] eqn:ES; [| discriminate ED].
        assert (HE : enters g p b).
        { destruct HPn as [[_ HI] | [_ [y [HE HB]]]].
          - exact (enter_here g p n b HI EK).
          - exact (enter_deep g p y n b HE HB EK). }
        refine (IH _ _ _ (or_intror (conj (app_one_not_nil _ path b)
                 (ex_intro _ b (conj HE (fun m Im => ex_intro _ s (conj ES Im))))))
                 ED u I).
      * apply (IHl _ ER); [| exact I].
        destruct HP as [[-> HI] | [HN [y [HE HB]]]].
        -- left. split; [reflexivity |]. intros m Im. apply HI. right. exact Im.
        -- right. split; [exact HN |]. exists y. split; [exact HE |].
           intros m Im. apply HB. right. exact Im.
Qed.

Lemma distinct_incl : forall l seen u, In u (distinct seen l) -> In u l.
Proof.
  induction l as [|v r IH]; intros seen u I; cbn [distinct] in I; [exact I |].
  destruct (existsb (same_stack v) seen).
  - right. exact (IH _ _ I).
  - destruct I as [<- | I]; [left; reflexivity | right; exact (IH _ _ I)].
Qed.

Lemma key_eqb_eq : forall a b, key_eqb a b = true -> a = b.
Proof.
  intros [x|x] [y|y] H; cbn [key_eqb] in H; try discriminate H;
    apply Z.eqb_eq in H; subst; reflexivity.
Qed.

(* A unit found by a key. *)
Definition found (g : net) (p : place) (k : key) (u : unit_) : Prop :=
  exists n, u_to u = ToNode n /\ nd_key (nt_node g n) = k /\
    ((u_path u = [] /\ In n (links g p)) \/
     (u_path u <> [] /\ exists y, enters g p y /\ begins g y n)).

Lemma units_found : forall fuel g p k us u,
  units_of fuel g p k = Ok us -> In u us -> found g p k u.
Proof.
  intros fuel g p k us u E I. unfold units_of, reachable in E.
  apply bind_ok in E. destruct E as [l [E1 E]]. injection E as <-.
  apply bind_ok in E1. destruct E1 as [l0 [E1 E2]]. injection E2 as <-.
  apply filter_In in I. destruct I as [I HK]. apply distinct_incl in I.
  destruct (expand_reached g p fuel [] _ _ (or_introl (conj eq_refl (incl_refl _))) E1 u I)
    as [n [EN HR]].
  exists n. split; [exact EN |]. unfold has_key, unit_key in HK. rewrite EN in HK.
  apply key_eqb_eq in HK. split; [exact HK | exact HR].
Qed.

(* ---- stacks ---- *)

(* The stack has read the word. *)
Inductive covers (g : net) : frame -> list frame -> word -> nat -> list report -> Prop :=
| cover_root set c next : covers g (Frame Top set c) [] [] next []
| cover_bottom n set c w next rs :
    walks g root_value n w next rs -> covers g (Frame (At n) set c) [] w next rs
| cover_over n set c p below b w1 w2 next rs1 rs2 :
    covers g p below w1 (first w2 next) rs1 ->
    enters g (f_place p) b ->
    walks g b n w2 next rs2 ->
    f_child p = first w2 next ->
    covers g (Frame (At n) set c) (p :: below) (w1 ++ w2) next (rs1 ++ rs2).

Lemma covers_top : forall g p set c set' c' below w next rs,
  covers g (Frame p set c) below w next rs -> covers g (Frame p set' c') below w next rs.
Proof.
  intros g p set c set' c' below w next rs H.
  inversion H as [s1 c1 n1 | n s1 c1 w1 n1 rs1 HW | n s1 c1 p1 below1 b w1 w2 n1 rs1 rs2 HC HE HW HF]; subst.
  - constructor.
  - constructor. exact HW.
  - econstructor; eassumption.
Qed.

Lemma first_app : forall w1 w2 next, first (w1 ++ w2) next = first w1 (first w2 next).
Proof. intros [|[i k] r] w2 next; reflexivity. Qed.

(* The owner of what a walk arrives at. *)
Lemma walk_own : forall g own,
  (forall b n, begins g b n -> own n = b) ->
  (forall n m, In m (nd_next (nt_node g n)) -> own m = own n) ->
  forall b n w next rs, walks g b n w next rs -> own n = b.
Proof.
  intros g own HB HN b n w next rs H.
  induction H as [b n w next rs HBe HM | b m n w1 w2 next rs1 rs2 HW IH HI HM].
  - exact (HB b n HBe).
  - rewrite (HN m n HI). exact IH.
Qed.

Lemma tidy_end : forall g, tidy g -> forall b n w next rs b',
  walks g b n w next rs -> nd_end (nt_node g n) = Some b' -> b' = b.
Proof.
  intros g [own [HB [HN HE]]] b n w next rs b' HW E.
  rewrite <- (HE n b' E). exact (walk_own g own HB HN b n w next rs HW).
Qed.

(* Going on from a covered stack by a node that matches the next word. *)
Lemma covers_step : forall g p set c below w1 w2 next rs1 rs2 n set' c',
  covers g (Frame p set c) below w1 (first w2 next) rs1 ->
  In n (links g p) -> matches g n w2 next rs2 ->
  covers g (Frame (At n) set' c') below (w1 ++ w2) next (rs1 ++ rs2).
Proof.
  intros g p set c below w1 w2 next rs1 rs2 n set' c' HC HI HM.
  inversion HC as [s1 c1 n1 | m s1 c1 wa n1 rsa HW | m s1 c1 p1 below1 b wa wb n1 rsa rsb HC1 HE HW HF]; subst.
  - cbn [app]. apply cover_bottom. apply walk_start; [| exact HM].
    cbn [links] in HI. destruct (nt_start g root_value) as [s|] eqn:ES; [| destruct HI].
    exists s. split; [exact ES | exact HI].
  - apply cover_bottom. cbn [links] in HI. exact (walk_next g _ m n w1 w2 next rs1 rs2 HW HI HM).
  - rewrite <- !app_assoc. cbn [links] in HI.
    apply cover_over with (b := b).
    + rewrite first_app. exact HC1.
    + exact HE.
    + exact (walk_next g b m n wb w2 next rsb rs2 HW HI HM).
    + rewrite first_app. exact HF.
Qed.

Lemma covers_enter : forall g fr below w1 w2 next rs1 rs2 n y set' c',
  covers g fr below w1 (first w2 next) rs1 ->
  enters g (f_place fr) y -> begins g y n -> matches g n w2 next rs2 ->
  f_child fr = first w2 next ->
  covers g (Frame (At n) set' c') (fr :: below) (w1 ++ w2) next (rs1 ++ rs2).
Proof.
  intros g fr below w1 w2 next rs1 rs2 n y set' c' HC HE HB HM HF.
  apply cover_over with (b := y); try assumption. apply walk_start; assumption.
Qed.

(* ---- growing ---- *)

Lemma pass_units_incl : forall apply l paths u,
  In u (fst (pass_units apply paths l)) -> In u l.
Proof.
  intros apply. induction l as [|v r IH]; intros paths u I; cbn [pass_units] in I; [exact I |].
  specialize (IH (record v paths)).
  destruct (pass_units apply (record v paths) r) as [us p'] eqn:E. cbn [fst] in I, IH.
  destruct (Nat.leb apply (position v paths)).
  - destruct I as [<- | I]; [left; reflexivity | right; exact (IH u I)].
  - right. exact (IH u I).
Qed.

Lemma pass_items_in : forall apply normal l paths it u,
  In it (fst (pass_items apply paths normal l)) -> In u (i_units it) ->
  exists it0, In it0 l /\ i_value it0 = i_value it /\ i_dst it0 = i_dst it /\
    In u (i_units it0) /\ Nat.eqb (u_step u) 0 = normal.
Proof.
  intros apply normal. induction l as [|x r IH]; intros paths it u I IU; cbn [pass_items] in I;
    [destruct I |].
  set (mine := filter _ _) in I.
  destruct (pass_units apply paths mine) as [us p1] eqn:E1.
  destruct (pass_items apply p1 normal r) as [its p2] eqn:E2. cbn [fst] in I.
  destruct I as [<- | I].
  - exists x. cbn [i_value i_dst i_units] in *.
    assert (IM : In u mine).
    { apply (pass_units_incl apply mine paths). rewrite E1. exact IU. }
    unfold mine in IM. apply filter_In in IM. destruct IM as [IM EB].
    apply Bool.eqb_prop in EB.
    split; [left; reflexivity |]. repeat (split; [reflexivity |]).
    split; [exact IM | symmetry; exact EB].
  - assert (I' : In it (fst (pass_items apply p1 normal r))) by (rewrite E2; exact I).
    destruct (IH p1 it u I' IU) as [it0 [H0 H]]. exists it0. split; [right; exact H0 | exact H].
Qed.

Lemma leaves_of_in : forall f its l,
  In l (leaves_of f its) -> exists it u, In it its /\ In u (i_units it) /\ l = f it u.
Proof.
  intros f its l I. unfold leaves_of in I. apply in_concat in I. destruct I as [x [Ix I]].
  apply in_map_iff in Ix. destruct Ix as [it [<- Iit]].
  apply in_map_iff in I. destruct I as [u [<- Iu]]. exists it, u. auto.
Qed.

(* Where the items of an element come from. *)
Definition item_ok (g : net) (w : world) (stay : bool) (p : place) (e : element) (it : item) : Prop :=
  exists k, In k (keys_of e) /\ i_value it = key_value k /\
    ((forall u, In u (i_units it) -> found g p k u) \/
     (stay = true /\ w_invisible w (key_value k) = true /\ i_units it = [Unit (Stay p) []])).

Lemma items_ok : forall fuel g w stay p set e items,
  items_of fuel g w stay p set e = Ok items -> forall it, In it items -> item_ok g w stay p e it.
Proof.
  intros fuel g w stay p set e items E it I. unfold items_of in E.
  apply bind_ok in E. destruct E as [ls [E1 E]]. injection E as <-.
  apply in_concat in I. destruct I as [x [Ix I]].
  destruct (each_in _ _ _ _ _ _ E1 Ix) as [k [Ik Ek]]. unfold item_of in Ek.
  apply bind_ok in Ek. destruct Ek as [dst [Ed Ek]].
  exists k. split; [exact Ik |].
  destruct dst as [|d ds].
  - destruct (stay && w_invisible w (key_value k)) eqn:EB.
    + injection Ek as <-. destruct I as [<- | []]. split; [reflexivity |]. right.
      apply andb_true_iff in EB. destruct EB as [E2 E3]. auto.
    + injection Ek as <-. destruct I.
  - apply bind_ok in Ek. destruct Ek as [us [Eu Ek]]. destruct us as [|u0 us].
    + injection Ek as <-. destruct I.
    + injection Ek as <-. destruct I as [<- | []]. split; [reflexivity |]. left.
      intros u Iu. exact (units_found fuel g p k _ u Eu Iu).
Qed.

(* A leaf that has grown by the element i. *)
Definition grown (g : net) (w : world) (e : element) (i : nat) (stay : bool) (wd : word)
    (rs : list report) (acts : list action) (l : leaf) : Prop :=
  exists k, In k (keys_of e) /\ l_acts l = assign e i (key_value k) ++ acts /\
    ((forall next, covers g (l_top l) (l_rest l) (wd ++ [(i, k)]) next rs) \/
     (stay = true /\ w_invisible w (key_value k) = true /\
      forall next, covers g (l_top l) (l_rest l) wd next rs)).

Lemma step_zero : forall u, Nat.eqb (u_step u) 0 = true <-> u_path u = [].
Proof.
  intros u. unfold u_step. rewrite Nat.eqb_eq. destruct (u_path u) as [|z r]; cbn [length]; split;
    intros H; try reflexivity; discriminate H.
Qed.

Lemma grow_ok : forall g w e i stay apply paths p set c rest wd rs acts items sw no paths',
  (forall it, In it items -> item_ok g w stay p e it) ->
  covers g (Frame p set c) rest wd i rs ->
  (stay = true -> forall next, covers g (Frame p set c) rest wd next rs) ->
  grow e i apply paths (Frame p set c) rest acts items = (sw, no, paths') ->
  forall l, In l (sw ++ no) -> grown g w e i stay wd rs acts l.
Proof.
  intros g w e i stay apply paths p set c rest wd rs acts items sw no paths' HI HC HS E l IL.
  unfold grow in E.
  destruct (pass_items apply paths false items) as [s1 p1] eqn:E1.
  destruct (pass_items apply p1 true items) as [n1 p2] eqn:E2.
  injection E as <- <- <-.
  assert (ROOM : forall n k next, nd_key (nt_node g n) = k -> In n (links g p) ->
            forall set' c', covers g (Frame (At n) set' c') rest (wd ++ [(i, k)]) next rs).
  { intros n k next EK IN set' c'. rewrite <- (app_nil_r rs).
    apply (covers_step g p set c rest wd [(i, k)] next rs [] n set' c' HC IN).
    rewrite <- EK. apply match_element. }
  apply in_app_iff in IL. destruct IL as [IL | IL]; apply leaves_of_in in IL;
    destruct IL as [it [u [Iit [Iu ->]]]].
  - destruct (pass_items_in apply false items paths it u) as [it0 [I0 [EV [_ [Iu0 EZ]]]]];
      [rewrite E1; exact Iit | exact Iu |].
    destruct (HI it0 I0) as [k [Ik [EVk HU]]].
    exists k. split; [exact Ik |]. split.
    + unfold switched_leaf. cbn [l_acts]. rewrite <- EV, EVk. reflexivity.
    + destruct HU as [HU | [_ [_ HU]]].
      * left. intros next. destruct (HU u Iu0) as [n [ET [EK HR]]].
        destruct HR as [[EP _] | [_ [y [HE HB]]]].
        { apply step_zero in EP. rewrite EP in EZ. discriminate EZ. }
        unfold switched_leaf, to_place. cbn [l_top l_rest]. rewrite ET. cbn [f_place f_set].
        rewrite <- (app_nil_r rs).
        apply (covers_enter g (Frame p set i) rest wd [(i, k)] next rs [] n y).
        -- cbn [first]. exact (covers_top _ _ _ _ _ _ _ _ _ _ HC).
        -- exact HE.
        -- exact HB.
        -- rewrite <- EK. apply match_element.
        -- reflexivity.
      * rewrite HU in Iu0. destruct Iu0 as [<- | []]. discriminate EZ.
  - destruct (pass_items_in apply true items p1 it u) as [it0 [I0 [EV [_ [Iu0 EZ]]]]];
      [rewrite E2; exact Iit | exact Iu |].
    destruct (HI it0 I0) as [k [Ik [EVk HU]]].
    exists k. split; [exact Ik |]. split.
    + unfold normal_leaf. cbn [l_acts]. rewrite <- EV, EVk. reflexivity.
    + destruct HU as [HU | [ES [EI HU]]].
      * left. intros next. destruct (HU u Iu0) as [n [ET [EK HR]]].
        destruct HR as [[_ IN] | [EP _]].
        -- unfold normal_leaf, to_place. cbn [l_top l_rest]. rewrite ET.
           exact (ROOM n k next EK IN _ _).
        -- apply step_zero in EZ. contradiction.
      * right. split; [exact ES |]. split; [exact EI |]. intros next.
        rewrite HU in Iu0. destruct Iu0 as [<- | []].
        unfold normal_leaf, to_place. cbn [l_top l_rest u_to].
        exact (covers_top _ _ _ _ _ _ _ _ _ _ (HS ES next)).
Qed.

(* ---- reports and readings ---- *)

Lemma reports_app : forall a b, reports (a ++ b) = reports a ++ reports b.
Proof.
  induction a as [|[j x|b0 i j] r IH]; intros b; cbn [app reports]; [reflexivity | apply IH |].
  rewrite IH. reflexivity.
Qed.

Definition is_matched (a : action) : Prop :=
  match a with Matched _ _ _ => True | Assign _ _ => False end.

Lemma reports_assign : forall e i v, reports (assign e i v) = [].
Proof. intros [k|ks] i v; reflexivity. Qed.

Lemma rev_assign : forall e i v, rev (assign e i v) = assign e i v.
Proof. intros [k|ks] i v; reflexivity. Qed.

(* ---- the end of a branch ---- *)

(* Branch b is complete on top of the frame. *)
Definition completed (g : net) (parent : frame) (below : list frame) (b : Z)
    (wd : word) (i : nat) (rs : list report) : Prop :=
  exists w1 w2 rs1 rs2 n,
    wd = w1 ++ w2 /\ rs = rs1 ++ rs2 /\
    covers g parent below w1 (first w2 i) rs1 /\
    f_child parent = first w2 i /\
    walks g b n w2 i rs2 /\ nd_end (nt_node g n) = Some b.

Lemma covers_completed : forall g, tidy g -> forall n set c parent below wd i rs b,
  covers g (Frame (At n) set c) (parent :: below) wd i rs ->
  nd_end (nt_node g n) = Some b -> completed g parent below b wd i rs.
Proof.
  intros g T n set c parent below wd i rs b HC HE.
  inversion HC as [| | n1 s1 c1 p1 below1 b1 w1 w2 nx rs1 rs2 HC1 HEn HW HF]; subst.
  pose proof (tidy_end g T _ _ _ _ _ _ HW HE) as ->.
  exists w1, w2, rs1, rs2, n. repeat (split; [try reflexivity; assumption |]). exact HE.
Qed.

(* Taking a reference to a complete branch. *)
Lemma take_reference : forall g parent below b wd i rs u set c,
  completed g parent below b wd i rs ->
  found g (f_place parent) (KRef b) u ->
  covers g (Frame (to_place u) set c)
    (if Nat.eqb (u_step u) 0 then below else parent :: below) wd i
    (rs ++ [Report b (f_child parent) i]).
Proof.
  intros g parent below b wd i rs u set c HCo [n [ET [EK HR]]].
  destruct HCo as [w1 [w2 [rs1 [rs2 [m [-> [-> [HC [HF [HW HE]]]]]]]]]].
  assert (HM : matches g n w2 i (rs2 ++ [Report b (f_child parent) i])).
  { rewrite HF. exact (match_branch g n b m w2 i rs2 EK HW HE). }
  unfold to_place. rewrite ET. rewrite <- app_assoc.
  destruct HR as [[EP IN] | [EP [y [HEn HB]]]].
  - rewrite (proj2 (step_zero u) EP).
    destruct parent as [pp ps pc]. exact (covers_step g pp ps pc below w1 w2 i rs1 _ n set c HC IN HM).
  - destruct (Nat.eqb (u_step u) 0) eqn:EZ; [apply step_zero in EZ; contradiction |].
    exact (covers_enter g parent below w1 w2 i rs1 _ n y set c HC HEn HB HM HF).
Qed.

(* A leaf that has grown after some branches were completed. *)
Definition grown_after (g : net) (w : world) (e : element) (i : nat) (stay : bool) (wd : word)
    (rs : list report) (acts : list action) (l : leaf) : Prop :=
  exists ms, Forall is_matched ms /\
    grown g w e i stay wd (rs ++ reports (rev ms)) (ms ++ acts) l.

Lemma check_end_ok : forall g w e i, tidy g ->
  forall fuel paths parent below wd rs acts b ls,
  completed g parent below b wd i rs ->
  check_end fuel g w e i paths parent below acts b = Ok ls ->
  forall l, In l ls -> grown_after g w e i false wd rs acts l.
Proof.
  intros g w e i T. induction fuel as [|f IH]; intros paths parent below wd rs acts b ls HCo E l IL.
  - cbn [check_end] in E. destruct (Z.eqb b root_value); [| discriminate E].
    injection E as <-. destruct IL.
  - cbn [check_end] in E. destruct (Z.eqb b root_value); [injection E as <-; destruct IL |].
    apply bind_ok in E. destruct E as [ref_set [ER E]].
    apply bind_ok in E. destruct E as [refs [EU E]].
    match type of E with
    | match _ with [] => _ | _ :: _ => ?body end = _ =>
        assert (E' : body = Ok ls) by (destruct refs; [discriminate E | exact E])
    end.
    clear E. rename E' into E.
    assert (HF : forall u, In u refs -> found g (f_place parent) (KRef b) u).
    { intros u Iu. exact (units_found _ _ _ _ _ _ EU Iu). }
    revert E HF. set (apply := length paths). clearbody apply. clear EU.
    revert paths ls IL.
    induction refs as [|u more IHm]; intros paths ls IL E HF; cbn beta iota fix match in E.
    + injection E as <-. destruct IL.
    + apply bind_ok in E. destruct E as [items [EI E]].
      destruct (grow e i apply paths (Frame (to_place u) ref_set 0)
                 (if Nat.eqb (u_step u) 0 then below else parent :: below)
                 (Matched b (f_child parent) i :: acts) items) as [[sw no] paths1] eqn:EG.
      apply bind_ok in E. destruct E as [deeper [ED E]].
      apply bind_ok in E. destruct E as [rest [EM E]]. injection E as <-.
      pose proof (HF u (or_introl eq_refl)) as HFu.
      pose proof (take_reference g parent below b wd i rs u ref_set 0 HCo HFu) as HT.
      rewrite app_assoc in IL. apply in_app_iff in IL. destruct IL as [IL | IL].
      * exists [Matched b (f_child parent) i]. split; [constructor; [exact Logic.I | constructor] |].
        cbn [rev app reports].
        refine (grow_ok g w e i false apply paths (to_place u) ref_set 0 _ wd _ _ items sw no paths1
                 (items_ok _ _ _ _ _ _ _ _ EI) HT _ EG l IL).
        discriminate.
      * apply in_app_iff in IL. destruct IL as [IL | IL].
        -- assert (DEEP : forall par bel b',
                     completed g par bel b' wd i (rs ++ [Report b (f_child parent) i]) ->
                     check_end f g w e i paths1 par bel (Matched b (f_child parent) i :: acts) b' = Ok deeper ->
                     grown_after g w e i false wd rs acts l).
           { intros par bel b' HC2 E2.
             destruct (IH _ _ _ _ _ _ _ _ HC2 E2 l IL) as [ms [HM HG]].
             exists (ms ++ [Matched b (f_child parent) i]). split.
             - apply Forall_app. split; [exact HM |]. constructor; [exact Logic.I | constructor].
             - rewrite rev_app_distr. cbn [rev app reports]. rewrite <- app_assoc in HG |- *.
               exact HG. }
           destruct HFu as [n [ET HFu]]. rewrite ET in ED. unfold to_place in HT. rewrite ET in HT.
           destruct (nd_dead (nt_node g n)); [injection ED as <-; destruct IL |].
           destruct (nd_end (nt_node g n)) as [b'|] eqn:EN; [| injection ED as <-; destruct IL].
           destruct (Nat.eqb (u_step u) 0).
           ++ destruct (Z.eqb b' root_value); [injection ED as <-; destruct IL |].
              destruct below as [|p r]; [discriminate ED |].
              apply (DEEP p r b'); [| exact ED].
              exact (covers_completed g T n ref_set 0 p r wd i _ b' HT EN).
           ++ apply (DEEP parent below b'); [| exact ED].
              exact (covers_completed g T n ref_set 0 parent below wd i _ b' HT EN).
        -- apply (IHm paths1 rest IL EM). intros v Iv. apply HF. right. exact Iv.
Qed.

(* ---- one element ---- *)

Definition leaf_ok (g : net) (inv : Z -> bool) (els : list element) (done : list action)
    (l : leaf) : Prop :=
  exists wd rs ch,
    reads inv 0 els wd ch /\
    (forall next, covers g (l_top l) (l_rest l) wd next rs) /\
    reports (done ++ rev (l_acts l)) = rs /\
    (forall j v, In (j, v) ch -> written (done ++ rev (l_acts l)) j None = Some v).

Lemma reads_more_take : forall inv i0 els wd ch e k,
  reads inv i0 els wd ch -> In k (keys_of e) ->
  reads inv i0 (els ++ [e]) (wd ++ [(i0 + length els, k)]) (ch ++ choice e (i0 + length els) k).
Proof.
  intros inv i0 els wd ch e k H Ik.
  induction H as [i | i e0 k0 els wd ch I0 H IH | i e0 k0 els wd ch I0 HV H IH]; cbn [length app].
  - rewrite Nat.add_0_r, <- (app_nil_r (choice e i k)).
    apply reads_take; [exact Ik | constructor].
  - rewrite <- Nat.add_succ_comm, <- app_assoc. apply reads_take; [exact I0 |]. exact IH.
  - rewrite <- Nat.add_succ_comm, <- app_assoc. apply reads_skip; [exact I0 | exact HV |]. exact IH.
Qed.

Lemma reads_more_skip : forall inv i0 els wd ch e k,
  reads inv i0 els wd ch -> In k (keys_of e) -> inv (key_value k) = true ->
  reads inv i0 (els ++ [e]) wd (ch ++ choice e (i0 + length els) k).
Proof.
  intros inv i0 els wd ch e k H Ik HI.
  induction H as [i | i e0 k0 els wd ch I0 H IH | i e0 k0 els wd ch I0 HV H IH]; cbn [length app].
  - rewrite Nat.add_0_r, <- (app_nil_r (choice e i k)).
    apply reads_skip; [exact Ik | exact HI | constructor].
  - rewrite <- Nat.add_succ_comm, <- app_assoc. apply reads_take; [exact I0 |]. exact IH.
  - rewrite <- Nat.add_succ_comm, <- app_assoc. apply reads_skip; [exact I0 | exact HV |]. exact IH.
Qed.

Lemma reads_bound : forall inv i0 els wd ch, reads inv i0 els wd ch ->
  forall j v, In (j, v) ch -> i0 <= j /\ j < i0 + length els.
Proof.
  intros inv i0 els wd ch H.
  induction H as [i | i e k els wd ch I0 H IH | i e k els wd ch I0 HV H IH]; intros j v I;
    [destruct I | |]; cbn [length];
    (apply in_app_iff in I; destruct I as [I | I];
     [ destruct e as [k1|ks]; cbn [choice] in I; [destruct I | destruct I as [I | []]];
       injection I as <- <-; lia
     | specialize (IH j v I); lia ]).
Qed.

Lemma written_app : forall a b i v, written (a ++ b) i v = written b i (written a i v).
Proof.
  induction a as [|[j x|b0 i0 j] r IH]; intros b i v; cbn [app written]; [reflexivity | |]; apply IH.
Qed.

(* Actions that write nothing but the reading of element i. *)
Definition only (i : nat) (a : action) : Prop :=
  match a with Matched _ _ _ => True | Assign j _ => j = i end.

Lemma written_only : forall i l j v, Forall (only i) l -> j <> i -> written l j v = v.
Proof.
  intros i l j v H N. induction H as [|[k x|b0 i0 k] r HO H IH]; cbn [written]; [reflexivity | |].
  - cbn [only] in HO. subst k. rewrite (proj2 (Nat.eqb_neq i j)) by lia. exact IH.
  - exact IH.
Qed.

Lemma only_assign : forall e i v, Forall (only i) (assign e i v).
Proof.
  intros [k|ks] i v; cbn [assign]; constructor; [reflexivity | constructor].
Qed.

Lemma only_matched : forall i ms, Forall is_matched ms -> Forall (only i) ms.
Proof.
  intros i ms H. induction H as [|[k x|b0 i0 k] r HO H IH]; constructor; try assumption.
  destruct HO.
Qed.

Lemma leaf_grows : forall g w els done l e i k mid l' wd rs ch,
  i = length els ->
  reads (w_invisible w) 0 els wd ch ->
  (forall j v, In (j, v) ch -> written (done ++ rev (l_acts l)) j None = Some v) ->
  reports (done ++ rev (l_acts l)) = rs ->
  Forall (only i) mid ->
  In k (keys_of e) ->
  l_acts l' = assign e i (key_value k) ++ mid ++ l_acts l ->
  ((forall next, covers g (l_top l') (l_rest l') (wd ++ [(i, k)]) next (rs ++ reports (rev mid))) \/
   (w_invisible w (key_value k) = true /\
    forall next, covers g (l_top l') (l_rest l') wd next (rs ++ reports (rev mid)))) ->
  leaf_ok g (w_invisible w) (els ++ [e]) done l'.
Proof.
  intros g w els done l e i k mid l' wd rs ch EI HR HW HRs HO Ik EA HC.
  assert (ACTS : done ++ rev (l_acts l') =
                 (done ++ rev (l_acts l)) ++ rev mid ++ assign e i (key_value k)).
  { rewrite EA, !rev_app_distr, rev_assign, <- !app_assoc. reflexivity. }
  assert (RP : reports (done ++ rev (l_acts l')) = rs ++ reports (rev mid)).
  { rewrite ACTS, !reports_app, <- reports_app, HRs, reports_assign, app_nil_r. reflexivity. }
  assert (WR : forall j v, In (j, v) (ch ++ choice e i k) ->
                 written (done ++ rev (l_acts l')) j None = Some v).
  { intros j v I. rewrite ACTS, written_app. apply in_app_iff in I. destruct I as [I | I].
    - pose proof (reads_bound _ _ _ _ _ HR j v I) as HB.
      rewrite written_only with (i := i); [exact (HW j v I) | | lia].
      apply Forall_app. split; [| apply only_assign].
      apply Forall_rev. exact HO.
    - rewrite written_app. destruct e as [k1|ks]; cbn [choice] in I; [destruct I |].
      destruct I as [I | []]. injection I as <- <-. cbn [assign written].
      rewrite Nat.eqb_refl. reflexivity. }
  pose proof (Nat.add_0_l (length els)) as E0.
  destruct HC as [HC | [HV HC]].
  - exists (wd ++ [(i, k)]), (rs ++ reports (rev mid)), (ch ++ choice e i k).
    split; [| split; [exact HC | split; [exact RP | exact WR]]].
    rewrite EI. exact (reads_more_take _ 0 els wd ch e k HR Ik).
  - exists wd, (rs ++ reports (rev mid)), (ch ++ choice e i k).
    split; [| split; [exact HC | split; [exact RP | exact WR]]].
    rewrite EI. exact (reads_more_skip _ 0 els wd ch e k HR Ik HV).
Qed.

Lemma push_ok : forall g w, tidy g -> forall fuel els done e l ls,
  leaf_ok g (w_invisible w) els done l ->
  push_leaf fuel g w e (length els) l = Ok ls ->
  forall l', In l' ls -> leaf_ok g (w_invisible w) (els ++ [e]) done l'.
Proof.
  intros g w T fuel els done e l ls [wd [rs [ch [HR [HC [HRs HW]]]]]] E l' IL.
  set (i := length els) in *.
  unfold push_leaf in E. apply bind_ok in E. destruct E as [items [EI E]].
  destruct (grow e i 0 [] (l_top l) (l_rest l) (l_acts l) items) as [[sw no] paths] eqn:EG.
  apply bind_ok in E. destruct E as [ended [EE E]]. injection E as <-.
  destruct l as [[p set c] rest acts]. cbn [l_top l_rest l_acts f_place f_set] in *.
  assert (DIRECT : forall x, In x (sw ++ no) -> grown g w e i true wd rs acts x).
  { refine (grow_ok g w e i true 0 [] p set c rest wd rs acts items sw no paths
              (items_ok _ _ _ _ _ _ _ _ EI) (HC i) (fun _ => HC) EG). }
  rewrite app_assoc in IL. apply in_app_iff in IL. destruct IL as [IL | IL].
  - destruct (DIRECT l' IL) as [k [Ik [EA HG]]].
    apply (leaf_grows g w els done (Leaf (Frame p set c) rest acts) e i k [] l' wd rs ch eq_refl HR HW HRs
             (Forall_nil _) Ik EA).
    cbn [rev reports]. rewrite app_nil_r. destruct HG as [HG | [_ HG]]; [left | right]; exact HG.
  - assert (PRE : exists pre, Forall (only i) pre /\ reports (rev pre) = [] /\
              match sw, no with [], n :: _ => l_acts n | _, _ => acts end = pre ++ acts).
    { destruct sw as [|x sw]; [| exists []; repeat split; constructor].
      destruct no as [|n no]; [exists []; repeat split; constructor |].
      destruct (DIRECT n (or_introl eq_refl)) as [k [_ [EA _]]].
      exists (assign e i (key_value k)). split; [apply only_assign |].
      split; [rewrite rev_assign; apply reports_assign | exact EA]. }
    destruct PRE as [pre [HO [HP EP]]]. rewrite EP in EE.
    destruct p as [|n]; cbn [end_of] in EE; [injection EE as <-; destruct IL |].
    destruct (nd_end (nt_node g n)) as [b|] eqn:EN; [| injection EE as <-; destruct IL].
    destruct (Z.eqb b root_value); [injection EE as <-; destruct IL |].
    destruct rest as [|pa below]; [discriminate EE |].
    pose proof (covers_completed g T n set c pa below wd i rs b (HC i) EN) as HCo.
    destruct (check_end_ok g w e i T fuel paths pa below wd rs (pre ++ acts) b ended HCo EE l' IL)
      as [ms [HM [k [Ik [EA HG]]]]].
    apply (leaf_grows g w els done (Leaf (Frame (At n) set c) (pa :: below) acts) e i k (ms ++ pre) l'
             wd rs ch eq_refl HR HW HRs).
    + apply Forall_app. split; [exact (only_matched i ms HM) | exact HO].
    + exact Ik.
    + rewrite EA, <- app_assoc. reflexivity.
    + rewrite rev_app_distr, reports_app, HP. cbn [app].
      destruct HG as [HG | [HD _]]; [left; exact HG | discriminate HD].
Qed.

Lemma insert_in : forall w x l y, In y (insert w x l) <-> y = x \/ In y l.
Proof.
  intros w x. induction l as [|z r IH]; intros y; cbn [insert In].
  - intuition congruence.
  - destruct (before w z x); cbn [In]; [rewrite IH |]; intuition congruence.
Qed.

Lemma sort_in : forall w l y, In y (sort w l) <-> In y l.
Proof.
  intros w. induction l as [|x r IH]; intros y; cbn [sort In]; [reflexivity |].
  rewrite insert_in, IH. intuition congruence.
Qed.

Lemma drop_equal_in : forall w l last y, In y (drop_equal w last l) -> In y l.
Proof.
  intros w. induction l as [|x r IH]; intros last y I; cbn [drop_equal] in I; [exact I |].
  destruct (Z.eqb (w_ident w x) last).
  - right. exact (IH _ _ I).
  - destruct I as [<- | I]; [left; reflexivity | right; exact (IH _ _ I)].
Qed.

Lemma merge_in : forall w l y, In y (merge_leaves w l) -> In y l.
Proof.
  intros w l y I. unfold merge_leaves in I.
  destruct l as [|a [|b r]]; [exact I | exact I |].
  destruct (sort w (a :: b :: r)) as [|x s] eqn:E; [destruct I |].
  apply (sort_in w). rewrite E. destruct I as [<- | I]; [left; reflexivity | right].
  exact (drop_equal_in _ _ _ _ I).
Qed.

Lemma pick_in : forall w l y, In y (pick_final w l) -> In y l.
Proof.
  intros w l y I. unfold pick_final in I.
  destruct l as [|a [|b r]]; [exact I | exact I |].
  apply (sort_in w). destruct (sort w (a :: b :: r)) as [|x s]; [destruct I |].
  cbn [firstn] in I. destruct I as [<- | []]. left. reflexivity.
Qed.

Definition state_ok (g : net) (inv : Z -> bool) (els : list element) (s : state) : Prop :=
  forall l, In l (s_leaves s) -> leaf_ok g inv els (s_done s) l.

Lemma execute_ok : forall g inv els s, state_ok g inv els s -> state_ok g inv els (execute s).
Proof.
  intros g inv els [ls done] H l I. unfold execute in *. cbn [s_leaves s_done] in *.
  destruct ls as [|x [|y r]]; [destruct I | | exact (H l I)].
  cbn [s_leaves s_done] in *. destruct I as [<- | []].
  destruct (H x (or_introl eq_refl)) as [wd [rs [ch [HR [HC [HRs HW]]]]]].
  exists wd, rs, ch. cbn [l_top l_rest l_acts rev]. rewrite app_nil_r. auto.
Qed.

Lemma go_element_ok : forall g w, tidy g -> forall fuel els e s s',
  state_ok g (w_invisible w) els s ->
  go_element fuel g w (length els) e s = Ok s' ->
  state_ok g (w_invisible w) (els ++ [e]) s'.
Proof.
  intros g w T fuel els e s s' H E. unfold go_element in E.
  apply bind_ok in E. destruct E as [ls [EL E]].
  destruct (concat ls) as [|x r] eqn:EC; [discriminate E |]. injection E as <-.
  apply execute_ok. intros l I.
  change (In l (merge_leaves w (x :: r))) in I.
  change (leaf_ok g (w_invisible w) (els ++ [e]) (s_done s) l). apply merge_in in I.
  rewrite <- EC in I. apply in_concat in I. destruct I as [xs [Ix I]].
  destruct (each_in _ _ _ _ _ _ EL Ix) as [l0 [I0 E0]].
  exact (push_ok g w T fuel els (s_done s) e l0 xs (H l0 I0) E0 l I).
Qed.

Lemma go_all_ok : forall g w, tidy g -> forall fuel els pre s s',
  state_ok g (w_invisible w) pre s ->
  go_all fuel g w (length pre) els s = Ok s' ->
  state_ok g (w_invisible w) (pre ++ els) s'.
Proof.
  intros g w T fuel. induction els as [|e r IH]; intros pre s s' H E; cbn [go_all] in E.
  - injection E as <-. rewrite app_nil_r. exact H.
  - apply bind_ok in E. destruct E as [s1 [E1 E]].
    pose proof (go_element_ok g w T fuel pre e s s1 H E1) as H1.
    replace (pre ++ e :: r) with ((pre ++ [e]) ++ r) by (rewrite <- app_assoc; reflexivity).
    apply (IH _ s1 s' H1). rewrite app_length, Nat.add_1_r. exact E.
Qed.

Lemma start_ok : forall g inv, state_ok g inv [] start.
Proof.
  intros g inv l [<- | []]. exists [], [], []. split; [constructor |].
  split; [intros next; apply cover_root |]. split; [reflexivity |]. intros j v [].
Qed.

(* ---- the end ---- *)

Lemma pop_ok : forall g, tidy g -> forall fuel i fr below acts wd rs ls,
  covers g fr below wd i rs ->
  pop fuel g i fr below acts = Ok ls ->
  forall l, In l ls -> exists ms, Forall is_matched ms /\ l_acts l = ms ++ acts /\
    sentence g wd i (rs ++ reports (rev ms)).
Proof.
  intros g T. induction fuel as [|f IH]; intros i fr below acts wd rs ls HC E l IL.
  - cbn [pop] in E. destruct fr as [[|n] set c]; cbn [f_place end_of] in E;
      [injection E as <-; destruct IL |].
    destruct (nd_end (nt_node g n)) as [b|] eqn:EN; [| injection E as <-; destruct IL].
    destruct below as [|pa rest]; [| discriminate E].
    injection E as <-. destruct IL as [<- | []]. exists []. split; [constructor |].
    split; [reflexivity |]. cbn [rev reports]. rewrite app_nil_r.
    inversion HC as [| n1 s1 c1 w1 nx rs1 HW |]; subst.
    pose proof (tidy_end g T _ _ _ _ _ _ HW EN) as ->. exists n. split; assumption.
  - cbn [pop] in E. destruct fr as [[|n] set c]; cbn [f_place end_of] in E;
      [injection E as <-; destruct IL |].
    destruct (nd_end (nt_node g n)) as [b|] eqn:EN; [| injection E as <-; destruct IL].
    destruct below as [|pa rest].
    + injection E as <-. destruct IL as [<- | []]. exists []. split; [constructor |].
      split; [reflexivity |]. cbn [rev reports]. rewrite app_nil_r.
      inversion HC as [| n1 s1 c1 w1 nx rs1 HW |]; subst.
      pose proof (tidy_end g T _ _ _ _ _ _ HW EN) as ->. exists n. split; assumption.
    + apply bind_ok in E. destruct E as [d0 [_ E]].
      apply bind_ok in E. destruct E as [refs [EU E]].
      match type of E with
      | match _ with [] => _ | _ :: _ => ?body end = _ =>
          assert (E' : body = Ok ls) by (destruct refs; [discriminate E | exact E])
      end.
      clear E. apply bind_ok in E'. destruct E' as [dst [_ E]].
      apply bind_ok in E. destruct E as [xs [EX E]]. injection E as <-.
      apply in_concat in IL. destruct IL as [x [Ix IL]].
      destruct (each_in _ _ _ _ _ _ EX Ix) as [u [Iu Eu]].
      pose proof (units_found _ _ _ _ _ _ EU Iu) as HF.
      pose proof (covers_completed g T n set c pa rest wd i rs b HC EN) as HCo.
      cbn beta zeta in Eu.
      assert (R : exists ms, Forall is_matched ms /\
                 l_acts l = ms ++ Matched b (f_child pa) i :: acts /\
                 sentence g wd i ((rs ++ [Report b (f_child pa) i]) ++ reports (rev ms))).
      { destruct (Nat.eqb (u_step u) 0) eqn:EZ.
        - pose proof (take_reference g pa rest b wd i rs u dst (f_child pa) HCo HF) as HT.
          rewrite EZ in HT. exact (IH _ _ _ _ _ _ _ HT Eu l IL).
        - pose proof (take_reference g pa rest b wd i rs u dst 0 HCo HF) as HT.
          rewrite EZ in HT. exact (IH _ _ _ _ _ _ _ HT Eu l IL). }
      destruct R as [ms [HM [EA HS]]].
      exists (ms ++ [Matched b (f_child pa) i]). split.
      { apply Forall_app. split; [exact HM |]. constructor; [exact Logic.I | constructor]. }
      split; [rewrite EA, <- app_assoc; reflexivity |].
      rewrite rev_app_distr. cbn [rev app reports]. rewrite <- app_assoc in HS. exact HS.
Qed.

Lemma analyze_ok : forall g w, tidy g -> forall fuel els s,
  analyze fuel g w els = Ok s -> s_leaves s <> [] ->
  exists wd rs ch,
    reads (w_invisible w) 0 els wd ch /\
    sentence g wd (length els) rs /\
    reports (s_done s) = rs ++ [Report root_value 0 (length els)] /\
    forall i v, In (i, v) ch -> written (s_done s) i None = Some v.
Proof.
  intros g w T fuel els s E NE. unfold analyze in E. apply bind_ok in E. destruct E as [s1 [E1 E]].
  pose proof (go_all_ok g w T fuel els [] start s1 (start_ok g _) E1) as H1. cbn [app] in H1.
  unfold go_end in E. apply bind_ok in E. destruct E as [ls [EL E]]. injection E as <-.
  cbn [s_leaves s_done] in *.
  destruct (pick_final w (concat ls)) as [|x [|y r]] eqn:EP.
  - exfalso. apply NE. reflexivity.
  - assert (Ix : In x (concat ls)) by (apply (pick_in w); rewrite EP; left; reflexivity).
    unfold execute. cbn [s_leaves s_done].
    apply in_concat in Ix. destruct Ix as [xs [Ixs Ix]].
    destruct (each_in _ _ _ _ _ _ EL Ixs) as [l [Il El]].
    destruct (H1 l Il) as [wd [rs [ch [HR [HC [HRs HW]]]]]].
    destruct (pop_ok g T fuel _ _ _ _ wd rs xs (HC (length els)) El x Ix) as [ms [HM [EA HS]]].
    exists wd, (rs ++ reports (rev ms)), ch. split; [exact HR |]. split; [exact HS |].
    assert (ACTS : s_done s1 ++ rev (l_acts x) = (s_done s1 ++ rev (l_acts l)) ++ rev ms).
    { rewrite EA, rev_app_distr, app_assoc. reflexivity. }
    split.
    + rewrite reports_app, ACTS, reports_app, HRs. reflexivity.
    + intros i v I. rewrite written_app, ACTS, written_app. cbn [written].
      rewrite (HW i v I). clear - HM. apply Forall_rev in HM. revert HM.
      generalize (rev ms) as l0. induction 1 as [|[j z|b0 i0 j] r HO H IH]; cbn [written];
        [reflexivity | destruct HO | exact IH].
  - exfalso. unfold pick_final in EP. destruct (concat ls) as [|a [|b0 q]]; try discriminate EP.
    destruct (sort w (a :: b0 :: q)) as [|z zs]; discriminate EP.
Qed.

(* ---- what has been read begins a sentence ---- *)

Lemma finish_walk : forall g n, finishes g n -> forall b w next rs,
  walks g b n w next rs ->
  exists w' rs' m b', walks g b m (w ++ w') next rs' /\ nd_end (nt_node g m) = Some b' /\
    first w' next = next.
Proof.
  intros g n F. induction F as [n b0 E | n m I F IH]; intros b w next rs HW.
  - exists [], rs, n, b0. rewrite app_nil_r. auto.
  - destruct (IH b (w ++ [(next, nd_key (nt_node g m))]) next (rs ++ [])) as [w' [rs' [q [b' [H1 [H2 H3]]]]]].
    + apply (walk_next g b n m w [(next, nd_key (nt_node g m))] next rs []); [exact HW | exact I |].
      apply match_element.
    + exists ((next, nd_key (nt_node g m)) :: w'), rs', q, b'.
      rewrite <- app_assoc in H1. auto.
Qed.

Lemma climb : forall g, tidy g -> (forall n, finishes g n) ->
  forall p below b, enters g (f_place p) b ->
  forall w1 w2 next rs1 rs2 m,
  covers g p below w1 (first w2 next) rs1 ->
  walks g b m w2 next rs2 -> nd_end (nt_node g m) = Some b ->
  f_child p = first w2 next ->
  exists n w' rs', covers g (Frame (At n) [] 0) below (w1 ++ w2 ++ w') next rs' /\
    first w' next = next.
Proof.
  intros g T F p below b HE. induction HE as [r b HI EK | y r b HE IH HB EK];
    intros w1 w2 next rs1 rs2 m HC HW EN HF.
  - exists r, [], (rs1 ++ rs2 ++ [Report b (first w2 next) next]). rewrite app_nil_r.
    split; [| reflexivity].
    destruct p as [pp ps pc]. apply (covers_step g pp ps pc below w1 w2 next rs1 _ r [] 0 HC HI).
    exact (match_branch g r b m w2 next rs2 EK HW EN).
  - assert (HWr : walks g y r w2 next (rs2 ++ [Report b (first w2 next) next])).
    { apply walk_start; [exact HB |]. exact (match_branch g r b m w2 next rs2 EK HW EN). }
    destruct (finish_walk g r (F r) y w2 next _ HWr) as [wa [rsa [q [b' [Ha [Hb Hc]]]]]].
    pose proof (tidy_end g T _ _ _ _ _ _ Ha Hb) as ->.
    assert (EF : first (w2 ++ wa) next = first w2 next) by (rewrite first_app, Hc; reflexivity).
    destruct (IH w1 (w2 ++ wa) next rs1 rsa q) as [n [wb [rsb [Hd He]]]].
    + rewrite EF. exact HC.
    + exact Ha.
    + exact Hb.
    + rewrite EF. exact HF.
    + exists n, (wa ++ wb), rsb. rewrite <- !app_assoc in Hd. split; [exact Hd |].
      rewrite first_app, He. exact Hc.
Qed.

Lemma covers_viable : forall g, tidy g -> no_dead_ends g ->
  forall below fr w next rs, covers g fr below w next rs -> sentence_start g w.
Proof.
  intros g T [[n0 HB0] F].
  assert (BOTTOM : forall n w next rs, walks g root_value n w next rs -> sentence_start g w).
  { intros n w next rs HW.
    destruct (finish_walk g n (F n) _ _ _ _ HW) as [w' [rs' [m [b' [H1 [H2 _]]]]]].
    pose proof (tidy_end g T _ _ _ _ _ _ H1 H2) as ->.
    exists w', next, rs', m. split; assumption. }
  induction below as [|p below IH]; intros fr w next rs HC.
  - inversion HC as [s1 c1 nx | n s1 c1 wa nx rsa HW |]; subst.
    + assert (HW : walks g root_value n0 [(0, nd_key (nt_node g n0))] 0 []).
      { apply walk_start; [exact HB0 | apply match_element]. }
      destruct (BOTTOM _ _ _ _ HW) as [w' [nx [rs' HS]]].
      exists ([(0, nd_key (nt_node g n0))] ++ w'), nx, rs'. exact HS.
    + exact (BOTTOM _ _ _ _ HW).
  - inversion HC as [| | n s1 c1 p1 below1 b w1 w2 nx rs1 rs2 HC1 HE HW HF]; subst.
    destruct (finish_walk g n (F n) _ _ _ _ HW) as [wa [rsa [m [b' [H1 [H2 H3]]]]]].
    pose proof (tidy_end g T _ _ _ _ _ _ H1 H2) as ->.
    assert (EF : first (w2 ++ wa) next = first w2 next) by (rewrite first_app, H3; reflexivity).
    destruct (climb g T F p below b HE w1 (w2 ++ wa) next rs1 rsa m) as [q [wb [rsb [H4 H5]]]].
    + rewrite EF. exact HC1.
    + exact H1.
    + exact H2.
    + rewrite EF. exact HF.
    + destruct (IH _ _ _ _ H4) as [wc [nx [rsc HS]]].
      exists (wa ++ wb ++ wc), nx, rsc. rewrite <- !app_assoc in *. exact HS.
Qed.

Lemma merge_nonempty : forall w x l, merge_leaves w (x :: l) <> [].
Proof.
  intros w x l. unfold merge_leaves. destruct l as [|y r]; [discriminate |].
  destruct (sort w (x :: y :: r)) as [|z s] eqn:E; [| discriminate].
  exfalso. assert (I : In x (sort w (x :: y :: r))) by (apply sort_in; left; reflexivity).
  rewrite E in I. destruct I.
Qed.

Lemma execute_nonempty : forall s, s_leaves s <> [] -> s_leaves (execute s) <> [].
Proof.
  intros [ls done] H. unfold execute. cbn [s_leaves] in *.
  destruct ls as [|x [|y r]]; [exact H | discriminate | exact H].
Qed.

Lemma go_all_nonempty : forall g w fuel els i s s',
  s_leaves s <> [] -> go_all fuel g w i els s = Ok s' -> s_leaves s' <> [].
Proof.
  intros g w fuel. induction els as [|e r IH]; intros i s s' H E; cbn [go_all] in E.
  - injection E as <-. exact H.
  - apply bind_ok in E. destruct E as [s1 [E1 E]]. apply (IH (S i) s1 s'); [| exact E].
    unfold go_element in E1. apply bind_ok in E1. destruct E1 as [ls [EL E1]].
    destruct (concat ls) as [|x q]; [discriminate E1 |]. injection E1 as <-.
    apply execute_nonempty. exact (merge_nonempty w x q).
Qed.

Lemma go_all_viable : forall g w, tidy g -> no_dead_ends g -> forall fuel els s,
  go_all fuel g w 0 els start = Ok s ->
  exists wd ch, reads (w_invisible w) 0 els wd ch /\ sentence_start g wd.
Proof.
  intros g w T D fuel els s E.
  pose proof (go_all_ok g w T fuel els [] start s (start_ok g _) E) as H.
  assert (NE : s_leaves s <> []) by (apply (go_all_nonempty g w fuel els 0 start s); [discriminate | exact E]).
  destruct (s_leaves s) as [|l r] eqn:EL; [exfalso; exact (NE eq_refl) |].
  destruct (H l) as [wd [rs [ch [HR [HC _]]]]]; [rewrite EL; left; reflexivity |].
  exists wd, ch. split; [exact HR |]. exact (covers_viable g T D _ _ _ _ _ (HC 0)).
Qed.
