(* Simple paths are resolved. *)
From Coq Require Import ZArith List Bool Lia.
From Verif Require Import PathModel PathSpec.
Import ListNotations.
Local Open Scope Z_scope.

Definition len (s : list Z) : Z := Z.of_nat (length s).
Definition pos (l : list section) : Z := len (path_of l).

Lemma path_app a b : path_of (a ++ b) = path_of a ++ path_of b.
Proof. apply flat_map_app. Qed.

Lemma path_one x : path_of [x] = 47 :: text x.
Proof. cbn. now rewrite app_nil_r. Qed.

Lemma len_app a b : len (a ++ b) = len a + len b.
Proof. unfold len. rewrite app_length. lia. Qed.

Lemma len_cons c b : len (c :: b) = 1 + len b.
Proof. unfold len. cbn [length]. lia. Qed.

Lemma len_nonneg s : 0 <= len s.
Proof. unfold len. lia. Qed.

Lemma pos_snoc l x : pos (l ++ [x]) = pos l + 1 + len (text x).
Proof. unfold pos. rewrite path_app, path_one, len_app, len_cons. lia. Qed.

Lemma pos_nonneg l : 0 <= pos l.
Proof. apply len_nonneg. Qed.

Lemma get_at a c b p : p = len a -> get (a ++ c :: b) p = Done c.
Proof.
  intros ->. unfold get, len. rewrite app_length. cbn [length].
  destruct (Z.ltb_spec (Z.of_nat (length a)) 0); [lia|].
  destruct (Z.ltb_spec (Z.of_nat (length a + S (length b))) (Z.of_nat (length a))); [lia|].
  cbn [orb]. rewrite Nat2Z.id, app_nth2, Nat.sub_diag by lia. reflexivity.
Qed.

Lemma get_end a : get a (len a) = Done 0.
Proof.
  unfold get, len. destruct (Z.ltb_spec (Z.of_nat (length a)) 0); [lia|].
  rewrite Z.ltb_irrefl. cbn [orb]. now rewrite Nat2Z.id, nth_overflow by lia.
Qed.

(* Some character of a section *)
Lemma split_at (t : list Z) k : 0 <= k < len t -> exists u c v, t = u ++ c :: v /\ len u = k /\ In c t.
Proof.
  intros K. destruct (nth_error t (Z.to_nat k)) as [c|] eqn:E.
  - destruct (nth_error_split _ _ E) as (u & v & -> & L). exists u, c, v.
    split; [reflexivity|]. split; [unfold len; lia|]. apply in_elt.
  - apply nth_error_None in E. unfold len in K. lia.
Qed.

Definition clean (t : list Z) : Prop := t <> [] /\ ~ In 47 t.

Lemma text_clean x : good_section x -> clean (text x).
Proof.
  destruct x as [| |s]; cbn; intros G; split; try discriminate; try (cbn; lia); apply G.
Qed.

Lemma in_section_at A t R k : clean t -> 0 <= k < len t ->
  exists c, get (A ++ (47 :: t) ++ R) (len A + 1 + k) = Done c /\ c <> 47.
Proof.
  intros [_ N] K. destruct (split_at t k K) as (u & c & v & -> & L & I).
  exists c. split; [|intros ->; contradiction].
  replace (A ++ (47 :: u ++ c :: v) ++ R) with ((A ++ 47 :: u) ++ c :: v ++ R)
    by (cbn [app]; rewrite <- !app_assoc; reflexivity).
  apply get_at. rewrite len_app, len_cons. lia.
Qed.

Lemma in_section l t R k : clean t -> 0 <= k < len t ->
  exists c, get (path_of l ++ (47 :: t) ++ R) (pos l + 1 + k) = Done c /\ c <> 47.
Proof. exact (in_section_at (path_of l) t R k). Qed.

(* ---- __pre_with ---- *)

Lemma starts_eq a b : forall prefix t p, p = len a -> length prefix = length t ->
  starts_with (a ++ t ++ b) p prefix = Done (if list_eq_dec Z.eq_dec t prefix then true else false).
Proof.
  intros prefix. revert a. induction prefix as [|c q IH]; intros a t p P L.
  - destruct t; [reflexivity|discriminate L].
  - destruct t as [|d t]; [discriminate L|]. cbn [starts_with app].
    rewrite get_at by exact P. cbn [bind]. destruct (Z.eqb_spec d c) as [->|N].
    + replace (a ++ c :: t ++ b) with ((a ++ [c]) ++ t ++ b) by (rewrite <- app_assoc; reflexivity).
      rewrite (IH (a ++ [c]) t); [|rewrite len_app; subst p; unfold len at 3; cbn; lia|now injection L].
      f_equal. destruct (list_eq_dec Z.eq_dec t q) as [->|N];
        destruct (list_eq_dec Z.eq_dec (c :: _) (c :: q)); congruence.
    + destruct (list_eq_dec Z.eq_dec (d :: t) (c :: q)); [congruence|reflexivity].
Qed.

Lemma pre_with_section_at A t R prefix : clean t -> (prefix = [dot] \/ prefix = [dot; dot]) ->
  pre_with (A ++ (47 :: t) ++ R) (len A + len t) prefix =
  Done (if list_eq_dec Z.eq_dec t prefix then true else false).
Proof.
  intros C PR. pose proof C as [NE NS].
  assert (LT : 1 <= len t) by (destruct t; [contradiction|rewrite len_cons; pose proof (len_nonneg t); lia]).
  assert (LP : 1 <= len prefix <= 2) by (destruct PR as [->| ->]; unfold len; cbn; lia).
  unfold pre_with. fold (len prefix). pose proof (len_nonneg A) as PN.
  destruct (Z.ltb_spec (len A + len t + 1) (len prefix)); [lia|].
  set (b := len A + len t - len prefix + 1).
  destruct (Z.lt_trichotomy (len t) (len prefix)) as [Q|[Q|Q]].
  - (* shorter: the slash before the section is compared *)
    assert (B : b = len A) by (unfold b; lia).
    destruct (list_eq_dec Z.eq_dec t prefix) as [->|N']; [lia|].
    assert (F : starts_with (A ++ (47 :: t) ++ R) b prefix = Done false).
    { destruct PR as [->| ->]; cbn [starts_with]; rewrite B; cbn [app];
        rewrite get_at by reflexivity; reflexivity. }
    rewrite F. destruct (b <=? 0) eqn:EB; [reflexivity|].
    apply Z.leb_gt in EB. rewrite B in EB |- *.
    destruct (split_at (A) (len A - 1)) as (u & c & v & E & L & _); [lia|].
    rewrite <- L. rewrite E. rewrite <- app_assoc. cbn [app]. rewrite get_at by reflexivity. cbn [bind].
    now destruct (c =? slash).
  - assert (B : b = len A + 1) by (unfold b; lia).
    destruct (Z.leb_spec b 0); [lia|].
    replace (b - 1) with (len A) by lia. cbn [app]. rewrite get_at by reflexivity. cbn [bind].
    change (47 =? slash) with true. cbv iota. rewrite B.
    replace (A ++ 47 :: t ++ R) with ((A ++ [47]) ++ t ++ R)
      by (rewrite <- app_assoc; reflexivity).
    apply starts_eq; [rewrite len_app; unfold len; cbn; lia|].
    unfold len in Q. lia.
  - destruct (list_eq_dec Z.eq_dec t prefix) as [->|N']; [lia|].
    destruct (Z.leb_spec b 0); [unfold b in *; lia|].
    destruct (in_section_at A t R (len t - len prefix - 1) C) as (c & G & NC); [lia|].
    replace (b - 1) with (len A + 1 + (len t - len prefix - 1)) by (unfold b; lia).
    rewrite G. cbn [bind]. destruct (Z.eqb_spec c slash); [contradiction|reflexivity].
Qed.

Lemma pre_with_section l t R prefix : clean t -> (prefix = [dot] \/ prefix = [dot; dot]) ->
  pre_with (path_of l ++ (47 :: t) ++ R) (pos l + len t) prefix =
  Done (if list_eq_dec Z.eq_dec t prefix then true else false).
Proof. exact (pre_with_section_at (path_of l) t R prefix). Qed.

(* ---- walking through a section ---- *)

Lemma to_slash_section l t R : clean t -> forall (k : nat) f, (Z.of_nat k <= len t)%Z -> (k < f)%nat ->
  to_slash f (path_of l ++ (47 :: t) ++ R) (pos l + Z.of_nat k) = Done (pos l).
Proof.
  intros C. induction k as [|k IH]; intros f L F; (destruct f as [|f]; [lia|]); cbn [to_slash].
  - rewrite Z.add_0_r. destruct (Z.ltb_spec (pos l) 0); [pose proof (pos_nonneg l); lia|].
    cbn [app]. rewrite get_at by reflexivity. reflexivity.
  - destruct (Z.ltb_spec (pos l + Z.of_nat (S k)) 0); [pose proof (pos_nonneg l); lia|].
    destruct (in_section l t R (Z.of_nat k) C) as (c & G & NC); [lia|].
    replace (pos l + Z.of_nat (S k)) with (pos l + 1 + Z.of_nat k) by lia.
    rewrite G. cbn [bind]. destruct (Z.eqb_spec c slash); [contradiction|].
    replace (pos l + 1 + Z.of_nat k - 1) with (pos l + Z.of_nat k) by lia. apply IH; lia.
Qed.

Lemma copy_section_at A R : forall t2 t1 f out, clean (t1 ++ t2) -> forall u, t1 = rev u ->
  copy (length t1 + f) (A ++ (47 :: t1 ++ t2) ++ R) (len A + len t1) out =
  copy f (A ++ (47 :: t1 ++ t2) ++ R) (len A) (t1 ++ out).
Proof.
  intros t2 t1 f out C u. revert t1 t2 out C. induction u as [|c u IH]; intros t1 t2 out C E.
  - subst t1. cbn [rev length Nat.add app]. now rewrite Z.add_0_r.
  - cbn [rev] in E. subst t1. rewrite app_length. cbn [length].
    replace (length (rev u) + 1 + f)%nat with (S (length (rev u) + f)) by lia.
    cbn [copy]. rewrite len_app. change (len [c]) with 1.
    pose proof (len_nonneg A). pose proof (len_nonneg (rev u)).
    destruct (Z.ltb_spec (len A + (len (rev u) + 1)) 0); [lia|].
    assert (G : get (A ++ (47 :: (rev u ++ [c]) ++ t2) ++ R) (len A + (len (rev u) + 1)) = Done c).
    { replace (A ++ (47 :: (rev u ++ [c]) ++ t2) ++ R)
        with ((A ++ 47 :: rev u) ++ c :: t2 ++ R)
        by (cbn [app]; rewrite <- ?app_assoc; cbn [app]; rewrite <- ?app_assoc; reflexivity).
      apply get_at. rewrite len_app, len_cons. lia. }
    rewrite G. cbn [bind]. destruct (Z.eqb_spec c slash) as [->|NC].
    + exfalso. apply (proj2 C). rewrite <- app_assoc. apply in_or_app. right. now left.
    + rewrite <- (app_assoc (rev u) [c] t2). cbn [app].
      replace (len A + (len (rev u) + 1) - 1) with (len A + len (rev u)) by lia.
      rewrite (IH (rev u) (c :: t2)); [|now rewrite <- app_assoc in C|reflexivity].
      rewrite <- (app_assoc (rev u) [c] out). reflexivity.
Qed.

Lemma copy_section l R : forall t2 t1 f out, clean (t1 ++ t2) -> forall u, t1 = rev u ->
  copy (length t1 + f) (path_of l ++ (47 :: t1 ++ t2) ++ R) (pos l + len t1) out =
  copy f (path_of l ++ (47 :: t1 ++ t2) ++ R) (pos l) (t1 ++ out).
Proof. exact (copy_section_at (path_of l) R). Qed.

(* ---- __jmp_relative ---- *)

Lemma jmp_nil f s : jmp_relative (S f) s 0 = Done (false, 0).
Proof. reflexivity. Qed.

Lemma jmp_name_at f A t R : good_name t ->
  jmp_relative (S f) (A ++ (47 :: t) ++ R) (len A + 1 + len t) = Done (false, len A + 1 + len t).
Proof.
  intros G. assert (C : clean t) by (split; apply G). destruct G as (_ & _ & _ & N1 & N2).
  cbn [jmp_relative]. replace (len A + 1 + len t - 1) with (len A + len t) by lia.
  rewrite pre_with_section_at by (auto; now left).
  destruct (list_eq_dec Z.eq_dec t [dot]) as [E|_]; [contradiction|]. cbn [bind].
  rewrite pre_with_section_at by (auto; now right).
  destruct (list_eq_dec Z.eq_dec t [dot; dot]) as [E|_]; [contradiction|]. reflexivity.
Qed.

Lemma jmp_name f l t R : good_name t ->
  jmp_relative (S f) (path_of l ++ (47 :: t) ++ R) (pos l + 1 + len t) = Done (false, pos l + 1 + len t).
Proof. exact (jmp_name_at f (path_of l) t R). Qed.

Lemma jmp_here f l R :
  jmp_relative (S f) (path_of (l ++ [Here]) ++ R) (pos (l ++ [Here])) =
  bind (jmp_relative f (path_of (l ++ [Here]) ++ R) (pos l)) (fun r => Done (true, snd r)).
Proof.
  rewrite path_app, path_one, <- app_assoc, pos_snoc. cbn [jmp_relative].
  change (text Here) with [46]. change (len [46]) with 1.
  replace (pos l + 1 + 1 - 1) with (pos l + len [46]) by (unfold len; cbn; lia).
  rewrite pre_with_section by (try (split; [discriminate|cbn; lia]); now left).
  cbn [bind]. replace (if list_eq_dec Z.eq_dec [46] [dot] then true else false) with true by reflexivity.
  cbv iota zeta. replace (pos l + 1 + 1 - 2) with (pos l) by lia.
  pose proof (pos_nonneg l). destruct (Z.ltb_spec (pos l) 0); [lia|].
  cbn [app]. rewrite get_at by reflexivity. reflexivity.
Qed.

Lemma jmp_up f l R :
  jmp_relative (S f) (path_of (l ++ [Up]) ++ R) (pos (l ++ [Up])) =
  bind (jmp_relative f (path_of (l ++ [Up]) ++ R) (pos l)) (fun r =>
  bind (to_slash (S (length (path_of (l ++ [Up]) ++ R))) (path_of (l ++ [Up]) ++ R) (snd r - 1))
       (fun q => Done (true, q))).
Proof.
  rewrite path_app, path_one, <- app_assoc, pos_snoc. cbn [jmp_relative].
  change (text Up) with [46; 46]. change (len [46; 46]) with 2.
  replace (pos l + 1 + 2 - 1) with (pos l + len [46; 46]) by (unfold len; cbn; lia).
  assert (C : clean [46; 46]) by (split; [discriminate|cbn; lia]).
  rewrite pre_with_section by (auto; now left).
  cbn [bind]. replace (if list_eq_dec Z.eq_dec [46; 46] [dot] then true else false) with false by reflexivity.
  cbv iota. rewrite pre_with_section by (auto; now right).
  cbn [bind]. replace (if list_eq_dec Z.eq_dec [46; 46] [dot; dot] then true else false) with true by reflexivity.
  cbv iota zeta. replace (pos l + 1 + 2 - 3) with (pos l) by lia.
  pose proof (pos_nonneg l). destruct (Z.ltb_spec (pos l) 0); [lia|].
  cbn [app]. rewrite get_at by reflexivity. reflexivity.
Qed.

Definition ends_in_name (l : list section) : Prop := exists l0 s, l = l0 ++ [Name s] /\ good_name s.

Lemma jmp_still f l R : ends_in_name l ->
  jmp_relative (S f) (path_of l ++ R) (pos l) = Done (false, pos l).
Proof.
  intros (l0 & s & -> & G). rewrite path_app, path_one, <- app_assoc, pos_snoc. now apply jmp_name.
Qed.

Lemma ups_app a b : ups (a ++ b) = (ups a + ups b)%nat.
Proof. unfold ups. now rewrite filter_app, app_length. Qed.

Lemma jmp_run : forall d l (ns : list (list Z)) R f, Forall is_dots d -> length ns = ups d ->
  Forall good_name ns -> (ns <> [] \/ ends_in_name l) -> (length d < f)%nat ->
  exists b, jmp_relative f (path_of (l ++ map Name ns ++ d) ++ R) (pos (l ++ map Name ns ++ d)) =
    Done (b, pos l) /\ (d <> [] -> b = true).
Proof.
  induction d as [|x d IH] using rev_ind; intros l ns R f D U G E F.
  - destruct ns; [|discriminate U]. destruct E as [E|E]; [contradiction|].
    destruct f as [|f]; [cbn in F; lia|]. cbn [map app]. rewrite app_nil_r.
    exists false. split; [now apply jmp_still|contradiction].
  - apply Forall_app in D. destruct D as [D DX]. apply Forall_inv in DX.
    rewrite app_length in F. cbn [length] in F. destruct f as [|f]; [lia|].
    exists true. split; [|auto]. rewrite ups_app in U.
    destruct x as [| |s]; [| |destruct DX].
    + cbn in U. rewrite Nat.add_0_r in U.
      replace (l ++ map Name ns ++ d ++ [Here]) with ((l ++ map Name ns ++ d) ++ [Here])
        by (now rewrite <- !app_assoc).
      rewrite jmp_here, path_app, <- app_assoc.
      destruct (IH l ns (path_of [Here] ++ R) f D U G E) as (b & -> & _); [lia|]. reflexivity.
    + change (ups [Up]) with 1%nat in U. destruct ns as [|n0 ns]; [cbn in U; lia|].
      cbn [length] in U. assert (U' : length ns = ups d) by lia.
      inversion G as [|? ? G0 G']; subst.
      replace (l ++ map Name (n0 :: ns) ++ d ++ [Up])
        with ((l ++ map Name (n0 :: ns) ++ d) ++ [Up]) by (now rewrite <- !app_assoc).
      rewrite jmp_up.
      set (s := path_of ((l ++ map Name (n0 :: ns) ++ d) ++ [Up]) ++ R).
      assert (ES : s = path_of ((l ++ [Name n0]) ++ map Name ns ++ d) ++ path_of [Up] ++ R).
      { unfold s. rewrite path_app, <- !app_assoc. reflexivity. }
      assert (EP : pos (l ++ map Name (n0 :: ns) ++ d) = pos ((l ++ [Name n0]) ++ map Name ns ++ d)).
      { now rewrite <- app_assoc. }
      rewrite EP. destruct (IH (l ++ [Name n0]) ns (path_of [Up] ++ R) f D U' G') as (b & J & _).
      { right. exists l, n0. auto. } { lia. }
      rewrite <- ES in J. rewrite J. cbn [bind snd].
      assert (C : clean n0) by (split; apply G0).
      rewrite pos_snoc. change (text (Name n0)) with n0.
      replace (pos l + 1 + len n0 - 1) with (pos l + Z.of_nat (length n0)) by (unfold len; lia).
      assert (ES2 : s = path_of l ++ (47 :: n0) ++ path_of (map Name ns ++ d) ++ path_of [Up] ++ R).
      { rewrite ES. rewrite (path_app (l ++ [Name n0])), (path_app l [Name n0]), path_one.
        change (text (Name n0)) with n0. now rewrite <- !app_assoc. }
      rewrite ES2 at 2. rewrite to_slash_section; [reflexivity|exact C|unfold len; lia|].
      rewrite ES2, !app_length. cbn [length]. lia.
Qed.

(* ---- simple paths ---- *)

Lemma walk_run (ns : list (list Z)) : forall here, 
  fold_left walk (map Name ns) here = rev ns ++ here.
Proof.
  induction ns as [|n ns IH]; intros here; [reflexivity|].
  cbn [map fold_left walk rev]. rewrite IH, <- app_assoc. reflexivity.
Qed.

Lemma walk_dots d : Forall is_dots d -> forall up here, length up = ups d ->
  fold_left walk d (up ++ here) = here.
Proof.
  induction d as [|x d IH]; intros D up here U.
  - destruct up; [reflexivity|discriminate U].
  - inversion D as [|? ? DX D']; subst. destruct x as [| |s]; [| |destruct DX].
    + apply IH; [exact D'|exact U].
    + change (ups (Up :: d)) with (S (ups d)) in U. destruct up as [|u up]; [discriminate U|].
      cbn [fold_left walk tl app]. apply IH; [exact D'|now injection U].
Qed.

Lemma snoc_inj {B} (a b : list B) x y : a ++ [x] = b ++ [y] -> a = b /\ x = y.
Proof. apply app_inj_tail. Qed.

Lemma simple_name_inv l s : simple (l ++ [Name s]) -> simple l.
Proof.
  intros H. remember (l ++ [Name s]) as m eqn:E. destruct H as [|l' s' H|l' H|l' ns d H N D U].
  - destruct l; discriminate E.
  - apply snoc_inj in E. destruct E as [-> _]. exact H.
  - apply snoc_inj in E. destruct E as [_ E]. discriminate E.
  - exfalso. destruct d as [|x d] using rev_ind.
    + destruct ns; [contradiction|discriminate U].
    + rewrite !app_assoc in E. apply snoc_inj in E. destruct E as [_ ->].
      apply Forall_app in D. destruct D as [_ D]. inversion D as [|? ? D0 _]. exact D0.
Qed.

Lemma jmp_simple l : simple l -> Forall good_section l ->
  exists b l' l2, l = l' ++ l2 /\
    (forall R f, (length l < f)%nat ->
       jmp_relative f (path_of l ++ R) (pos l) = Done (b, pos l')) /\
    simple l' /\ fold_left walk l' [] = fold_left walk l [] /\
    (b = true -> (length l' < length l)%nat) /\
    (b = false -> l2 = [] /\ (l = [] \/ ends_in_name l)).
Proof.
  induction 1 as [|l s H IH|l H IH|l ns d H IH N D U]; intros G.
  - exists false, [], []. split; [reflexivity|]. split.
    { intros R [|f] F; [cbn in F; lia|]. reflexivity. }
    split; [constructor|]. split; [reflexivity|]. split; [discriminate|]. auto.
  - assert (E : ends_in_name (l ++ [Name s])).
    { apply Forall_app in G. destruct G as [_ G]. inversion G as [|? ? G0 _]. exists l, s. auto. }
    exists false, (l ++ [Name s]), []. split; [now rewrite app_nil_r|]. split.
    { intros R [|f] F; [rewrite app_length in F; cbn in F; lia|]. now apply jmp_still. }
    split; [now constructor|]. split; [reflexivity|]. split; [discriminate|]. auto.
  - apply Forall_app in G. destruct G as [G _].
    destruct (IH G) as (b & l' & l2 & E & J & S' & W & B1 & B2).
    exists true, l', (l2 ++ [Here]). split; [rewrite E; now rewrite app_assoc|]. split.
    { intros R [|f] F; rewrite app_length in F; cbn [length] in F; [lia|].
      rewrite jmp_here, path_app, <- app_assoc, J by lia. reflexivity. }
    split; [exact S'|]. split; [rewrite fold_left_app; exact W|]. split; [|discriminate].
    intros _. rewrite E, !app_length. cbn [length]. lia.
  - apply Forall_app in G. destruct G as [_ G]. apply Forall_app in G. destruct G as [G _].
    assert (GN : Forall good_name ns) by (rewrite Forall_map in G; exact G).
    assert (DN : d <> []) by (intros ->; destruct ns; [contradiction|discriminate U]).
    exists true, l, (map Name ns ++ d). split; [reflexivity|]. split.
    { intros R f F. rewrite !app_length in F.
      destruct (jmp_run d l ns R f D U GN (or_introl N)) as (b & J & BT); [lia|].
      now rewrite J, (BT DN). }
    split; [exact H|]. split.
    { rewrite !fold_left_app, walk_run. symmetry. apply walk_dots; [exact D|now rewrite rev_length]. }
    split; [|discriminate]. intros _. rewrite !app_length, map_length. destruct ns; [contradiction|cbn; lia].
Qed.

Lemma length_path l : (length l <= length (path_of l))%nat.
Proof.
  induction l as [|x m IHm]; [apply le_n|]. change (path_of (x :: m)) with ((47 :: text x) ++ path_of m).
  rewrite app_length. cbn [length]. lia.
Qed.

Lemma jmp_all_simple : forall n l R f, (length l <= n)%nat -> simple l -> Forall good_section l ->
  (length l < f)%nat ->
  exists l' l2, l = l' ++ l2 /\
    jmp_all f (path_of l ++ 47 :: R) (pos l) = Done (pos l') /\
    simple l' /\ fold_left walk l' [] = fold_left walk l [] /\
    (l' = [] \/ ends_in_name l').
Proof.
  induction n as [|n IH]; intros l R f L H G F; pose proof (length_path l) as LP;
    (destruct f as [|f]; [lia|]); cbn [jmp_all];
    destruct (jmp_simple l H G) as (b & l1 & l3 & E & J & S1 & W & B1 & B2);
    rewrite J by (rewrite app_length; lia); cbn [bind fst snd]; destruct b.
  - specialize (B1 eq_refl). lia.
  - destruct (B2 eq_refl) as [-> K]. rewrite app_nil_r in E. subst l1.
    exists l, []. rewrite app_nil_r. auto.
  - specialize (B1 eq_refl). pose proof (pos_nonneg l1).
    destruct (Z.ltb_spec (pos l1) 0); [lia|].
    assert (NX : exists R', path_of l ++ 47 :: R = path_of l1 ++ 47 :: R').
    { rewrite E, path_app, <- app_assoc. destruct l3 as [|x l3].
      - cbn [path_of flat_map app]. eauto.
      - cbn [path_of flat_map app]. eauto. }
    destruct NX as [R' NX]. rewrite NX. rewrite get_at by reflexivity. cbn [bind].
    change (47 =? slash) with true. cbv iota.
    assert (G1 : Forall good_section l1) by (rewrite E in G; now apply Forall_app in G).
    destruct (IH l1 R' f) as (l' & l4 & E' & J' & S' & W' & K); try assumption; try lia.
    exists l', (l4 ++ l3). split; [rewrite E, E'; now rewrite app_assoc|].
    rewrite J'. split; [reflexivity|]. split; [exact S'|]. split; [congruence|exact K].
  - destruct (B2 eq_refl) as [-> K]. rewrite app_nil_r in E. subst l1.
    exists l, []. rewrite app_nil_r. auto.
Qed.

Lemma resolve_name l s : resolve (l ++ [Name s]) = resolve l ++ [Name s].
Proof.
  unfold resolve. rewrite fold_left_app. cbn [fold_left walk rev]. now rewrite map_app.
Qed.

Lemma copy_simple : forall n l R f out, (length l <= n)%nat -> simple l -> Forall good_section l ->
  (length (path_of l) < f)%nat ->
  copy f (path_of l ++ 47 :: R) (pos l) out = Done (path_of (resolve l) ++ 47 :: out).
Proof.
  induction n as [|n IH]; intros l R f out L H G F;
    (destruct f as [|f]; [lia|]); cbn [copy]; pose proof (pos_nonneg l) as PN;
    (destruct (Z.ltb_spec (pos l) 0); [lia|]); rewrite get_at by reflexivity; cbn [bind];
    change (47 =? slash) with true; cbv iota;
    pose proof (length_path l) as LP;
    destruct (jmp_all_simple (length l) l R (S (length (path_of l ++ 47 :: R))) (le_n _) H G)
      as (l' & l2 & E & J & S' & W & K);
    try (rewrite app_length; lia); rewrite J; cbn [bind];
    pose proof (pos_nonneg l') as PN'; (destruct (Z.ltb_spec (pos l') 0); [lia|]).
  all: assert (NX : exists R', path_of l ++ 47 :: R = path_of l' ++ 47 :: R')
    by (rewrite E, path_app, <- app_assoc; destruct l2; cbn [path_of flat_map app]; eauto).
  all: destruct NX as [R' NX]; rewrite NX; rewrite get_at by reflexivity; cbn [bind].
  all: assert (RE : resolve l = resolve l') by (unfold resolve; congruence).
  all: destruct K as [->|(l0 & s & -> & GS)].
  - rewrite RE. cbn. destruct f; reflexivity.
  - exfalso. destruct l; [|cbn in L; lia]. destruct l0; discriminate E.
  - rewrite RE. cbn. destruct f; reflexivity.
  - rewrite RE, pos_snoc. change (text (Name s)) with s.
    assert (EP : path_of (l0 ++ [Name s]) ++ 47 :: R' = path_of l0 ++ (47 :: s ++ []) ++ 47 :: R').
    { rewrite path_app, path_one, <- app_assoc, app_nil_r. reflexivity. }
    rewrite EP. replace (pos l0 + 1 + len s - 1) with (pos l0 + len s) by lia.
    assert (LF : (length (path_of l0) + length s < f)%nat).
    { assert (length (path_of (l0 ++ [Name s])) <= length (path_of l))%nat as Q
        by (rewrite E, (path_app (l0 ++ [Name s])), app_length; lia).
      rewrite path_app, path_one, app_length in Q. cbn [length] in Q.
      change (text (Name s)) with s in Q. lia. }
    replace f with (length s + (f - length s))%nat by lia.
    rewrite (copy_section l0 (47 :: R') [] s _ _ ltac:(rewrite app_nil_r; split; apply GS) (rev s))
      by (now rewrite rev_involutive).
    rewrite app_nil_r. cbn [app].
    rewrite IH.
    + rewrite resolve_name, path_app, path_one, <- app_assoc. reflexivity.
    + rewrite E in L. rewrite !app_length in L. cbn [length] in L. lia.
    + eapply simple_name_inv, S'.
    + rewrite E in G. apply Forall_app in G. destruct G as [G _]. now apply Forall_app in G.
    + lia.
Qed.

Lemma resolved l s : simple l -> Forall good_section l -> good_name s ->
  make_absolute (path_of (l ++ [Name s])) = Done (path_of (resolve (l ++ [Name s]))).
Proof.
  intros H G GS. unfold make_absolute.
  assert (EN : ends_in_name (l ++ [Name s])) by (exists l, s; auto).
  pose proof (jmp_still (length (path_of (l ++ [Name s]))) (l ++ [Name s]) [] EN) as J.
  rewrite app_nil_r in J. fold (len (path_of (l ++ [Name s]))). fold (pos (l ++ [Name s])).
  rewrite J. cbn [bind snd].
  unfold pos at 1. rewrite get_end. cbn [bind]. change ((0 =? 0) || (0 =? slash)) with true.
  cbv zeta iota. rewrite pos_snoc. change (text (Name s)) with s.
  replace (pos l + 1 + len s - 1) with (pos l + len s) by lia.
  assert (EP : path_of (l ++ [Name s]) = path_of l ++ (47 :: s ++ []) ++ []).
  { rewrite path_app, path_one, !app_nil_r. reflexivity. }
  rewrite EP at 2.
  replace (S (length (path_of (l ++ [Name s]))))
    with (length s + (S (S (length (path_of l)))))%nat
    by (rewrite path_app, path_one, app_length; cbn [length]; change (text (Name s)) with s; lia).
  rewrite (copy_section l [] [] s _ _ ltac:(rewrite app_nil_r; split; apply GS) (rev s))
    by (now rewrite rev_involutive).
  rewrite !app_nil_r. rewrite (copy_simple (length l)); [|lia|exact H|exact G|lia].
  rewrite resolve_name, path_app, path_one. reflexivity.
Qed.

(* A relative path that begins with .. *)
Lemma begins_up s : good_name s -> make_absolute ([46; 46] ++ 47 :: s) = Refused.
Proof.
  intros G. assert (C : clean s) by (split; apply G). unfold make_absolute.
  fold (len ([46; 46] ++ 47 :: s)).
  assert (L : len ([46; 46] ++ 47 :: s) = len [46; 46] + 1 + len s)
    by (rewrite len_app, (len_cons 47 s); lia).
  pose proof (jmp_name_at (length ([46; 46] ++ 47 :: s)) [46; 46] s [] G) as J.
  rewrite app_nil_r in J. rewrite <- L in J. rewrite J. cbn [bind snd].
  rewrite get_end. cbn [bind]. change ((0 =? 0) || (0 =? slash)) with true. cbv zeta iota.
  rewrite L. replace (len [46; 46] + 1 + len s - 1) with (len [46; 46] + len s) by lia.
  assert (EP : [46; 46] ++ 47 :: s = [46; 46] ++ (47 :: s ++ []) ++ []) by (rewrite !app_nil_r; reflexivity).
  replace (S (length ([46; 46] ++ 47 :: s))) with (length s + 4)%nat
    by (rewrite app_length; cbn [length]; lia).
  rewrite EP. rewrite (copy_section_at [46; 46] [] [] s _ _ ltac:(rewrite app_nil_r; exact C) (rev s))
    by (now rewrite rev_involutive).
  rewrite !app_nil_r. clear.
  assert (G0 : get ([46; 46] ++ 47 :: s) 0 = Done 46) by (apply (get_at [] 46 (46 :: 47 :: s)); reflexivity).
  assert (G1 : get ([46; 46] ++ 47 :: s) 1 = Done 46) by (apply (get_at [46] 46 (47 :: s)); reflexivity).
  assert (G2 : get ([46; 46] ++ 47 :: s) 2 = Done 47) by (apply (get_at [46; 46] 47 s); reflexivity).
  set (q := [46; 46] ++ 47 :: s) in *. change (len [46; 46]) with 2.
  cbn [copy]. change (2 <? 0) with false. cbv iota. rewrite G2. cbn [bind].
  change (47 =? slash) with true. cbv iota. cbn [jmp_all jmp_relative].
  assert (W1 : pre_with q (2 - 1) [dot] = Done false).
  { unfold pre_with. change (2 - 1 + 1 <? Z.of_nat (length [dot])) with false.
    change (2 - 1 - Z.of_nat (length [dot]) + 1) with 1. cbv zeta iota. change (1 <=? 0) with false.
    change (1 - 1) with 0. cbv iota. rewrite G0. reflexivity. }
  assert (W2 : pre_with q (2 - 1) [dot; dot] = Done true).
  { unfold pre_with. change (2 - 1 + 1 <? Z.of_nat (length [dot; dot])) with false.
    change (2 - 1 - Z.of_nat (length [dot; dot]) + 1) with 0. cbv zeta iota. change (0 <=? 0) with true.
    cbv iota. cbn [starts_with]. rewrite G0. cbn [bind]. change (46 =? dot) with true. cbv iota.
    change (0 + 1) with 1. rewrite G1. reflexivity. }
  rewrite W1. cbn [bind]. rewrite W2. reflexivity.
Qed.
