(** Concrete classes for the theorems on dispatch. *)
From Coq Require Import ZArith List Bool Lia Permutation.
From Verif Require Import VtblModel VtblSpec VtblProofs VtblIface.
Import ListNotations.
Local Open Scope nat_scope.

Definition fn (n : nat) : sig := Sig n 0 0 [].

(** Methods of assembly 1 by position, name and kind. *)
Definition virt (i : Z) (n : nat) : meth := Meth 1 i (fn n) true false false false false None.
Definition over (i : Z) (n : nat) : meth := Meth 1 i (fn n) false true false false false None.
Definition plain (i : Z) (n : nat) : meth := Meth 1 i (fn n) false false false false false None.
Definition explicit (i : Z) (n o : nat) : meth := Meth 1 i (fn n) false false false false false (Some o).

Definition table_of (t : ty) (a i : Z) : option meth :=
  find (fun m => Z.eqb (m_asm m) a && Z.eqb (m_idx m) i) (all_methods t).

Ltac each_in H := cbn in H; repeat (destruct H as [H|H]; [try subst|]); try contradiction.

Ltac no_clash := unfold clash; cbn; intuition discriminate.

(** A way to compute the overridden method of a concrete class. *)
Fixpoint params_eqb (a b : list (nat * nat)) : bool :=
  match a, b with
  | [], [] => true
  | (x, y) :: a', (x', y') :: b' => Nat.eqb x x' && Nat.eqb y y' && params_eqb a' b'
  | _, _ => false
  end.

Definition clashb (s s' : sig) : bool :=
  Nat.eqb (s_name s) (s_name s') && Nat.eqb (s_generics s) (s_generics s') &&
  params_eqb (s_params s) (s_params s').

Lemma clashb_spec : forall s s', clashb s s' = true <-> clash s s'.
Proof.
  assert (P : forall a b, params_eqb a b = true <-> a = b).
  { induction a as [|[x y] a IH]; intros [|[x' y'] b]; cbn [params_eqb]; split; intro H;
      try reflexivity; try discriminate H.
    - apply andb_true_iff in H. destruct H as [H H3]. apply andb_true_iff in H. destruct H as [H1 H2].
      apply Nat.eqb_eq in H1, H2. apply IH in H3. congruence.
    - injection H as -> -> ->. rewrite !Nat.eqb_refl. cbn [andb]. now apply IH. }
  intros s s'. unfold clashb, clash. rewrite !andb_true_iff, !Nat.eqb_eq, P. tauto.
Qed.

Definition plain_clash (s : sig) (m : meth) : bool :=
  match m_owner m with None => clashb (m_sig m) s | Some _ => false end.

Fixpoint nearestb (t : ty) (s : sig) : option (ty * meth) :=
  match t with
  | [] => None
  | c :: b => match find (plain_clash s) (c_methods c) with
              | Some m => Some (t, m)
              | None => nearestb b s
              end
  end.

Lemma nearestb_spec : forall t s host m, nearestb t s = Some (host, m) -> nearest t s host m.
Proof.
  induction t as [|c b IH]; intros s host m H; cbn [nearestb] in H; [discriminate|].
  destruct (find (plain_clash s) (c_methods c)) as [x|] eqn:F.
  - injection H as <- <-. apply find_some in F. destruct F as [F1 F2]. unfold plain_clash in F2.
    destruct (m_owner x) eqn:O; [discriminate|]. apply nearest_here; auto. now apply clashb_spec.
  - apply nearest_base; [|auto]. intros m' M' O' C. pose proof (find_none _ _ F m' M') as Q.
    unfold plain_clash in Q. rewrite O' in Q. apply clashb_spec in C. congruence.
Qed.

Ltac find_nearest := apply nearestb_spec; reflexivity.

(** The tables in these examples are already in a writer's order. *)
Lemma written_self : forall ms, call_types_sorted ms -> exists src, written src ms.
Proof. intros ms H. exists ms. split; [apply Permutation_refl|exact H]. Qed.

Ltac lay_out := repeat constructor; apply written_self; repeat split; repeat constructor.

(* ------------------------------------------------------------------ *)
(** * Three classes and one interface

    [[
    interface I { f }
    class A : I { virtual f; virtual g; p }
    class B : A { virtual h; override g }
    class C : B { override f; override h; q }
    ]] *)

Definition iI := Iface 7 [fn 1] [].
Definition clsA := Cls 1 [virt 0 1; virt 1 2; plain 2 9] [iI].
Definition clsB := Cls 2 [virt 3 3; over 4 2] [].
Definition clsC := Cls 3 [over 5 1; over 6 3; plain 7 8] [].
Definition typeC : ty := [clsC; clsB; clsA].

Ltac unique_methods := intros m m' M M' _ Q; each_in M; each_in M'; try reflexivity;
      exfalso; destruct Q as (Q & _); cbn in Q; discriminate Q.

Ltac rules := intros m M; each_in M; (split; [let O := fresh in intro O; cbn in O; try discriminate O; reflexivity|
  split; [intros _; split; reflexivity|]]);
  let O := fresh in intro O; cbn in O; try discriminate O;
  (do 2 eexists; split; [find_nearest|]; split; [first [now left|right; now left]|reflexivity]).

Ltac accept := repeat (split; [split; [rules|unique_methods]|]); exact I.

Lemma typeC_accepted : accepted typeC.
Proof. accept. Qed.

Lemma typeC_laid_out : laid_out typeC.
Proof. lay_out. Qed.

Lemma typeC_first : introducing_first typeC.
Proof.
  repeat constructor; cbn [c_methods]; intros l1 m l2 E M;
    repeat (destruct l1 as [|? l1]; cbn [app] in E; injection E as ? E; subst; [|]);
    try (destruct l1; discriminate E); repeat constructor;
    try (exfalso; destruct M as [M|[M _]]; discriminate M).
Qed.

Lemma typeC_no_new : no_reintroduction typeC.
Proof.
  repeat split; intros m m' M I M' I'; each_in M; each_in M';
    try (exfalso; destruct I as [I|[I _]]; discriminate I);
    try (exfalso; destruct I' as [I'|[I' _]]; discriminate I'); no_clash.
Qed.

Lemma typeC_explicit : explicit_apart typeC.
Proof. intros m M O. exfalso. apply O. each_in M; reflexivity. Qed.

Lemma typeC_loaded : loaded (table_of typeC) typeC.
Proof.
  split.
  - intros m M. each_in M; (split; [reflexivity|cbn; lia]).
  - unfold all_methods. cbn [map concat app typeC clsC clsB clsA c_methods].
    repeat (constructor; [cbn [In]; intuition discriminate|]). constructor.
Qed.

Lemma reaches_leaf : forall n ss i, reaches (Iface n ss []) i -> i = Iface n ss [].
Proof. intros n ss i H. apply reaches_inv in H. destruct H as [<-|(j & [] & _)]. reflexivity. Qed.

Lemma typeC_implements : forall i, implements typeC i <-> i = iI.
Proof.
  intro i. split.
  - intros (c & C & j & J & R). each_in C; each_in J. now apply reaches_leaf in R.
  - intros ->. exists clsA. split; [right; right; now left|]. exists iI. split; [now left|constructor].
Qed.

Lemma typeC_identities : identities typeC.
Proof. intros i j H H' _. apply typeC_implements in H, H'. congruence. Qed.

Lemma typeC_table : itable_of typeC [(7, [(1, 5)%Z])].
Proof. eexists. split; [reflexivity|]. apply Permutation_refl. Qed.

(* ------------------------------------------------------------------ *)
(** * The witnesses against the full claims *)

(** [class A { virtual f }  class B : A { override f; virtual g }
     class C : B { virtual h }]: the source order is an order the writer can
    produce. *)
Definition wA := Cls 1 [virt 0 1] [].
Definition wB := Cls 2 [over 1 1; virt 2 2] [].
Definition wC := Cls 3 [virt 3 3] [].
Definition typeW : ty := [wC; wB; wA].

Lemma typeW_accepted : accepted typeW.
Proof. accept. Qed.

Lemma typeW_laid_out : laid_out typeW.
Proof. lay_out. Qed.

Lemma typeW_no_new : no_reintroduction typeW.
Proof.
  repeat split; intros m m' M I M' I'; each_in M; each_in M';
    try (exfalso; destruct I as [I|[I _]]; discriminate I);
    try (exfalso; destruct I' as [I'|[I' _]]; discriminate I'); no_clash.
Qed.

Lemma typeW_explicit : explicit_apart typeW.
Proof. intros m M O. exfalso. apply O. each_in M; reflexivity. Qed.

Ltac load_all t := split;
  [ intros m M; each_in M; (split; [reflexivity|cbn; lia])
  | cbn; repeat (constructor; [cbn [In]; intuition discriminate|]); constructor ].

Lemma typeW_loaded : loaded (table_of typeW) typeW.
Proof. load_all typeW. Qed.

(** [class A { virtual f }  class B : A { new virtual f }
     class C : B { override f }] *)
Definition nA := Cls 1 [virt 0 1] [].
Definition nB := Cls 2 [virt 1 1] [].
Definition nC := Cls 3 [over 2 1] [].
Definition typeN : ty := [nC; nB; nA].

Lemma typeN_accepted : accepted typeN.
Proof. accept. Qed.

Lemma typeN_laid_out : laid_out typeN.
Proof. lay_out. Qed.

Lemma typeN_loaded : loaded (table_of typeN) typeN.
Proof. load_all typeN. Qed.

Lemma typeN_first : introducing_first typeN.
Proof.
  repeat constructor; cbn [c_methods]; intros l1 m l2 E M;
    repeat (destruct l1 as [|? l1]; cbn [app] in E; injection E as ? E; subst; [|]);
    try (destruct l1; discriminate E); repeat constructor.
Qed.

(** [interface I { f }  class A { virtual f }  class B : A, I { I.f }
     class C : B { override f }] *)
Definition eA := Cls 1 [virt 0 1] [].
Definition eB := Cls 2 [explicit 1 1 7] [iI].
Definition eC := Cls 3 [over 2 1] [].
Definition typeE : ty := [eC; eB; eA].

Lemma typeE_accepted : accepted typeE.
Proof. accept. Qed.

Lemma typeE_laid_out : laid_out typeE.
Proof. lay_out. Qed.

Lemma typeE_loaded : loaded (table_of typeE) typeE.
Proof. load_all typeE. Qed.

(** [interface I { f }  class A : I { virtual f }  class B : A { override f }
     class C : B { }] *)
Definition oA := Cls 1 [virt 0 1] [iI].
Definition oB := Cls 2 [over 1 1] [].
Definition oC := Cls 3 [plain 2 5] [].
Definition typeO : ty := [oC; oB; oA].

Lemma typeO_accepted : accepted typeO.
Proof. accept. Qed.

Lemma typeO_laid_out : laid_out typeO.
Proof. lay_out. Qed.

Lemma typeO_loaded : loaded (table_of typeO) typeO.
Proof. load_all typeO. Qed.

(** [interface I { f }  class A { virtual f }  class B : A, I { override f }
     class C : B { override f }] *)
Definition vA := Cls 1 [virt 0 1] [].
Definition vB := Cls 2 [over 1 1] [iI].
Definition vC := Cls 3 [over 2 1] [].
Definition typeV : ty := [vC; vB; vA].

Lemma typeV_accepted : accepted typeV.
Proof. accept. Qed.

Lemma typeV_laid_out : laid_out typeV.
Proof. lay_out. Qed.

Lemma typeV_loaded : loaded (table_of typeV) typeV.
Proof. load_all typeV. Qed.

(** A class that lists no interface. *)
Definition typeP : ty := [Cls 1 [plain 0 1] []].
