(** Solutions for the examples. *)

From Coq Require Import List Bool Arith Lia Relations.Relation_Operators.
From Verif Require Import BuildModel BuildSpec.
Import ListNotations.

Definition proj (n : name) (es : list event) : project := {| pname := n; events := es |}.

(* 1 imports 2 and 3, 2 imports 3, 3 imports the reference 9 and 8 of package 7 *)
Definition layered : solution :=
  {| projects := [proj 1 [Import None 2; Import None 3]; proj 2 [Import None 3];
                  proj 3 [Import None 9; Import (Some 7) 8]];
     refs := [(None, 9); (Some 7, 8)]; parse_errors := 0 |}.

(* 1 -> 2 -> 3 -> 2 *)
Definition ring : solution :=
  {| projects := [proj 1 [Import None 2]; proj 2 [Import None 3]; proj 3 [Import None 2]];
     refs := []; parse_errors := 0 |}.

(* 1 imports 2, and has an error *)
Definition failing : solution :=
  {| projects := [proj 1 [Import None 2; Fault]; proj 2 []]; refs := []; parse_errors := 0 |}.

Lemma distinct3 : forall S0, map pname (projects S0) = [1; 2; 3] -> distinct S0.
Proof. intros S0 E. unfold distinct. rewrite E. repeat constructor; cbn; intuition discriminate. Qed.

Lemma layered_less : forall a b, imports layered a b -> a < b.
Proof.
  intros a b ((p & I & <- & J) & _).
  cbn in I. destruct I as [<-|[<-|[<-|[]]]]; cbn in J; intuition (try discriminate);
    match goal with H : Import None _ = Import None _ |- _ => injection H as <- end; cbn; lia.
Qed.

Lemma layered_imports : imports layered 1 2.
Proof.
  split.
  - exists (proj 1 [Import None 2; Import None 3]). cbn. auto.
  - exists (proj 2 [Import None 3]). cbn. auto.
Qed.

Lemma layered_clean : clean layered.
Proof.
  constructor; auto.
  - intros a (p & I & _ & J). cbn in I. destruct I as [<-|[<-|[<-|[]]]]; cbn in J; intuition discriminate.
  - intros a q k (p & I & _ & J). cbn in I. destruct I as [<-|[<-|[<-|[]]]]; cbn in J; intuition;
      match goal with H : Import _ _ = Import _ _ |- _ => injection H as <- <- end.
    + left. split; [reflexivity|]. exists (proj 2 [Import None 3]). cbn. auto.
    + left. split; [reflexivity|]. eexists. cbn. split; [right; right; left; reflexivity | reflexivity].
    + left. split; [reflexivity|]. eexists. cbn. split; [right; right; left; reflexivity | reflexivity].
    + right. cbn. auto.
    + right. cbn. auto.
  - intros a T. assert (L : forall x y, clos_trans _ (imports layered) x y -> x < y).
    { intros x y U. induction U; [apply layered_less; auto | lia]. }
    specialize (L a a T). lia.
Qed.

Lemma ring_imports : imports ring 2 3 /\ imports ring 3 2.
Proof.
  split; split.
  - eexists. split; [right; left; reflexivity|]. cbn. auto.
  - eexists. split; [right; right; left; reflexivity|]. reflexivity.
  - eexists. split; [right; right; left; reflexivity|]. cbn. auto.
  - eexists. split; [right; left; reflexivity|]. reflexivity.
Qed.
