(** What it means that a method body is read as it was compiled. *)
From Coq Require Import ZArith List Bool Sorting.Sorted Sorting.Permutation.
From Verif Require Import BodyModel.
Import ListNotations.
Open Scope Z_scope.

Definition unsigned (bits v : Z) : Prop := 0 <= v < 2 ^ bits.
Definition signed (bits v : Z) : Prop := - 2 ^ (bits - 1) <= v < 2 ^ (bits - 1).

(** The numbers in a body are numbers of the sizes they are kept with. *)
Record in_range (m : method_body) : Prop := {
  r_variables : forall v, In v (m_variables m) -> unsigned 32 (v_type v) /\ unsigned 16 (v_index v);
  r_tables : forall t, In t (m_tables m) -> signed 32 (t_default t) /\
               forall r, In r (t_rows t) -> signed 32 (fst r) /\ signed 32 (snd r);
  r_blocks : forall b, In b (m_blocks m) -> unsigned 8 (b_type b) /\ unsigned 32 (b_start b) /\
               unsigned 32 (b_end b) /\ unsigned 32 (b_entry b) /\ unsigned 32 (b_relation b)
}.

(** There are not more of anything than the numbers of them can say. *)
Record countable (rows : Z) (m : method_body) : Prop := {
  c_variables : Z.of_nat (length (m_variables m)) < 2 ^ 16;
  c_tables : Z.of_nat (length (m_tables m)) < 2 ^ 16;
  c_rows : forall t, In t (m_tables m) -> Z.of_nat (length (t_rows t)) < rows;
  c_blocks : Z.of_nat (length (m_blocks m)) < 2 ^ 16
}.

(** A table at run time that is the table compiled. *)
Record same_table (t : table) (x : exec_table) : Prop := {
  s_default : x_default x = t_default t;
  s_rows : x_rows x = t_rows t;
  s_count : x_count x = Z.of_nat (length (t_rows t))
}.

(** The variables in the order of their identities, and the rest as it is. *)
Record as_compiled (m : method_body) (x : exec_body) : Prop := {
  a_variables : exists vs, Permutation vs (m_variables m) /\
                  Sorted (fun v w => v_identity v <= v_identity w) vs /\
                  e_variables x = map (fun v => (v_type v, v_index v)) vs;
  a_tables : Forall2 same_table (m_tables m) (e_tables x);
  a_blocks : e_blocks x = m_blocks m;
  a_code : e_code x = concat (m_code m)
}.

(** A body the sizes of which can be computed: less than 2^62 bytes. *)
Definition small (m : method_body) : Prop :=
  Z.of_nat (length (concat (pieces m))) < 2 ^ 62.
