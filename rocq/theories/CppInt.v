(** Shared vocabulary: the eight C++ fixed-width integer types and the part of
    the C++17 abstract machine that the modelled code relies on.

    Nothing in this file models code in /repo; it models the language the code
    is written in (gcc/clang on a little-endian two's-complement machine):
    integral promotion, the usual arithmetic conversions, integral conversion,
    and which operations are undefined behaviour.  Undefined behaviour is a
    separate outcome, [UB], never silently given a value. *)

From Coq Require Import ZArith Lia List Bool.
Import ListNotations.
Open Scope Z_scope.

(** The integer types [int8_t] .. [uint64_t]. *)
Inductive ity := I8 | U8 | I16 | U16 | I32 | U32 | I64 | U64.

Definition ity_eqb (a b : ity) : bool :=
  match a, b with
  | I8, I8 | U8, U8 | I16, I16 | U16, U16 | I32, I32 | U32, U32
  | I64, I64 | U64, U64 => true
  | _, _ => false
  end.

Lemma ity_eqb_eq : forall a b, ity_eqb a b = true <-> a = b.
Proof. intros [] []; simpl; split; intro H; congruence. Qed.

Lemma ity_eqb_refl : forall a, ity_eqb a a = true.
Proof. intros []; reflexivity. Qed.

Definition all_ity : list ity := [I8; U8; I16; U16; I32; U32; I64; U64].

(** Width in bits. *)
Definition bits (t : ity) : Z :=
  match t with
  | I8 | U8 => 8
  | I16 | U16 => 16
  | I32 | U32 => 32
  | I64 | U64 => 64
  end.

Definition is_signed (t : ity) : bool :=
  match t with I8 | I16 | I32 | I64 => true | _ => false end.

(** 2^bits and 2^(bits-1), as literals so that [lia] can use them. *)
Definition modulus (t : ity) : Z :=
  match t with
  | I8 | U8 => 256
  | I16 | U16 => 65536
  | I32 | U32 => 4294967296
  | I64 | U64 => 18446744073709551616
  end.

Definition half (t : ity) : Z :=
  match t with
  | I8 | U8 => 128
  | I16 | U16 => 32768
  | I32 | U32 => 2147483648
  | I64 | U64 => 9223372036854775808
  end.

Lemma modulus_pow : forall t, modulus t = 2 ^ bits t.
Proof. intros []; reflexivity. Qed.

Lemma half_pow : forall t, half t = 2 ^ (bits t - 1).
Proof. intros []; reflexivity. Qed.

Definition tmin (t : ity) : Z := if is_signed t then - half t else 0.
Definition tmax (t : ity) : Z := if is_signed t then half t - 1 else modulus t - 1.

(** [z] is a value of type [t]. *)
Definition in_range (t : ity) (z : Z) : Prop := tmin t <= z <= tmax t.

Definition in_rangeb (t : ity) (z : Z) : bool := (tmin t <=? z) && (z <=? tmax t).

Lemma in_rangeb_iff : forall t z, in_rangeb t z = true <-> in_range t z.
Proof.
  intros t z. unfold in_rangeb, in_range. rewrite andb_true_iff, !Z.leb_le. tauto.
Qed.

(** Integral conversion to [t] (conv.integral): the value congruent to [z]
    modulo 2^bits that [t] can represent. *)
Definition wrap (t : ity) (z : Z) : Z :=
  if is_signed t then (z + half t) mod modulus t - half t else z mod modulus t.

Ltac Zify.zify_post_hook ::= Z.div_mod_to_equations.

Lemma wrap_in_range : forall t z, in_range t (wrap t z).
Proof.
  intros t z. unfold in_range, wrap, tmin, tmax.
  destruct t; simpl; lia.
Qed.

Lemma wrap_id : forall t z, in_range t z -> wrap t z = z.
Proof.
  intros t z. unfold in_range, wrap, tmin, tmax.
  destruct t; cbn [is_signed half modulus]; lia.
Qed.

Lemma wrap_cong : forall t z, exists k, wrap t z = z + k * modulus t.
Proof.
  intros t z. unfold wrap.
  destruct t; cbn [is_signed half modulus].
  all: first
    [ exists (- (z / 256)); lia | exists (- ((z + 128) / 256)); lia
    | exists (- (z / 65536)); lia | exists (- ((z + 32768) / 65536)); lia
    | exists (- (z / 4294967296)); lia | exists (- ((z + 2147483648) / 4294967296)); lia
    | exists (- (z / 18446744073709551616)); lia
    | exists (- ((z + 9223372036854775808) / 18446744073709551616)); lia ].
Qed.

(** The representative is unique: [wrap] is exact arithmetic modulo 2^bits. *)
Lemma wrap_unique : forall t z v k,
  in_range t v -> v = z + k * modulus t -> v = wrap t z.
Proof.
  intros t z v k. unfold in_range, wrap, tmin, tmax.
  destruct t; cbn [is_signed half modulus]; intros; lia.
Qed.

Lemma wrap_add_modulus : forall t z k, wrap t (z + k * modulus t) = wrap t z.
Proof.
  intros t z k.
  destruct (wrap_cong t (z + k * modulus t)) as [j Hj].
  apply (wrap_unique t z _ (j + k)). apply wrap_in_range. rewrite Hj. ring.
Qed.

(** Conversion to a narrower-or-equal type only looks at the low bits, so an
    intermediate conversion to a type at least as wide does not matter. *)
Lemma wrap_wrap : forall t u z, bits t <= bits u -> wrap t (wrap u z) = wrap t z.
Proof.
  intros t u z H.
  destruct (wrap_cong u z) as [k Hk]. rewrite Hk.
  assert (Hm : exists q, modulus u = q * modulus t).
  { exists (2 ^ (bits u - bits t)). rewrite !modulus_pow.
    rewrite <- Z.pow_add_r.
    - f_equal; lia.
    - lia.
    - destruct t; simpl; lia. }
  destruct Hm as [q Hq]. rewrite Hq.
  replace (z + k * (q * modulus t)) with (z + (k * q) * modulus t) by ring.
  apply wrap_add_modulus.
Qed.

(** Integral promotion (conv.prom): everything narrower than [int] becomes [int]. *)
Definition promote (t : ity) : ity :=
  match t with
  | I8 | U8 | I16 | U16 => I32
  | _ => t
  end.

(** Usual arithmetic conversions (expr.arith.conv) on promoted types. *)
Definition common (t1 t2 : ity) : ity :=
  match promote t1, promote t2 with
  | U64, _ | _, U64 => U64
  | I64, _ | _, I64 => I64
  | U32, _ | _, U32 => U32
  | _, _ => I32
  end.

(** Result of a C++ computation. *)
Inductive res (A : Type) : Type :=
| Val (a : A)
| UB.
Arguments Val {A} a.
Arguments UB {A}.

Definition bind {A B} (r : res A) (f : A -> res B) : res B :=
  match r with Val a => f a | UB => UB end.

(** A result of mathematical value [z] in type [t]: unsigned types wrap,
    signed overflow is undefined (expr.pre/4). *)
Definition fit (t : ity) (z : Z) : res Z :=
  if is_signed t then (if in_rangeb t z then Val z else UB) else Val (wrap t z).

Lemma fit_in_range : forall t z, in_range t z -> fit t z = Val z.
Proof.
  intros t z H. unfold fit. destruct (is_signed t) eqn:E.
  - apply in_rangeb_iff in H. rewrite H. reflexivity.
  - rewrite wrap_id by assumption. reflexivity.
Qed.

Lemma fit_val : forall t z v, fit t z = Val v -> v = wrap t z.
Proof.
  intros t z v. unfold fit. destruct (is_signed t) eqn:E; intro H.
  - destruct (in_rangeb t z) eqn:R; [|discriminate].
    apply in_rangeb_iff in R. inversion H; subst. symmetry. apply wrap_id; assumption.
  - inversion H; reflexivity.
Qed.
