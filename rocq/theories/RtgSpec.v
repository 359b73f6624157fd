(* What types mean in generic code: generic params are replaced by arguments,
   whatever their names are. *)
From Coq Require Import ZArith List Bool.
From Verif Require Import RtgModel.
Import ListNotations.
Local Open Scope nat_scope.

Definition is_pack (P : prog) (p : nat) : Prop :=
  exists g, nth_error (p_gparams P) p = Some g /\ g_pack g = true.
Definition is_single (P : prog) (p : nat) : Prop :=
  exists g, nth_error (p_gparams P) p = Some g /\ g_pack g = false.

(* The argument at the place of a param; a param that takes many has all from
   its place on. *)
Definition arg_for (P : prog) (ps : list nat) (args : list rty) (p : nat) (ts : list rty)
  : Prop :=
  exists k, nth_error ps k = Some p /\
    ((is_single P p /\ exists t, nth_error args k = Some t /\ ts = [t]) \/
     (is_pack P p /\ ts = skipn k args)).

(* What an instance, or the instance it is nested in, gives for a param *)
Inductive gives (P : prog) : rty -> nat -> list rty -> Prop :=
| gives_here i d a h p ts :
    nth_error (p_decls P) i = Some d -> arg_for P (d_params d) a p ts ->
    gives P (RInstance i a h) p ts
| gives_host i a h p ts : gives P h p ts -> gives P (RInstance i a (Some h)) p ts.

Inductive gives_method (P : prog) (t : rty) (ps : list nat) (args : list rty)
  : nat -> list rty -> Prop :=
| gives_own p ts : arg_for P ps args p ts -> gives_method P t ps args p ts
| gives_type p ts : gives P t p ts -> gives_method P t ps args p ts.

(* The type with the params replaced; None is no type (void) *)
Inductive stands (e : nat -> list rty -> Prop) (P : prog) : mty -> option rty -> Prop :=
| st_null : stands e P MNull None
| st_general i : stands e P (MGeneral i) (Some (RGeneral i))
| st_array x d t : stands e P x (Some t) -> stands e P (MArray x d) (Some (RArray t d))
| st_param p t : is_single P p -> e p [t] -> stands e P (MParam p) (Some t)
| st_instance i a h ts o :
    stand_args e P a ts -> stands e P h o ->
    stands e P (MInstance i a h) (Some (RInstance i ts o))
with stand_args (e : nat -> list rty -> Prop) (P : prog) : list mty -> list rty -> Prop :=
| sa_nil : stand_args e P [] []
| sa_pack p l ts us : is_pack P p -> e p ts -> stand_args e P l us ->
    stand_args e P (MParam p :: l) (ts ++ us)
| sa_one x l t us : stands e P x (Some t) -> stand_args e P l us ->
    stand_args e P (x :: l) (t :: us).

(* ---- programs ---- *)

(* Only the last param takes many. *)
Definition pack_last (P : prog) (ps : list nat) : Prop :=
  forall k p, nth_error ps k = Some p ->
    is_single P p \/ (is_pack P p /\ length ps = S k).

(* As many arguments as params, or enough if the last takes many *)
Definition enough (P : prog) (ps : list nat) (c : nat) : Prop :=
  (Forall (is_single P) ps /\ length ps = c) \/
  (exists qs q, ps = qs ++ [q] /\ is_pack P q /\ length qs <= c).

(* A general type that is not generic and not in a generic type *)
Inductive plain (P : prog) : nat -> Prop :=
| plain_top i d : nth_error (p_decls P) i = Some d -> d_params d = [] -> d_host d = None ->
    plain P i
| plain_in i d h : nth_error (p_decls P) i = Some d -> d_params d = [] -> d_host d = Some h ->
    h < i -> plain P h -> plain P i.

(* A type that code can run in: all params in it have their arguments. *)
Inductive ready (P : prog) : rty -> Prop :=
| ready_general i : plain P i -> ready P (RGeneral i)
| ready_top i d a : nth_error (p_decls P) i = Some d -> pack_last P (d_params d) ->
    enough P (d_params d) (length a) -> ready P (RInstance i a None)
| ready_in i d a h : nth_error (p_decls P) i = Some d -> pack_last P (d_params d) ->
    enough P (d_params d) (length a) -> ready P h -> ready P (RInstance i a (Some h)).

(* The params of a type and of the types around it *)
Fixpoint scope (P : prog) (t : rty) : list nat :=
  match t with
  | RInstance i _ h =>
      match h with Some h' => scope P h' | None => [] end ++
      match nth_error (p_decls P) i with Some d => d_params d | None => [] end
  | _ => []
  end.

Definition name_of (P : prog) (p : nat) : Z :=
  match nth_error (p_gparams P) p with Some g => g_name g | None => 0%Z end.

Definition distinct (P : prog) (s : list nat) : Prop := NoDup (map (name_of P) s).

(* A type that can be written where the params [s] are known *)
Inductive written (P : prog) (s : list nat) : mty -> Prop :=
| wr_null : written P s MNull
| wr_general i : written P s (MGeneral i)
| wr_array x d : written P s x -> x <> MNull -> written P s (MArray x d)
| wr_param p : In p s -> is_single P p -> written P s (MParam p)
| wr_instance i d a h :
    nth_error (p_decls P) i = Some d -> pack_last P (d_params d) ->
    enough P (d_params d) (length a) ->
    written_args P s a -> written P s h -> written P s (MInstance i a h)
with written_args (P : prog) (s : list nat) : list mty -> Prop :=
| wa_nil : written_args P s []
| wa_pack p l : In p s -> is_pack P p -> written_args P s l -> written_args P s (MParam p :: l)
| wa_one x l : written P s x -> x <> MNull -> written_args P s l -> written_args P s (x :: l).

(* ---- methods ---- *)

Definition written_method (P : prog) (s : list nat) (m : meth) : Prop :=
  written P s (m_ret m) /\ Forall (fun x => written P s (snd x)) (m_params m).

(* Two methods with the same name and the same types, each in its own instance *)
Definition same_method (P : prog) (e e' : nat -> list rty -> Prop) (m m' : meth) : Prop :=
  m_name m = m_name m' /\ m_count m = m_count m' /\
  (exists r, stands e P (m_ret m) r /\ stands e' P (m_ret m') r) /\
  Forall2 (fun x y => fst x = fst y /\
    exists o, stands e P (snd x) o /\ stands e' P (snd y) o) (m_params m) (m_params m').

Definition nothing (p : nat) (ts : list rty) : Prop := False.

(* The last method that is the same as [m] *)
Definition last_same (same : meth -> Prop) (ms : list meth) (o : option nat) : Prop :=
  match o with
  | Some k => (exists m, nth_error ms k = Some m /\ same m) /\
      forall j m, k < j -> nth_error ms j = Some m -> ~ same m
  | None => forall j m, nth_error ms j = Some m -> ~ same m
  end.

Definition first_same (same : meth -> Prop) (ms : list meth) (o : option nat) : Prop :=
  match o with
  | Some k => (exists m, nth_error ms k = Some m /\ same m) /\
      forall j m, j < k -> nth_error ms j = Some m -> ~ same m
  | None => forall j m, nth_error ms j = Some m -> ~ same m
  end.

(* No param that takes many *)
Definition no_packs (P : prog) (s : list nat) : Prop := forall p, In p s -> is_single P p.

(* The type of a field in an instance: that in the type the field is in *)
Definition field_stands (P : prog) (t : rty) (f : field_ref) (o : option rty) : Prop :=
  exists h, stands (gives P t) P (f_host f) (Some h) /\ stands (gives P h) P (f_type f) o.

(* Every instance a field is read from is one of the program. *)
Definition good_field (P : prog) (t : rty) (f : field_ref) : Prop :=
  written P (scope P t) (f_host f) /\
  forall h, stands (gives P t) P (f_host f) (Some h) ->
    ready P h /\ distinct P (scope P h) /\ written P (scope P h) (f_type f).
