(** Proofs on the semaphore. *)

From Coq Require Import ZArith List Bool Arith Lia.
Import ListNotations.
From Verif Require Import CppInt LockModel LockProofs SemModel SemSpec.
Local Open Scope Z_scope.

(** A thread that is counted as waiting, and one that was promised a signal. *)
Definition counted (p : place) : Z := match p with Outside | Queued _ => 0 | _ => 1 end.
Definition promised (p : place) : Z := match p with Woken _ true | Returned true => 1 | _ => 0 end.

Record fit (n : nat) (count : Z) (h : history) (s : sem) : Prop := Fit {
  most_right : most s = count;
  waiting_right : waiting s = total (fun t => counted (places s t)) n;
  promised_less : total (fun t => promised (places s t)) n <= signals s;
  signals_less : signals s <= count;
  held_right : held h = count - signals s;
  mutex_right : forall t, mutex s = Some t -> (t < n)%nat /\ inside s t
}.

Lemma counted_bounds : forall p, 0 <= counted p <= 1.
Proof. intros []; cbn; lia. Qed.

Lemma promised_bounds : forall p, 0 <= promised p <= counted p.
Proof. intros [| | | | ? [|] | [|]]; cbn; lia. Qed.

Lemma total_le : forall f g n, (forall t, (t < n)%nat -> f t <= g t) -> total f n <= total g n.
Proof. intros f g n. induction n as [| n IH]; intros H; cbn [total]; [lia |]. specialize (IH ltac:(intros; apply H; lia)). specialize (H n ltac:(lia)). lia. Qed.

Lemma total_place : forall (f : place -> Z) pl t p n, (t < n)%nat -> total (fun u => f (update pl t p u)) n = total (fun u => f (pl u)) n + f p - f (pl t).
Proof.
  intros f pl t p n L. rewrite (total_change (fun u => f (pl u)) (fun u => f (update pl t p u)) n t L).
  - rewrite update_same. lia.
  - intros u _ N. rewrite update_other by exact N. reflexivity.
Qed.

Lemma counted_total : forall s n, 0 <= total (fun t => counted (places s t)) n <= Z.of_nat n.
Proof. intros s n. apply total_bounds. intros t _. apply counted_bounds. Qed.

Lemma promised_total : forall s n, 0 <= total (fun t => promised (places s t)) n <= total (fun t => counted (places s t)) n.
Proof.
  intros s n. split.
  - apply total_bounds. intros t _. pose proof (promised_bounds (places s t)). pose proof (counted_bounds (places s t)). lia.
  - apply total_le. intros t _. apply promised_bounds.
Qed.

Lemma total_at : forall f n t, (forall u, (u < n)%nat -> 0 <= f u) -> (t < n)%nat -> f t <= total f n.
Proof.
  intros f n t. induction n as [| n IH]; intros P L; [lia |]. cbn [total].
  assert (Q : 0 <= total f n) by (clear IH L; induction n as [| n IHn]; cbn [total]; [lia |]; specialize (IHn ltac:(intros; apply P; lia)); specialize (P n ltac:(lia)); lia).
  destruct (Nat.eq_dec t n) as [-> | N]; [lia |]. specialize (IH ltac:(intros; apply P; lia) ltac:(lia)). pose proof (P n ltac:(lia)). lia.
Qed.

Lemma wrap_u32 : forall v, 0 <= v < 4294967296 -> CppInt.wrap U32 v = v.
Proof. intros v H. apply wrap_id. unfold in_range. cbn. lia. Qed.

Lemma fit_step : forall n count h s a s' r, 0 <= count < 4294967296 -> Z.of_nat n < 4294967296 -> fit n count h s ->
  (actor a < n)%nat -> (forall t, a <> Wake t) -> (forall t u, a = Release t (Some u) -> (u < n)%nat) ->
  step s a = Some (s', r) -> fit n count ((a, r) :: h) s'.
Proof.
  intros n count h s a s' r Hc Hn F La Nw Lu St.
  pose proof (most_right _ _ _ _ F) as Mr. pose proof (waiting_right _ _ _ _ F) as Wr. pose proof (promised_less _ _ _ _ F) as Pl.
  pose proof (signals_less _ _ _ _ F) as Sl. pose proof (held_right _ _ _ _ F) as Hr. pose proof (mutex_right _ _ _ _ F) as Xr.
  pose proof (counted_total s n) as Ct. pose proof (promised_total s n) as Pt.
  assert (Tr : forall s1, try_acquire s = Some s1 -> waiting s = 0 /\ 0 < signals s /\ s1 = Sem (most s) (signals s - 1) (waiting s) (mutex s) (wait_mutex s) (places s)).
  { intros s1 E. unfold try_acquire in E. destruct ((waiting s =? 0) && (0 <? signals s)) eqn:B; [| discriminate]. injection E as <-.
    apply andb_prop in B. rewrite wrap_u32 by lia. split; [lia | split; [lia | reflexivity]]. }
  assert (Out : forall t, places s t = Outside -> mutex s <> Some t) by (intros t O X; destruct (Xr t X) as (_ & Y); exact (Y O)).
  assert (In1 : forall t p, p <> Outside -> forall u, mutex s = Some u -> (u < n)%nat /\ update (places s) t p u <> Outside).
  { intros t p Np u X. destruct (Xr u X) as (L & Y). split; [exact L |]. unfold update. destruct (Nat.eqb u t); [exact Np | exact Y]. }
  destruct a as [t timed | t | t | t | t | t | t | t | t woken]; cbn [step actor] in *.
  - destruct (places s t) eqn:P; try discriminate. cbn [outside] in St. destruct (mutex s) eqn:M; [discriminate |].
    destruct (try_acquire s) as [s1 |] eqn:T.
    + injection St as <- <-. destruct (Tr s1 eq_refl) as (W0 & S0 & ->). constructor; cbn [most signals waiting mutex wait_mutex places held]; try lia; try assumption; rewrite <- M; exact Xr.
    + injection St as <- <-. constructor; cbn [most signals waiting mutex wait_mutex places held]; try lia.
      * rewrite total_place by exact La. rewrite P. cbn [counted]. lia.
      * rewrite total_place by exact La. rewrite P. cbn [promised]. lia.
      * intros u X. injection X as <-. split; [exact La |]. unfold inside. cbn [places]. rewrite update_same. discriminate.
  - destruct (places s t) eqn:P; try discriminate. destruct (wait_mutex s) eqn:M; [discriminate |]. injection St as <- <-.
    assert (Lt : total (fun u => counted (places s u)) n + 1 <= Z.of_nat n).
    { pose proof (total_place counted (places s) t (Ready timed) n La) as E. rewrite P in E. cbn [counted] in E.
      assert (B : total (fun u => counted (update (places s) t (Ready timed) u)) n <= Z.of_nat n) by (apply total_bounds; intros; apply counted_bounds). lia. }
    constructor; cbn [most signals waiting mutex wait_mutex places held]; try lia.
    + rewrite wrap_u32 by lia. rewrite total_place by exact La. rewrite P. cbn [counted]. lia.
    + rewrite total_place by exact La. rewrite P. cbn [promised]. lia.
    + discriminate.
  - destruct (places s t) eqn:P; try discriminate. injection St as <- <-. constructor; cbn [most signals waiting mutex wait_mutex places held]; try lia.
    + rewrite total_place by exact La. rewrite P. cbn [counted]. lia.
    + rewrite total_place by exact La. rewrite P. cbn [promised]. lia.
    + apply In1. discriminate.
  - destruct (Nw t eq_refl).
  - assert (Ec : exists tm ok, (places s t = Asleep tm \/ places s t = Woken tm ok) /\ s' = set_place s t (Woken true false) /\ r = Goes_on).
    { destruct (places s t) as [| | | [|] | [|] ok |] eqn:P; try discriminate; injection St as <- <-.
      - exists true, true. repeat split. left. reflexivity.
      - exists true, ok. repeat split. right. reflexivity. }
    destruct Ec as (tm & ok & P & -> & ->). unfold set_place. constructor; cbn [most signals waiting mutex wait_mutex places held]; try lia.
    + rewrite total_place by exact La. destruct P as [-> | ->]; cbn [counted]; lia.
    + rewrite total_place by exact La. pose proof (promised_bounds (places s t)). cbn [promised]. lia.
    + apply In1. discriminate.
  - destruct (places s t) as [| | | | tm ok |] eqn:P; try discriminate. destruct (wait_mutex s) eqn:M; [discriminate |]. injection St as <- <-.
    constructor; cbn [most signals waiting mutex wait_mutex places held]; try lia.
    + rewrite total_place by exact La. rewrite P. cbn [counted]. lia.
    + rewrite total_place by exact La. rewrite P. destruct ok; cbn [promised]; lia.
    + apply In1. discriminate.
  - destruct (places s t) as [| | | | | ok] eqn:P; try discriminate. destruct (mutex s) eqn:M; [discriminate |]. injection St as <- <-.
    assert (W1 : 1 <= total (fun u => counted (places s u)) n).
    { pose proof (total_at (fun u => counted (places s u)) n t ltac:(intros; apply counted_bounds) La) as E. cbn beta in E. rewrite P in E. cbn [counted] in E. lia. }
    assert (P1 : promised (Returned ok) <= total (fun u => promised (places s u)) n).
    { pose proof (total_at (fun u => promised (places s u)) n t ltac:(intros; apply promised_bounds) La) as E. cbn beta in E. rewrite P in E. exact E. }
    destruct ok; cbn [promised] in P1.
    + constructor; cbn [most signals waiting mutex wait_mutex places held].
      * exact Mr.
      * rewrite wrap_u32 by lia. rewrite total_place by exact La. rewrite P. cbn [counted]. lia.
      * rewrite wrap_u32 by lia. rewrite total_place by exact La. rewrite P. cbn [promised]. lia.
      * rewrite wrap_u32 by lia. lia.
      * rewrite wrap_u32 by lia. lia.
      * discriminate.
    + constructor; cbn [most signals waiting mutex wait_mutex places held]; try lia.
      * rewrite wrap_u32 by lia. rewrite total_place by exact La. rewrite P. cbn [counted]. lia.
      * rewrite total_place by exact La. rewrite P. cbn [promised]. lia.
      * discriminate.
  - destruct (places s t) eqn:P; try discriminate. cbn [outside] in St. destruct (mutex s) eqn:M; [discriminate |].
    destruct (try_acquire s) as [s1 |] eqn:T.
    + injection St as <- <-. destruct (Tr s1 eq_refl) as (W0 & S0 & ->). constructor; cbn [most signals waiting mutex wait_mutex places held]; try lia; try assumption; rewrite <- M; exact Xr.
    + injection St as <- <-. constructor; cbn [held]; try assumption; rewrite M; exact Xr.
  - destruct (places s t) eqn:P; try discriminate. cbn [outside] in St. destruct (mutex s) eqn:M; [discriminate |].
    destruct (most s <=? signals s) eqn:E.
    + injection St as <- <-. constructor; cbn [held]; try assumption; rewrite M; exact Xr.
    + destruct woken as [u |].
      * destruct (places s u) as [| | | tm | |] eqn:Pu; try discriminate. injection St as <- <-. specialize (Lu t u eq_refl).
        unfold set_place. constructor; cbn [most signals waiting mutex wait_mutex places held].
        -- exact Mr.
        -- rewrite total_place by exact Lu. rewrite Pu. cbn [counted]. lia.
        -- rewrite wrap_u32 by lia. rewrite total_place by exact Lu. rewrite Pu. cbn [promised]. lia.
        -- rewrite wrap_u32 by lia. lia.
        -- rewrite wrap_u32 by lia. lia.
        -- discriminate.
      * injection St as <- <-. constructor; cbn [most signals waiting mutex wait_mutex places held].
        -- exact Mr.
        -- exact Wr.
        -- rewrite wrap_u32 by lia. lia.
        -- rewrite wrap_u32 by lia. lia.
        -- rewrite wrap_u32 by lia. lia.
        -- discriminate.
Qed.

(** Threads that have no number are outside. *)
Lemma others_outside : forall n count h s, runs n count h s -> forall t, (n <= t)%nat -> places s t = Outside.
Proof.
  intros n count h s R. induction R as [| h s a s' r R IH La No St]; intros t L; [reflexivity |].
  assert (K : forall u p, (u < n)%nat -> update (places s) u p t = Outside) by (intros u p Lu; rewrite update_other by lia; apply IH; exact L).
  assert (T : forall s1, try_acquire s = Some s1 -> places s1 = places s).
  { intros s1 E. unfold try_acquire in E. destruct ((waiting s =? 0) && (0 <? signals s)); [| discriminate]. injection E as <-. reflexivity. }
  destruct a as [u timed | u | u | u | u | u | u | u | u woken]; cbn [step actor] in *.
  - destruct (places s u); try discriminate. cbn [outside] in St. destruct (mutex s); [discriminate |].
    destruct (try_acquire s) as [s1 |] eqn:E; injection St as <- _; [rewrite (T s1 eq_refl); apply IH; exact L | apply K; exact La].
  - destruct (places s u); try discriminate. destruct (wait_mutex s); [discriminate |]. injection St as <- _. apply K. exact La.
  - destruct (places s u); try discriminate. injection St as <- _. apply K. exact La.
  - destruct (places s u); try discriminate. injection St as <- _. apply K. exact La.
  - destruct (places s u) as [| | | [|] | [|] ok |]; try discriminate; injection St as <- _; apply K; exact La.
  - destruct (places s u); try discriminate. destruct (wait_mutex s); [discriminate |]. injection St as <- _. apply K. exact La.
  - destruct (places s u); try discriminate. destruct (mutex s); [discriminate |]. injection St as <- _. apply K. exact La.
  - destruct (places s u); try discriminate. cbn [outside] in St. destruct (mutex s); [discriminate |].
    destruct (try_acquire s) as [s1 |] eqn:E; injection St as <- _; [rewrite (T s1 eq_refl); apply IH; exact L | apply IH; exact L].
  - destruct (places s u); try discriminate. cbn [outside] in St. destruct (mutex s); [discriminate |].
    destruct (most s <=? signals s); [injection St as <- _; apply IH; exact L |]. destruct woken as [v |].
    + destruct (places s v) eqn:Pv; try discriminate. injection St as <- _. cbn [set_place places].
      destruct (Nat.eq_dec t v) as [-> | N]; [rewrite IH in Pv by exact L; discriminate |]. rewrite update_other by exact N. apply IH. exact L.
    + injection St as <- _. apply IH. exact L.
Qed.

Lemma zeros : forall n, total (fun _ => 0) n = 0.
Proof. induction n as [| n IH]; cbn [total]; lia. Qed.

Lemma runs_fit : forall n count h s, 0 <= count < 4294967296 -> Z.of_nat n < 4294967296 -> runs n count h s -> no_spurious h -> fit n count h s.
Proof.
  intros n count h s Hc Hn R. induction R as [| h s a s' r R IH La No St]; intros Ns.
  - constructor; cbn; try lia.
    + symmetry. apply zeros.
    + rewrite zeros. lia.
    + discriminate.
  - apply (fit_step n count h s a s' r Hc Hn).
    + apply IH. intros t x I. apply (Ns t x). right. exact I.
    + exact La.
    + intros t ->. apply (Ns t r). left. reflexivity.
    + intros t u ->. cbn [notifies] in No. apply Nat.lt_nge. intro Lu. destruct No as (tm & No). rewrite (others_outside n count h s R u Lu) in No. discriminate.
    + exact St.
Qed.

(** * Results *)

Lemma capacity : forall n count h s, 0 <= count < 4294967296 -> Z.of_nat n < 4294967296 -> runs n count h s -> no_spurious h -> 0 <= held h <= count.
Proof.
  intros n count h s Hc Hn R Ns. pose proof (runs_fit n count h s Hc Hn R Ns) as F. pose proof (promised_total s n) as P.
  pose proof (promised_less _ _ _ _ F). pose proof (signals_less _ _ _ _ F). pose proof (held_right _ _ _ _ F). lia.
Qed.

Lemma release_answer : forall n count h s t woken s' r, 0 <= count < 4294967296 -> Z.of_nat n < 4294967296 -> runs n count h s -> no_spurious h ->
  step s (Release t woken) = Some (s', r) -> r = (if held h =? 0 then Refused else Given).
Proof.
  intros n count h s t woken s' r Hc Hn R Ns St. pose proof (runs_fit n count h s Hc Hn R Ns) as F. pose proof (promised_total s n) as P.
  pose proof (promised_less _ _ _ _ F) as Pl. pose proof (signals_less _ _ _ _ F) as Sl. pose proof (held_right _ _ _ _ F) as Hr. pose proof (most_right _ _ _ _ F) as Mr.
  cbn [step] in St. destruct (outside (places s t)); [| discriminate]. destruct (mutex s); [discriminate |].
  destruct (Z.leb_spec (most s) (signals s)).
  - injection St as _ <-. destruct (Z.eqb_spec (held h) 0); [reflexivity | lia].
  - assert (r = Given) by (destruct woken as [u |]; [destruct (places s u); try discriminate |]; injection St as _ <-; reflexivity).
    destruct (Z.eqb_spec (held h) 0); [lia | assumption].
Qed.

Lemma idle_counts : forall n count h s, fit n count h s -> (forall t, (t < n)%nat -> places s t = Outside) -> waiting s = 0 /\ mutex s = None.
Proof.
  intros n count h s F O. split.
  - rewrite (waiting_right _ _ _ _ F). transitivity (total (fun _ => 0) n); [| apply zeros]. apply total_same. intros t L. rewrite (O t L). reflexivity.
  - destruct (mutex s) as [t |] eqn:M; [| reflexivity]. destruct (mutex_right _ _ _ _ F t M) as (L & I). destruct (I (O t L)).
Qed.

Lemma uncontended : forall n count h s t timed, 0 <= count < 4294967296 -> Z.of_nat n < 4294967296 -> runs n count h s -> no_spurious h ->
  (t < n)%nat -> (forall u, (u < n)%nat -> ~ inside s u) ->
  (held h < count -> exists s', step s (Acquire t timed) = Some (s', Got) /\ step s (Try t) = Some (s', Got)) /\
  (held h = count -> exists s', step s (Acquire t timed) = Some (s', Goes_on) /\ step s (Try t) = Some (s, Not_got)).
Proof.
  intros n count h s t timed Hc Hn R Ns Lt Id. pose proof (runs_fit n count h s Hc Hn R Ns) as F. pose proof (held_right _ _ _ _ F) as Hr.
  assert (O : forall u, (u < n)%nat -> places s u = Outside) by (intros u L; specialize (Id u L); unfold inside in Id; destruct (places s u); [reflexivity | | | | |]; exfalso; apply Id; discriminate).
  destruct (idle_counts n count h s F O) as (W & M). cbn [step]. rewrite (O t Lt), M. cbn [outside]. unfold try_acquire. rewrite W. cbn [Z.eqb andb].
  split; intros Hh; destruct (Z.ltb_spec 0 (signals s)); try lia; eexists; split; reflexivity.
Qed.

(** A run given by its actions. *)
Fixpoint follow (s : sem) (h : history) (l : list action) : option (sem * history) :=
  match l with
  | [] => Some (s, h)
  | a :: r => match step s a with
              | Some (s', x) => follow s' ((a, x) :: h) r
              | None => None
              end
  end.

(** A boolean reading of [notifies]. *)
Definition notifies_b (n : nat) (s : sem) (a : action) : bool :=
  match a with
  | Release _ None => forallb (fun u => match places s u with Asleep _ => false | _ => true end) (seq 0 n)
  | Release _ (Some u) => match places s u with Asleep _ => true | _ => false end
  | _ => true
  end.

Fixpoint allowed (n : nat) (s : sem) (l : list action) : bool :=
  match l with
  | [] => true
  | a :: r => Nat.ltb (actor a) n && notifies_b n s a && match step s a with Some (s', _) => allowed n s' r | None => false end
  end.

Lemma notifies_right : forall n s a, notifies_b n s a = true -> notifies n s a.
Proof.
  intros n s a H. destruct a as [| | | | | | | | t [u |]]; cbn [notifies notifies_b] in *; try exact I.
  - destruct (places s u) as [| | | tm | |]; try discriminate. exists tm. reflexivity.
  - intros u L. rewrite forallb_forall in H. specialize (H u ltac:(apply in_seq; lia)). destruct (places s u); try exact I. discriminate.
Qed.

Lemma follow_runs : forall n count l s h s' h', runs n count h s -> allowed n s l = true -> follow s h l = Some (s', h') -> runs n count h' s'.
Proof.
  intros n count l. induction l as [| a l IH]; intros s h s' h' R A E; cbn [follow allowed] in *.
  - injection E as <- <-. exact R.
  - apply andb_prop in A. destruct A as (A & A2). apply andb_prop in A. destruct A as (A0 & A1). apply Nat.ltb_lt in A0.
    destruct (step s a) as [(s1, x) |] eqn:St; [| discriminate]. apply (IH s1 ((a, x) :: h) s' h'); [| exact A2 | exact E].
    apply (Runs_step n count h s a s1 x R A0); [apply notifies_right; exact A1 | exact St].
Qed.

(** A thread that wakes without a notification takes a signal that is not there: with one signal, two threads hold it. *)
Definition spurious_run : list action :=
  [Acquire 0 false; Acquire 1 false; Queue 1; Sleep 1; Wake 1; Regain 1; Finish 1]%nat.

Lemma spurious : exists h s, runs 2 1 h s /\ held h = 2 /\ signals s = 4294967295.
Proof.
  destruct (follow (new_semaphore 1) [] spurious_run) as [(s, h) |] eqn:E; [| vm_compute in E; discriminate].
  exists h, s. split; [| vm_compute in E; injection E as <- <-; split; reflexivity].
  apply (follow_runs 2 1 spurious_run (new_semaphore 1) []); [constructor | vm_compute; reflexivity | exact E].
Qed.

(** The release comes after the waiting thread has let go of the lock and before it waits. *)
Definition lost_run : list action := [Acquire 0 false; Acquire 1 false; Queue 1; Release 0 None; Sleep 1]%nat.

Lemma lost : exists h s, runs 2 1 h s /\ no_spurious h /\ held h = 0 /\ inside s 1 /\
  (forall s', settles s s' -> inside s' 1) /\ step s (Try 0) = Some (s, Not_got).
Proof.
  destruct (follow (new_semaphore 1) [] lost_run) as [(s, h) |] eqn:E; [| vm_compute in E; discriminate].
  exists h, s. split; [apply (follow_runs 2 1 lost_run (new_semaphore 1) []); [constructor | vm_compute; reflexivity | exact E] |].
  assert (P0 : forall t, places s t = if Nat.eqb t 1 then Asleep false else Outside).
  { cbn in E. injection E as <- _. intros t. cbn [places]. unfold update. destruct (Nat.eqb t 1); reflexivity. }
  assert (Hh : h = [(Sleep 1, Goes_on); (Release 0 None, Given); (Queue 1, Goes_on); (Acquire 1 false, Goes_on); (Acquire 0 false, Got)])
    by (vm_compute in E; injection E as _ <-; reflexivity).
  assert (Hs : waiting s = 1 /\ mutex s = None) by (vm_compute in E; injection E as <- _; split; reflexivity).
  split; [| split; [| split; [| split]]].
  - rewrite Hh. intros t r I. cbn [In] in I. intuition congruence.
  - rewrite Hh. reflexivity.
  - unfold inside. rewrite P0. discriminate.
  - intros s' T. induction T as [s | s a s' r s'' Ip St T IH].
    + unfold inside. rewrite P0. discriminate.
    + exfalso. destruct a as [u timed | u | u | u | u | u | u | u | u woken]; try destruct Ip; cbn [step] in St; rewrite P0 in St; destruct (Nat.eqb u 1); discriminate.
  - destruct Hs as (W & M). cbn [step]. rewrite P0, M. cbn [Nat.eqb outside]. unfold try_acquire. rewrite W. reflexivity.
Qed.

(** One thread has the first lock and waits for the second, the other has the second and waits for the first. *)
Definition deadlock_run : list action :=
  [Acquire 0 false; Acquire 1 false; Queue 1; Sleep 1; Release 0 (Some 1); Acquire 0 false; Regain 1]%nat.

Lemma deadlock : exists h s, runs 2 1 h s /\ no_spurious h /\ held h = 0 /\ inside s 0 /\ inside s 1 /\ forall a, step s a = None.
Proof.
  destruct (follow (new_semaphore 1) [] deadlock_run) as [(s, h) |] eqn:E; [| vm_compute in E; discriminate].
  exists h, s. split; [apply (follow_runs 2 1 deadlock_run (new_semaphore 1) []); [constructor | vm_compute; reflexivity | exact E] |].
  assert (P0 : forall t, places s t = if Nat.eqb t 1 then Returned true else if Nat.eqb t 0 then Queued false else Outside).
  { cbn in E. injection E as <- _. intros t. cbn [places]. unfold update. destruct (Nat.eqb t 1), (Nat.eqb t 0); reflexivity. }
  assert (Hh : h = [(Regain 1, Goes_on); (Acquire 0 false, Goes_on); (Release 0 (Some 1%nat), Given); (Sleep 1, Goes_on); (Queue 1, Goes_on); (Acquire 1 false, Goes_on); (Acquire 0 false, Got)])
    by (vm_compute in E; injection E as _ <-; reflexivity).
  assert (Hs : mutex s = Some 0%nat /\ wait_mutex s = Some 1%nat) by (vm_compute in E; injection E as <- _; split; reflexivity).
  destruct Hs as (M & Wm).
  split; [| split; [| split; [| split]]].
  - rewrite Hh. intros t r I. cbn [In] in I. intuition congruence.
  - rewrite Hh. reflexivity.
  - unfold inside. rewrite P0. discriminate.
  - unfold inside. rewrite P0. discriminate.
  - intros a. destruct a as [u timed | u | u | u | u | u | u | u | u woken]; cbn [step]; rewrite ?M, ?Wm, P0; destruct (Nat.eqb u 1), (Nat.eqb u 0); reflexivity.
Qed.
