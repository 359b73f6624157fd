(** Proofs about the system library. *)
From Coq Require Import String Ascii.
From Coq Require Import List Bool ZArith Lia.
From Verif Require Import CppInt ArithModel ArithSpec ArithProofs LibModel LibSpec.
Import ListNotations.
Open Scope Z_scope.

(** *** Decimal texts *)

Lemma digits_app fuel : forall n acc, digits fuel n acc = digits fuel n [] ++ acc.
Proof.
  induction fuel as [|f IH]; intros n acc; [reflexivity|]. cbn [digits].
  destruct (n <? 10); [reflexivity|].
  rewrite (IH _ (_ :: acc)), (IH _ [_]), <- app_assoc. reflexivity.
Qed.

Lemma value_snoc s c : value (s ++ [c]) = 10 * value s + (c - 48).
Proof. unfold value. rewrite fold_left_app. reflexivity. Qed.

Lemma digits_spec fuel : forall n, 0 < n -> n < 10 ^ Z.of_nat fuel ->
  exists c s, digits fuel n [] = c :: s /\ c <> 48 /\ Forall digit (c :: s) /\ value (c :: s) = n.
Proof.
  induction fuel as [|f IH]; intros n P L; [cbn in L; lia|].
  cbn [digits]. destruct (Z.ltb_spec n 10) as [A|A].
  - exists (48 + n mod 10), []. rewrite Z.mod_small by lia.
    split; [reflexivity|]. split; [lia|]. split; [constructor; [unfold digit; lia | constructor]|].
    unfold value. cbn [fold_left]. lia.
  - rewrite digits_app. rewrite Nat2Z.inj_succ, Z.pow_succ_r in L by lia.
    assert (Q : 0 < n / 10) by (apply Z.div_str_pos; lia).
    assert (R : n / 10 < 10 ^ Z.of_nat f) by (apply Z.div_lt_upper_bound; lia).
    destruct (IH (n / 10) Q R) as (c & s & E & C & F & V). rewrite E.
    exists c, (s ++ [48 + n mod 10]). split; [reflexivity|]. split; [exact C|].
    pose proof (Z.mod_pos_bound n 10 ltac:(lia)) as M. split.
    + change (c :: s ++ [48 + n mod 10]) with ((c :: s) ++ [48 + n mod 10]).
      apply Forall_app. split; [exact F|]. constructor; [unfold digit; lia | constructor].
    + change (c :: s ++ [48 + n mod 10]) with ((c :: s) ++ [48 + n mod 10]).
      rewrite value_snoc, V. pose proof (Z.div_mod n 10 ltac:(lia)). lia.
Qed.

Lemma show_pos n : 0 <= n < 10 ^ 20 -> decimal (digits 20 n []) n.
Proof.
  intros [A B]. destruct (Z.eq_dec n 0) as [->|N]; [exact decimal_zero|].
  destruct (digits_spec 20 n ltac:(lia) B) as (c & s & -> & C & F & V). now apply decimal_pos.
Qed.

Lemma show_spec z : - 10 ^ 20 < z < 10 ^ 20 -> decimal (show z) z.
Proof.
  intros B. unfold show. destruct (Z.ltb_spec z 0).
  - apply decimal_neg; [assumption|]. apply show_pos. lia.
  - apply show_pos. lia.
Qed.

Lemma show_wrap t u : decimal (show (wrap t u)) (wrap t u).
Proof.
  apply show_spec. pose proof (wrap_in_range t u) as R. unfold in_range in R.
  assert (P : 10 ^ 20 = 100000000000000000000) by reflexivity. rewrite P.
  destruct t; unfold tmin, tmax in R; cbn [is_signed half modulus] in R; lia.
Qed.

(** *** Calls *)

Lemma call_args E name d f args rest s us : look name declared = Some d -> target_of name = Native f ->
  List.length args = param_units d -> run_func E f args = Some (s, us) ->
  call E name (rev args ++ rest) = Done s (rev (firstn (ret_units d) us) ++ rest).
Proof.
  intros D T L R. unfold call. rewrite D, T. unfold internal_call.
  assert (X : (List.length (rev args ++ rest) <? param_units d)%nat = false).
  { apply Nat.ltb_ge. rewrite app_length, rev_length. lia. }
  rewrite X. rewrite <- L, <- (rev_length args), firstn_app, skipn_app, Nat.sub_diag.
  rewrite firstn_all, skipn_all. cbn [firstn skipn app]. rewrite app_nil_r, rev_involutive, R. reflexivity.
Qed.

Lemma wrap_mod t u : wrap t (u mod modulus t + modulus t * 0) = wrap t u.
Proof. unfold wrap. destruct t; cbn [is_signed half modulus]; lia. Qed.

Lemma wrap_filled E t v : in_range t v -> wrap t (filled E t v) = v.
Proof.
  unfold filled, in_range, tmin, tmax, wrap. generalize (e_junk E). intros j H.
  destruct t; cbn [is_signed half modulus] in *; lia.
Qed.

Lemma look_in {A : Type} name (l : list (string * A)) a : look name l = Some a -> In (name, a) l.
Proof.
  induction l as [|[n b] l IH]; cbn [look]; [discriminate|].
  destruct (String.eqb_spec n name) as [->|]; [intros [= ->]; now left | intros H; right; auto].
Qed.

Definition finish (E : env) (name : string) (args rest : list Z) (t : lty) : Prop :=
  exists s r, call E name (rev args ++ rest) = Done s (r ++ rest) /\ List.length r = result_units t.

Lemma finish_by E name d f args rest s us : look name declared = Some d -> target_of name = Native f ->
  List.length args = param_units d -> run_func E f args = Some (s, us) ->
  List.length (firstn (ret_units d) us) = result_units (snd d) -> finish E name args rest (snd d).
Proof.
  intros D T L R F. exists s, (rev (firstn (ret_units d) us)). split.
  - exact (call_args E name d f args rest s us D T L R).
  - now rewrite rev_length.
Qed.

Lemma string_runs E u : (arg U64 u = 0 \/ exists s, e_text E u = Some s) ->
  (exists s, run_func E (console_write KString) [u] = Some (s, [u])) /\
  (exists s, run_func E (console_write_line KString) [u] = Some (s, [u])).
Proof.
  intros H. cbn [run_func written]. destruct (Z.eqb_spec (arg U64 u) 0) as [_|N].
  - split; eexists; reflexivity.
  - destruct H as [H|[s ->]]; [contradiction|]. split; eexists; reflexivity.
Qed.

Lemma stack_kept E name d args rest : look name declared = Some d ->
  ~ In name instructions -> ~ In name absent -> Forall2 (passable E) (fst d) args ->
  finish E name args rest (snd d).
Proof.
  intros D NI NA F. pose proof D as D'. apply look_in in D'. unfold declared in D'. cbn [In] in D'.
  repeat (destruct D' as [D'|D']; [injection D' as <- <-;
    try (exfalso; apply NI; unfold instructions; cbn [In]; tauto);
    try (exfalso; apply NA; unfold absent; cbn [In]; tauto);
    cbn [fst] in F;
    repeat match goal with X : Forall2 _ (_ :: _) _ |- _ => inversion X; clear X; subst end;
    repeat match goal with X : Forall2 _ [] _ |- _ => inversion X; clear X; subst end;
    first [ now (eapply finish_by; [exact D | reflexivity | reflexivity | reflexivity | reflexivity])
          | match goal with X : passable _ LString ?u |- _ =>
              destruct (string_runs _ _ X) as [[? ?] [? ?]];
              now (eapply finish_by; [exact D | reflexivity | reflexivity | eassumption | reflexivity]) end ] |]).
  destruct D'.
Qed.

Lemma absent_missing E name stack : In name absent -> call E name stack = Missing.
Proof. intros H. cbn in H. destruct H as [<-|[<-|[<-|[]]]]; reflexivity. Qed.

Lemma native1 E name d f x rest s u : look name declared = Some d -> target_of name = Native f ->
  param_units d = 1%nat -> ret_units d = 1%nat -> run_func E f [x] = Some (s, [u]) ->
  call E name (x :: rest) = Done s (u :: rest).
Proof.
  intros D T P Q R. pose proof (call_args E name d f [x] rest s [u] D T (eq_sym P) R) as C.
  cbn [rev app] in C. rewrite C, Q. reflexivity.
Qed.

Lemma native2 E name d f x y rest s u v : look name declared = Some d -> target_of name = Native f ->
  param_units d = 2%nat -> ret_units d = 1%nat -> run_func E f [x; y] = Some (s, [u; v]) ->
  call E name (y :: x :: rest) = Done s (u :: rest).
Proof.
  intros D T P Q R. pose proof (call_args E name d f [x; y] rest s [u; v] D T (eq_sym P) R) as C.
  cbn [rev app] in C. rewrite C, Q. reflexivity.
Qed.

Lemma math_call E m x rest : in_range U64 x ->
  call E (math_name m) (x :: rest) = Done [] (e_math E m x :: rest).
Proof.
  intros R. assert (A : arg U64 x = x) by now apply wrap_id.
  rewrite <- A at 2.
  destruct m; eapply native1; reflexivity.
Qed.

Lemma pow_call E x y rest : in_range U64 x -> in_range U64 y ->
  call E "Math_Pow" (y :: x :: rest) = Done [] (e_pow E x y :: rest).
Proof.
  intros R R'. assert (A : arg U64 x = x) by now apply wrap_id. assert (B : arg U64 y = y) by now apply wrap_id.
  rewrite <- A at 2. rewrite <- B at 2. eapply (native2 _ _ _ _ x y); reflexivity.
Qed.

(** *** Console *)

Lemma until_nul_id s : ~ In 0 s -> until_nul s = s.
Proof.
  induction s as [|c s IH]; [reflexivity|]. intros N. cbn [until_nul].
  destruct (Z.eqb_spec c 0) as [->|]; [exfalso; apply N; now left|].
  rewrite IH; [reflexivity|]. intros H. apply N. now right.
Qed.

Lemma nonzero u : 0 < u < modulus U64 -> (arg U64 u =? 0) = false.
Proof.
  intros R. apply Z.eqb_neq. unfold arg. rewrite wrap_id; [lia|].
  unfold in_range, tmin, tmax. cbn [is_signed modulus] in *. lia.
Qed.

Lemma string_write E u s stack : 0 < u < modulus U64 -> e_text E u = Some s ->
  call E "Console_WriteString" (u :: stack) = Done (until_nul s) stack.
Proof.
  intros R T. refine (eq_trans (call_args E _ _ _ [u] stack _ [u] (eq_refl : look "Console_WriteString" declared = _) eq_refl eq_refl _) _).
  2: reflexivity.
  cbn [run_func written]. now rewrite (nonzero u R), T.
Qed.

Lemma string_line E u s stack : 0 < u < modulus U64 -> e_text E u = Some s ->
  call E "Console_WriteStringLine" (u :: stack) = Done (until_nul s ++ [10]) stack.
Proof.
  intros R T. refine (eq_trans (call_args E _ _ _ [u] stack _ [u] (eq_refl : look "Console_WriteStringLine" declared = _) eq_refl eq_refl _) _).
  2: reflexivity.
  cbn [run_func written]. now rewrite (nonzero u R), T.
Qed.

Lemma one_call E name d f u stack s : look name declared = Some d -> target_of name = Native f ->
  param_units d = 1%nat -> ret_units d = 0%nat -> run_func E f [u] = Some (s, [u]) ->
  run_body E [(name, PValue)] u stack = Done s stack.
Proof.
  intros D T P Q R. cbn [run_body passed].
  pose proof (call_args E name d f [u] stack s [u] D T (eq_sym P) R) as C. cbn [rev app] in C.
  rewrite C, Q. cbn [firstn rev app]. now rewrite app_nil_r.
Qed.

Lemma int_write E t u stack : write E (CInt t) u stack = Done (show (wrap t u)) stack.
Proof. destruct t; eapply one_call; reflexivity. Qed.

Lemma int_line E t u stack : t <> U64 -> write_line E (CInt t) u stack = Done (show (wrap t u) ++ [10]) stack.
Proof.
  intros N. destruct t; try (now contradiction N);
    eapply one_call; reflexivity.
Qed.

Lemma bool_text_of u b : wrap U8 u = b2z b ->
  bool_text u = if b then [84; 114; 117; 101] else [70; 97; 108; 115; 101].
Proof. intros H. unfold bool_text, arg. rewrite H. now destruct b. Qed.

Lemma bool_write E u b stack : constants E -> wrap U8 u = b2z b ->
  write E CBool u stack = Done (if b then [84; 114; 117; 101] else [70; 97; 108; 115; 101]) stack.
Proof.
  intros C H. unfold write. cbn [run_body console_body passed]. rewrite (bool_text_of u b H).
  destruct (C (if b then [84; 114; 117; 101] else [70; 97; 108; 115; 101])) as [R T];
    [destruct b; cbn [library_texts In]; tauto|].
  rewrite (string_write E _ _ stack R T). now destruct b.
Qed.

Lemma write_spec E v u stack : constants E -> holds E v u -> no_nul v ->
  exists s, write E (type_of v) u stack = Done s stack /\ text_of E v s.
Proof.
  intros C H N. destruct v as [[s|]|c|t z|b|b|b]; cbn [holds no_nul type_of text_of] in *.
  - destruct H as [R T]. exists s. split; [|reflexivity]. unfold write. cbn [run_body console_body passed].
    rewrite (string_write E u s stack R T), app_nil_r, (until_nul_id s N). reflexivity.
  - subst u. exists []. split; reflexivity.
  - eexists. split; [eapply one_call; reflexivity |]. now rewrite <- H.
  - exists (show (wrap t u)). split; [apply int_write|]. rewrite <- H. apply show_wrap.
  - eexists. split; [|reflexivity]. rewrite <- H.
    eapply one_call; reflexivity.
  - eexists. split; [|reflexivity]. rewrite <- H.
    eapply one_call; reflexivity.
  - eexists. split; [exact (bool_write E u b stack C H)|]. now destruct b.
Qed.

Lemma line_spec E v u stack : constants E -> holds E v u -> no_nul v -> line_ok v ->
  exists s, write_line E (type_of v) u stack = Done (s ++ [10]) stack /\ text_of E v s.
Proof.
  intros C H N K. destruct v as [[s|]|c|t z|b|b|b]; cbn [holds no_nul type_of text_of line_ok] in *; try contradiction.
  - destruct H as [R T]. exists s. split; [|reflexivity]. unfold write_line. cbn [run_body console_body passed].
    rewrite (string_line E u s stack R T), app_nil_r, (until_nul_id s N). reflexivity.
  - exists [c]. split; [|reflexivity]. rewrite <- H. eapply one_call; reflexivity.
  - exists (show (wrap t u)). split; [|rewrite <- H; apply show_wrap].
    apply int_line. intros ->. exact K.
  - eexists. split; [|reflexivity]. rewrite <- H.
    eapply one_call; reflexivity.
  - eexists. split; [|reflexivity]. rewrite <- H.
    eapply one_call; reflexivity.
Qed.

Lemma empty_line E stack : constants E -> write_empty_line E stack = Done [10] stack.
Proof.
  intros C. unfold write_empty_line. cbn [run_body console_empty_line passed].
  destruct (C [10]) as [R T]; [cbn [library_texts In]; tauto|]. now rewrite (string_write E _ _ stack R T).
Qed.

Lemma u64_line E u stack : write_line E (CInt U64) u stack = write E (CInt U64) u stack.
Proof. reflexivity. Qed.

Lemma null_line E stack : write_line E CString 0 stack = Done [] stack.
Proof. reflexivity. Qed.

Lemma bool_line E u b stack : constants E -> wrap U8 u = b2z b ->
  write_line E CBool u stack =
    Done ((if b then [84; 114; 117; 101] else [70; 97; 108; 115; 101]) ++ [13; 10]) stack.
Proof.
  intros C H. unfold write_line. cbn [run_body console_body passed]. rewrite (bool_text_of u b H).
  destruct (C (if b then [84; 114; 117; 101] else [70; 97; 108; 115; 101])) as [R T];
    [destruct b; cbn [library_texts In]; tauto|].
  rewrite (string_write E _ _ stack R T).
  destruct (C [13; 10]) as [R' T']; [cbn [library_texts In]; tauto|]. rewrite (string_write E _ _ stack R' T'). now destruct b.
Qed.

(** *** Math *)

Lemma cmp_same c t x y : in_range t x -> in_range t y -> cpp_cmp c t t x y = 
  match c with Gt => y <? x | Ge => y <=? x | Lt => x <? y | Le => x <=? y
  | Eq => x =? y | Ne => negb (x =? y) end.
Proof.
  intros HX HY. unfold cpp_cmp. rewrite !wrap_id; [reflexivity | |];
    unfold in_range, tmin, tmax in *; destruct t; cbn in *; lia.
Qed.

Lemma cmp_zero c t x : is_signed t = true -> in_range t x -> cpp_cmp c t I32 x 0 =
  match c with Gt => 0 <? x | Ge => 0 <=? x | Lt => x <? 0 | Le => x <=? 0
  | Eq => x =? 0 | Ne => negb (x =? 0) end.
Proof.
  intros G HX. unfold cpp_cmp. rewrite !wrap_id; [reflexivity | |];
    unfold in_range, tmin, tmax in *; destruct t; try discriminate G; cbn in *; lia.
Qed.

Lemma vm_same c t x y : in_range t x -> in_range t y -> 
  vm_binary (Cmp c) (Vi t, x) (Vi t, y) = VmVal (Vb, b2z (cpp_cmp c t t x y)).
Proof. intros _ _. unfold vm_binary. destruct (cpp_cmp c t t x y) eqn:E; destruct t, c; cbn -[cpp_cmp]; rewrite E; reflexivity. Qed.

Lemma vm_zero c t x : is_signed t = true ->
  vm_binary (Cmp c) (Vi t, x) (Vi I32, 0) = VmVal (Vb, b2z (cpp_cmp c t I32 x 0)).
Proof.
  intros G. unfold vm_binary. destruct (cpp_cmp c t I32 x 0) eqn:E; destruct t; try discriminate G;
    destruct c; cbn -[cpp_cmp]; rewrite E; reflexivity.
Qed.

Lemma max_spec t x y : in_range t x -> in_range t y -> math_max t x y = Some (Z.max x y).
Proof.
  intros HX HY. unfold math_max, max_body. cbn [meval]. rewrite vm_same, cmp_same by assumption.
  destruct (Z.ltb_spec y x); cbn [b2z Z.eqb meval returned]; rewrite wrap_id by assumption; f_equal; lia.
Qed.

Lemma min_spec t x y : in_range t x -> in_range t y -> math_min t x y = Some (Z.min x y).
Proof.
  intros HX HY. unfold math_min, min_body. cbn [meval]. rewrite vm_same, cmp_same by assumption.
  destruct (Z.ltb_spec x y); cbn [b2z Z.eqb meval returned]; rewrite wrap_id by assumption; f_equal; lia.
Qed.

Lemma sign_spec t x : is_signed t = true -> in_range t x -> math_sign t x = Some (Z.sgn x).
Proof.
  intros G HX. unfold math_sign. assert (B : sign_body t = sign_body I8) by (destruct t; easy). rewrite B.
  cbn [sign_body meval]. rewrite !vm_zero, !cmp_zero by assumption.
  destruct (Z.ltb_spec 0 x); [cbn; f_equal; lia|]. cbn [b2z Z.eqb].
  destruct (Z.ltb_spec x 0); cbn; f_equal; lia.
Qed.

Lemma minus_spec t x : is_signed t = true -> in_range t x -> x <> tmin t -> exists u,
  vm_unary Minus (Vi t, x) = VmVal (Vi u, - x).
Proof.
  intros G R N. exists (promote t). unfold vm_unary, unitary_operator. cbn [fst].
  assert (Q : get_unitary_vtype Minus (Vi t) = Some (Vi (promote t))) by (destruct t; easy).
  rewrite Q. cbn [cpp_unary].
  assert (A : in_range (promote t) x /\ in_range (promote t) (- x)).
  { unfold in_range, tmin, tmax in *. destruct t; try discriminate G; cbn in *; lia. }
  destruct A as [A B]. rewrite (wrap_id _ x A). rewrite (fit_in_range _ _ B).
  cbn [bind vm_of vcast]. now rewrite (wrap_id _ _ B).
Qed.

Lemma abs_spec t x : is_signed t = true -> in_range t x -> x <> tmin t -> math_abs t x = Some (Z.abs x).
Proof.
  intros G HX N. destruct (minus_spec t x G HX N) as [u M].
  assert (A : in_range t (Z.abs x)).
  { unfold in_range, tmin, tmax in *. destruct t; try discriminate G; cbn in *; lia. }
  unfold math_abs. destruct t; try discriminate G; cbn [abs_body meval];
    rewrite vm_zero, cmp_zero by assumption; destruct (Z.ltb_spec x 0);
    cbn [b2z Z.eqb]; rewrite ?M; cbn [returned];
    rewrite ?wrap_id; try assumption; f_equal; try lia;
    replace (- x) with (Z.abs x) by lia; try assumption; rewrite ?wrap_id; assumption.
Qed.

Lemma query1 E name d f a rest v : look name declared = Some d -> target_of name = Native f ->
  param_units d = 1%nat -> ret_units d = 1%nat -> run_func E f [a] = Some ([], [filled E I32 v]) ->
  in_range I32 v -> exists u, call E name (a :: rest) = Done [] (u :: rest) /\ wrap I32 u = v.
Proof.
  intros D T P Q R V. exists (filled E I32 v). split; [exact (native1 E name d f a rest [] _ D T P Q R)|].
  now apply wrap_filled.
Qed.

Lemma queries E a d rest :
  (in_range I32 (e_rank E a) ->
     exists u, call E "Array_GetRank" (a :: rest) = Done [] (u :: rest) /\ wrap I32 u = e_rank E a) /\
  (in_range I32 (e_length E a) ->
     exists u, call E "Array_GetLength" (a :: rest) = Done [] (u :: rest) /\ wrap I32 u = e_length E a) /\
  (in_range I32 (e_dim E a (wrap I32 d)) ->
     exists u, call E "Array_GetLengthOfDimension" (d :: a :: rest) = Done [] (u :: rest) /\
               wrap I32 u = e_dim E a (wrap I32 d)) /\
  (in_range I32 (e_count E a) ->
     exists u, call E "Tuple_GetCount" (a :: rest) = Done [] (u :: rest) /\ wrap I32 u = e_count E a) /\
  call E "Reflection_GetType" (a :: rest) = Done [] (e_type E a :: rest).
Proof.
  split; [intros H; eapply query1; try reflexivity; exact H|].
  split; [intros H; eapply query1; try reflexivity; exact H|].
  split; [|split; [intros H; eapply query1; try reflexivity; exact H | eapply native1; reflexivity]].
  intros H. exists (filled E I32 (e_dim E a (wrap I32 d))). split; [|now apply wrap_filled].
  eapply (native2 _ _ _ _ a d); reflexivity.
Qed.

Lemma type_name E t rest : call E "Reflection_GetTypeName" (t :: rest) = Done [] (e_object E :: rest).
Proof. eapply native1; reflexivity. Qed.

Lemma tuple_element E t o i rest : call E "Tuple_Get" (i :: o :: t :: rest) = Done [] (t :: rest).
Proof.
  exact (call_args E "Tuple_Get" _ _ [t; o; i] rest [] [t; o; i] eq_refl eq_refl eq_refl eq_refl).
Qed.

Lemma until_nul_cut s t : ~ In 0 s -> until_nul (s ++ 0 :: t) = s.
Proof.
  induction s as [|c s IH]; [reflexivity|]. intros N. cbn [until_nul app].
  destruct (Z.eqb_spec c 0) as [->|]; [exfalso; apply N; now left|].
  rewrite IH; [reflexivity|]. intros H. apply N. now right.
Qed.

Lemma cut_write E u s t stack : holds E (VString (Some (s ++ 0 :: t))) u -> ~ In 0 s ->
  write E CString u stack = Done s stack /\ write_line E CString u stack = Done (s ++ [10]) stack.
Proof.
  intros [R T] N. split.
  - unfold write. cbn [run_body console_body passed].
    rewrite (string_write E u _ stack R T), app_nil_r, (until_nul_cut s t N). reflexivity.
  - unfold write_line. cbn [run_body console_body passed].
    rewrite (string_line E u _ stack R T), app_nil_r, (until_nul_cut s t N). reflexivity.
Qed.
