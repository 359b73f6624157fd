(** A small environment for the theorems about the system library. *)
From Coq Require Import String Ascii.
From Coq Require Import List Bool ZArith Lia.
From Verif Require Import CppInt ArithModel LibModel LibSpec.
Import ListNotations.
Open Scope Z_scope.


(* The texts of the library at 1 to 4, "hi" at 7, a text with a NUL at 8. *)
Definition toy : env :=
  mk_env (fun u => if u =? 7 then Some [104; 105] else if u =? 8 then Some [97; 0; 98]
                   else if u =? 1 then Some [84; 114; 117; 101]
                   else if u =? 2 then Some [70; 97; 108; 115; 101]
                   else if u =? 3 then Some [10]
                   else if u =? 4 then Some [13; 10] else None)
    (fun s => match s with 84 :: _ => 1 | 70 :: _ => 2 | 10 :: _ => 3 | _ => 4 end)
    (fun b => [b]) (fun b => [b])
    (fun a => a + 1) (fun a => a + 2) (fun a d => a + d) (fun o => o + 5) (fun t => t + 6) 99
    (fun m x => match m with Sin => x + 1 | Cos => x + 2 | _ => x end) (fun x y => x - y) 77.

Lemma toy_constants : constants toy.
Proof.
  intros s H. unfold library_texts in H. cbn [In] in H.
  destruct H as [<-|[<-|[<-|[<-|[]]]]]; (split; [cbn; lia | reflexivity]).
Qed.
