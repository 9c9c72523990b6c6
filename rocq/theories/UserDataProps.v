(** C46: user data. *)
From Coq Require Import List Arith NArith Bool.
From Verif Require Import Base UserDataModel UserDataSpec UserDataProofs.
Import ListNotations.

(** After any history, every call ends normally and gives back the data last set
    under the key, or nothing; other keys and nodes keep theirs. *)
Theorem C46_user_data_is_a_map : forall P s m o, ureach P s m -> exists s', uexec o s = Ok (ureturns m o) s'.
Proof. exact user_data_is_map. Qed.
(** Missing in the partial theorem: histories that remove data and give a handler
    while doing so. *)
Theorem C46_handlers_told_partial : forall s m o r s', ureach tidy_call s m -> uexec o s = Ok r s' -> exists ts, us_log s' = ts ++ us_log s /\ utells m o ts.
Proof. exact user_data_tells. Qed.

Fixpoint urun (os : list ucall) (s : ustate) : option (list (option nat) * ustate) :=
  match os with
  | [] => Some ([], s)
  | o :: r => match uexec o s with
              | Ok v s' => match urun r s' with Some (vs, s2) => Some (v :: vs, s2) | None => None end
              | _ => None
              end
  end.
Definition A : bytes := [97]%N. Definition B : bytes := [98]%N. Definition C : bytes := [99]%N.
Example C46_history :
  option_map (fun x => (fst x, us_log (snd x)))
    (urun [USet 1 A (Some 10) (Some 5); USet 1 B (Some 11) None; USet 1 C (Some 12) (Some 6); USet 2 A (Some 13) (Some 7); USet 1 B None None;
           USet 1 A (Some 14) (Some 8); UGet 1 A; UGet 1 B; UGet 1 C; UGet 2 A; UClone 1; UDelete 1; UGet 1 A; UGet 2 A] fresh_nodes) =
  Some ([None; None; None; None; Some 11; Some 10; Some 14; None; Some 12; Some 13; None; None; None; Some 13],
        [mkNotice UdDeleted 1 A (Some 14) 8; mkNotice UdDeleted 1 C (Some 12) 6; mkNotice UdCloned 1 A (Some 14) 8; mkNotice UdCloned 1 C (Some 12) 6]).
Proof. vm_compute. reflexivity. Qed.

(** Removing data that was never set, with a handler, leaves the handler behind:
    it is told of a deletion although nothing is set. *)
Theorem C46_handlers_told_refuted : exists s m s' t, ureach (fun _ => True) s m /\ (forall n k, m n k = None) /\
  uexec (UDelete 1) s = Ok None s' /\ us_log s' = t :: us_log s.
Proof.
  destruct (uexec (USet 1 A None (Some 5)) fresh_nodes) as [r s| |] eqn:E; [|vm_compute in E; discriminate..].
  exists s, (umeans no_data (USet 1 A None (Some 5))), (mkU (fun j => if Nat.eqb j 0 then None else us_heap s j) (us_fresh s) (fun m => if Nat.eqb m 1 then None else us_first s m) [mkNotice UdDeleted 1 A None 5]), (mkNotice UdDeleted 1 A None 5).
  split; [eapply ur_call; [apply ur_start|exact Logic.I|exact E]|]. split; [intros n k; cbn; destruct (Nat.eqb n 1 && bytes_eqb k A); auto|].
  assert (ES : s = match uexec (USet 1 A None (Some 5)) fresh_nodes with Ok _ s0 => s0 | _ => fresh_nodes end) by (rewrite E; auto).
  clear E. subst s. split; reflexivity.
Qed.

Definition user_data_theorems := (C46_user_data_is_a_map, C46_handlers_told_partial, C46_handlers_told_refuted).
Print Assumptions user_data_theorems.
