(** C50: the intrusive circular list is a sequence. *)
From Coq Require Import List Arith Bool.
From Verif Require Import Base RingModel RingSpec RingProofs.
Import ListNotations.

(** After any history of initialising heads and entries, appending single
    entries and deleting members, starting from any memory: every allowed call
    succeeds, each head holds exactly the sequence the history says, forwards
    and backwards, list_has answers membership (the head counts as a member),
    deleted entries are singletons, and no entry is in two lists. *)
Theorem C50_lists_are_sequences : forall h0 h q, lreach h0 h q ->
  (forall o, lallowed h q o -> exists h', lexec o h = Ok tt h') /\
  (forall a l, heads q a = Some l -> holds_list h a l /\
     forall e fuel, length (a :: l) <= fuel -> exists b, list_has fuel a e h = Ok b h /\ (b = true <-> In e (a :: l))) /\
  (forall e, single q e = true -> holds_list h e []) /\
  (forall a l b m x, heads q a = Some l -> heads q b = Some m -> In x (a :: l) -> In x (b :: m) -> a = b).
Proof. exact lists_are_sequences. Qed.
Print Assumptions C50_lists_are_sequences.

(** Non-vacuity: a list 0 gets 1, 2, 3 and loses 2. *)
Definition c50_memory : rheap := fun j => if Nat.leb j 3 then Some (None, None) else None.
Definition c50_ops : list lop := [LHead 0; LEntry 1; LEntry 2; LEntry 3; LAppend 0 1; LAppend 0 2; LAppend 0 3; LDel 2].
Example C50_case : heads (fold_left lmeans c50_ops no_seqs) 0 = Some [1; 3] /\
  match fold_left (fun m o => bind m (fun _ => lexec o)) c50_ops (ret tt) c50_memory with
  | Ok _ h => h 0 = Some (Some 3, Some 1) /\ h 1 = Some (Some 0, Some 3) /\ h 2 = Some (Some 2, Some 2) /\ h 3 = Some (Some 1, Some 0)
  | _ => False
  end.
Proof. vm_compute. repeat split. Qed.

(** The single steps, with the starting point of the deletion spelt out. *)
Example C50_reach : exists h q, lreach c50_memory h q /\ heads q 0 = Some [1; 2] /\ single q 3 = true /\ lallowed h q (LDel 1).
Proof.
  assert (F : forall q a, (forall x, heads q x = None \/ exists l, heads q x = Some l /\ ~ In a l) -> heads q a = None -> single q a = false -> ~ known q a).
  { intros q a H1 H2 H3 [K|[K|(x & l & K1 & K2)]]; try congruence. destruct (H1 x) as [E|(m & E & NI)]; [congruence|]. apply NI. congruence. }
  pose proof (lr_start c50_memory) as R0.
  assert (A0 : lallowed c50_memory no_seqs (LHead 0)) by (split; [discriminate|apply F; auto]).
  pose proof (lr_call _ _ _ (LHead 0) _ R0 A0 eq_refl) as R1.
  match type of R1 with lreach _ ?h ?q => assert (A1 : lallowed h q (LEntry 1)) end.
  { split; [discriminate|]. apply F; auto. intros [|x]; simpl; eauto. }
  pose proof (lr_call _ _ _ (LEntry 1) _ R1 A1 eq_refl) as R2.
  match type of R2 with lreach _ ?h ?q => assert (A2 : lallowed h q (LEntry 2)) end.
  { split; [discriminate|]. apply F; auto. intros [|x]; simpl; eauto. }
  pose proof (lr_call _ _ _ (LEntry 2) _ R2 A2 eq_refl) as R3.
  match type of R3 with lreach _ ?h ?q => assert (A3 : lallowed h q (LEntry 3)) end.
  { split; [discriminate|]. apply F; auto. intros [|x]; simpl; eauto. }
  pose proof (lr_call _ _ _ (LEntry 3) _ R3 A3 eq_refl) as R4.
  match type of R4 with lreach _ ?h ?q => assert (A4 : lallowed h q (LAppend 0 1)) by (split; [discriminate|reflexivity]) end.
  pose proof (lr_call _ _ _ (LAppend 0 1) _ R4 A4 eq_refl) as R5.
  match type of R5 with lreach _ ?h ?q => assert (A5 : lallowed h q (LAppend 0 2)) by (split; [discriminate|reflexivity]) end.
  pose proof (lr_call _ _ _ (LAppend 0 2) _ R5 A5 eq_refl) as R6.
  eexists; eexists. split; [exact R6|]. split; [reflexivity|]. split; [reflexivity|]. exists 0, [1; 2]. simpl. auto.
Qed.
