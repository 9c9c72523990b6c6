(** The circular list of list nodes: walking, adding and removing. *)
From Coq Require Import List Arith NArith Bool Lia ZifyBool ZifyNat ZifyN.
From Verif Require Import Base RingModel RingSpec RingProofs AttrModel.
Import ListNotations.
Local Open Scope dom_scope.

Definition cyc (r : rheap) (l : list nat) : Prop := match l with [] => True | h :: t => ring r h t end.

Lemma cyc_nodup : forall r l, cyc r l -> NoDup l.
Proof. intros r [|h t] C; [constructor|]. apply C. Qed.

Lemma cyc_frame : forall r r' l, cyc r l -> (forall j, In j l -> r' j = r j) -> cyc r' l.
Proof. intros r r' [|h t] C E; auto. eapply ring_frame; eauto. Qed.

Lemma ring_rotate : forall r h b t, ring r h (b :: t) -> ring r b (t ++ [h]).
Proof.
  intros r h b t [N C]. split.
  - change (h :: b :: t) with ([h] ++ b :: t) in N. change (b :: t ++ [h]) with ((b :: t) ++ [h]).
    apply NoDup_app.
    + inversion N; auto. + constructor; [intros []|constructor].
    + intros x I [<-|[]]. inversion N; auto.
  - change (linked r h b /\ chain r ((b :: t) ++ [h])) in C. destruct C as [L C].
    assert (G : chain r ((b :: t) ++ h :: [b])) by (apply chain_app; split; [exact C|simpl; auto]).
    rewrite <- app_assoc. exact G.
Qed.

Lemma cyc_next : forall r h t c l2 l1, h :: t = l1 ++ c :: l2 -> cyc r (h :: t) ->
  exists x, r c = Some x /\ snd x = Some (hd h l2).
Proof.
  intros r h t c l2 l1 E [N C]. assert (C' : chain r ((l1 ++ c :: l2) ++ [h])) by (rewrite <- E; exact C).
  rewrite <- app_assoc in C'. simpl in C'. apply chain_app in C' as [_ C']. destruct l2 as [|d l2]; simpl in C'; destruct C' as [[(x & A & B) _] _]; exists x; auto.
Qed.

Lemma cyc_append : forall r h t e ce, cyc r (h :: t) -> r e = Some ce -> ~ In e (h :: t) ->
  exists r', list_append h e r = Ok tt r' /\ cyc r' ((h :: t) ++ [e]) /\ (forall j, ~ In j (h :: e :: t) -> r' j = r j).
Proof. intros r h t e ce C H N. destruct (append_ok r h t e ce C H N) as (r' & A & B & D). exists r'. auto. Qed.

Lemma del_self : forall r e, r e = Some (Some e, Some e) ->
  exists r', list_del e r = Ok tt r' /\ (forall j, j <> e -> r' j = r j).
Proof.
  intros r e H. unfold list_del. rewrite (rbind_ok _ _ _ _ _ _ _ _ (rload_ok _ _ _ H)). cbn [fst snd].
  rewrite (rbind_ok _ _ _ _ _ _ _ _ (rstore_ok _ _ _ _ H)).
  rewrite (rbind_ok _ _ _ _ _ _ _ _ (rload_ok _ _ _ (rset_same _ _ _))). cbn [fst snd set_rnext].
  rewrite (rbind_ok _ _ _ _ _ _ _ _ (rstore_ok _ _ _ _ (rset_same _ _ _))).
  rewrite (rbind_ok _ _ _ _ _ _ _ _ (rstore_ok _ _ _ _ (rset_same _ _ _))).
  rewrite (rstore_ok _ _ _ _ (rset_same _ _ _)). eexists. split; [reflexivity|]. intros j J. rewrite !rset_other; auto.
Qed.

Lemma cyc_del : forall r l1 c l2, cyc r (l1 ++ c :: l2) ->
  exists r', list_del c r = Ok tt r' /\ cyc r' (l1 ++ l2) /\ (forall j, ~ In j (l1 ++ c :: l2) -> r' j = r j).
Proof.
  intros r [|h l1] c l2 C.
  - simpl in *. destruct l2 as [|b l2].
    + destruct C as [N [[(x & A & B) (y & A' & B')] _]]. assert (x = y) by congruence; subst y.
      destruct (del_self r c) as (r' & D & F). { destruct x as [p n]. cbn [fst snd] in B, B'. subst p n. exact A. }
      exists r'. split; [exact D|]. split; [exact I|]. intros j J. apply F. intros ->. apply J. left; auto.
    + apply ring_rotate in C. destruct (del_ok r b l2 c [] C) as (r' & D & R & _ & F). rewrite app_nil_r in R.
      exists r'. split; auto. split; auto. intros j J. apply F. intros I. apply J. simpl in *. rewrite in_app_iff in I. simpl in I. tauto.
  - simpl in *. destruct (del_ok r h l1 c l2 C) as (r' & D & R & _ & F). exists r'. split; auto.
Qed.

Lemma nodup_bound : forall n (l : list nat), NoDup l -> (forall x, In x l -> x < n) -> length l <= n.
Proof.
  intros n l N B. rewrite <- (seq_length n 0). apply NoDup_incl_length; auto. intros x I. apply in_seq. specialize (B x I). lia.
Qed.
