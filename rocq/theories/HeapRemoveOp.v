(** removeChild as a whole. *)
From Coq Require Import List Arith NArith Bool Lia ZifyBool ZifyNat ZifyN.
From Verif Require Import Base HeapModel HeapSpec HeapInv HeapExec HeapTree HeapSplice HeapLoops HeapEdit HeapAttach HeapInsert HeapFrame HeapOps.
Import ListNotations.
Local Open Scope dom_scope.

Definition remove_log (p c : id) (t : rose) : list event :=
  log_removed p c t ++ log_removed p c t ++ [EvSubtree p; EvSubtree p].

Section RemoveChild.
  Variables (s : st) (ch : id -> list id) (p c : id).
  Let h := s_heap s.
  Hypothesis WF : wf s ch.
  Hypothesis Lp : live h p.
  Hypothesis Lc : exists n, h c = Some n /\ n_type n <> ATTRIBUTE /\ no_wrap n.

  Lemma remove_child_spec0 : forall t, repr h t -> root t = c ->
    exists o, first_failure (remove_checks h p c) o /\
    match o with
    | Some e => remove_child p c s = Exc e s
    | None => exists h', remove_child p c s = Ok c (withh (addlog s (remove_log p c t)) h') /\
           wf (withh s h') (fun j => without c (ch j)) /\ edited h h' None c
    end.
  Proof.
    intros t Rt Et. destruct Lp as (np & Hp). destruct Lc as (nc & Hc & TA & NW).
    destruct WF as (WL & WT & WO & WR). fold h in WL, WT, WO, WR.
    assert (TYc : type_of h c = Some (n_type nc)) by (unfold type_of; rewrite Hc; auto).
    assert (TYp : type_of h p = Some (n_type np)) by (unfold type_of; rewrite Hp; auto).
    unfold remove_child. step (load_ok s p np Hp). step (load_ok s c nc Hc).
    unfold remove_checks. rewrite TYc, TYp.
    destruct (ntype_eqb (n_type np) DOCUMENT && (ntype_eqb (n_type nc) DOCTYPE || ntype_eqb (n_type nc) ELEMENT)) eqn:NSU.
    { rewrite andb_true_iff, orb_true_iff, !ntype_eqb_eq in NSU. exists (Some NOT_SUPPORTED_ERR). split; [|reflexivity].
      constructor. destruct NSU as [A [B|B]]; rewrite A, B; auto. }
    assert (X1 : ~ (Some (n_type np) = Some DOCUMENT /\ (Some (n_type nc) = Some DOCTYPE \/ Some (n_type nc) = Some ELEMENT))).
    { intros [A B]. rewrite andb_false_iff, orb_false_iff, !ntype_eqb_neq in NSU. destruct B as [B|B]; inversion A; inversion B; intuition. }
    cbn [negb check]. rewrite bind_ret.
    destruct (oid_eqb (n_parent nc) (Some p)) eqn:PC.
    2:{ exists (Some NOT_FOUND_ERR). split; [|reflexivity]. apply ff_skip; auto. constructor.
        apply oid_eqb_neq in PC. unfold parent_of. rewrite Hc. auto. }
    apply oid_eqb_eq in PC.
    assert (X4 : ~ parent_of h c <> Some p) by (unfold parent_of; rewrite Hc; auto).
    cbn [check]. rewrite bind_ret.
    destruct (readonly_ok s ch WL WT p Lp) as (ro & ERO & BRO). step ERO.
    destruct ro. { exists (Some NO_MODIFICATION_ALLOWED_ERR). split; [|reflexivity]. do 2 (apply ff_skip; auto). constructor. apply BRO; auto. }
    assert (X3 : ~ read_only h p) by (intros X; apply BRO in X; discriminate). clear BRO ERO.
    cbn [negb check]. rewrite bind_ret.
    exists None. split. { do 3 (apply ff_skip; auto). constructor. }
    assert (IC : In c (ch p)). { destruct (wt_parent _ _ WT _ _ _ Hc PC) as (m & _ & Q & _). apply Q; auto. }
    pose proof (not_spent_parent _ _ WT WO _ _ _ Hp IC) as NS.
    destruct (parent_doc _ _ WT WO _ _ Hp NS) as (d & nd & Op & Hd & Td). { intros T. apply X3. exists np. auto. }
    rewrite Op.
    destruct (achain_ex s ch WL WT p Lp) as (l & AC & LL).
    assert (CE : change_event (Some d) c (Some p) REMOVAL s = Ok tt (addlog s (log_removed p c t))).
    { apply (change_event_ok d nd c p REMOVAL s t l); auto.
      - apply (achain_cons _ c nc); auto. rewrite PC. auto.
      - eapply repr_nodup; eauto.
      - pose proof (repr_size _ _ _ WL WT _ Rt). unfold fuel_of. lia. }
    step CE. set (s0 := addlog s (log_removed p c t)).
    assert (WF0 : wf s0 ch) by (apply wf_addlog; auto).
    destruct (detach_wf0 s0 ch WF0 p c nc Hc TA PC t Rt Et) as (h4 & d2 & nd2 & a & b & DE & Hd2 & Td2 & Od2 & CQ & SP & WL1 & WT1 & WO1 & R1 & R2).
    step DE. set (s1 := withh _ h4).
    destruct (sp_some _ _ _ _ _ _ _ _ _ _ SP _ _ Hc) as (nc1 & Hc1 & C1 & C2 & C3 & C4 & C5 & C6 & C7 & C8 & C9).
    destruct (sp_data _ _ _ _ _ _ _ _ _ _ SP _ _ _ Hc Hc1) as ((_ & _ & _ & _ & CR & _) & _).
    assert (MC : mem c [c] = true) by (apply mem_in; left; auto). rewrite MC in *.
    destruct (sp_some _ _ _ _ _ _ _ _ _ _ SP _ _ Hp) as (np1 & Hp1 & _ & _ & _ & _ & _ & _ & P7 & _).
    destruct (sp_some _ _ _ _ _ _ _ _ _ _ SP _ _ Hd) as (nd1 & Hd1 & _).
    assert (NW1 : no_wrap nc1) by (unfold no_wrap in *; congruence).
    assert (E1 : node_ref c s1 = Ok tt (withh s1 (hmod h4 c ref_up))) by exact (node_ref_ok s1 c nc1 Hc1).
    step E1. set (h5 := hmod h4 c ref_up). set (s2 := withh s1 h5).
    assert (Hc2 : h5 c = Some (ref_up nc1)) by (unfold h5; rewrite hmod_same, Hc1; auto).
    assert (E2 : try_destroy c s2 = Ok tt s2).
    { unfold try_destroy, with_fuel, try_destroy_with. step (load_ok s2 c _ Hc2).
      change (n_parent (ref_up nc1)) with (n_parent nc1). change (n_pending (ref_up nc1)) with (n_pending nc1).
      rewrite C3, C8. rewrite ref_up_val by auto. destruct (N.eqb_spec (n_ref nc1 + 1) 0); [lia|]. reflexivity. }
    step E2.
    assert (Hp2 : exists m, h5 p = Some m /\ n_owner m = Some d).
    { unfold h5. eexists. split; [eapply hmod_get; eauto|]. simpl in P7. destruct (Nat.eqb p c); simpl; congruence. }
    destruct Hp2 as (np2 & Hp2 & Op2).
    assert (Hd3 : exists m, h5 d = Some m) by (unfold h5; eexists; eapply hmod_get; eauto). destruct Hd3 as (nd3 & Hd3).
    step (load_ok s2 p np2 Hp2). rewrite Op2.
    assert (E3 : subtree_event (Some d) p s2 = Ok tt (addlog s2 [EvSubtree p])).
    { unfold subtree_event. rewrite (bind_ok _ _ _ _ _ _ _ _ (deref_ok d _)).
      erewrite bind_ok; [|apply load_ok; exact Hd3]. reflexivity. }
    step E3. exists h5. split; [|split].
    - unfold s2, s1, s0, remove_log, addlog, withh, ret. cbn [s_heap s_nxt s_log]. f_equal. f_equal.
      rewrite <- !app_assoc. reflexivity.
    - pose proof (same_struct_hmod h4 c ref_up struct_eq_ref_up) as SS.
      unfold wf. rewrite withh_heap, withh_nxt. split; [eapply same_wfL; eauto|]. split; [eapply same_wfT; eauto|].
      split; [eapply same_wfO; eauto|]. constructor.
      + intros i m Hi Pi Ti. destruct (hmod_inv _ _ _ _ _ Hi) as (m0 & M & E). destruct (Nat.eqb_spec i c).
        * subst m i. assert (m0 = nc1) by congruence; subst. rewrite ref_up_val by auto. lia.
        * subst m. destruct (R1 _ _ M Pi Ti) as [X|X]; auto. contradiction.
      + intros i m Hi Ti. destruct (hmod_inv _ _ _ _ _ Hi) as (m0 & M & E). destruct (Nat.eqb_spec i c).
        * subst m i. assert (m0 = nc1) by congruence; subst. left. rewrite ref_up_val by auto. lia.
        * subst m. exact (R2 _ _ M Ti).
    - exact (edited_spliced _ _ _ _ _ _ _ _ _ _ c nc SP (fun x m (F : In x []) _ => match F with end) Hc NW).
  Qed.
End RemoveChild.

Lemma remove_child_spec : forall s ch p c, wf s ch -> live (s_heap s) p ->
  (exists n, s_heap s c = Some n /\ n_type n <> ATTRIBUTE) -> held (s_heap s) c ->
  forall t, repr (s_heap s) t -> root t = c ->
    exists o, first_failure (remove_checks (s_heap s) p c) o /\
    match o with
    | Some e => remove_child p c s = Exc e s
    | None => exists h', remove_child p c s = Ok c (withh (addlog s (remove_log p c t)) h') /\
           wf (withh s h') (fun j => without c (ch j)) /\ edited (s_heap s) h' None c
    end.
Proof.
  intros s ch p c W Lp (n & Hc & TA) (m & Hm & _ & NW). assert (m = n) by congruence; subst m.
  apply remove_child_spec0; eauto.
Qed.
