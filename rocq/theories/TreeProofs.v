(** From the invariant to the tree properties. *)
From Coq Require Import List Arith NArith Bool Lia ZifyBool ZifyNat ZifyN.
From Verif Require Import Base HeapModel HeapSpec HeapInv HeapExec HeapTree HeapSplice HeapLoops HeapEdit HeapAttach HeapInsert HeapFrame
  HeapOps HeapReplace HeapReplaceOp HeapRemoveOp HeapDestroy HeapGut HeapUnref HeapCreate HistModel HistProofs TreeSpec.
Import ListNotations.
Local Open Scope dom_scope.

Section Reached.
  Variables (k : nat) (s : st) (g : client).
  Hypothesis R : reach k s g.

  Lemma lists_consistent : short k -> forall p, live (s_heap s) p -> exists l, consistent_children (s_heap s) p l.
  Proof.
    intros SH p L. destruct (reach_good _ _ _ R SH) as [[ch (WL & WT & WO & WR)] AG]. exists (ch p). apply wfT_consistent; auto.
  Qed.

  Lemma parents_end : short k -> forall i, live (s_heap s) i -> exists r, anc (s_heap s) r i /\ live (s_heap s) r /\ parent_of (s_heap s) r = None.
  Proof.
    intros SH i L. destruct (reach_good _ _ _ R SH) as [[ch (WL & WT & WO & WR)] AG].
    apply (wt_rooted _ _ WT) in L. clear - L. induction L.
    - exists i. split; [constructor|]. split; [exists n; auto|]. unfold parent_of. rewrite H. auto.
    - destruct IHL as (r & A & B & C). exists r. split; auto. econstructor; eauto.
  Qed.

  Lemma no_cycle : short k -> forall i p, parent_of (s_heap s) i = Some p -> ~ anc (s_heap s) i p.
  Proof.
    intros SH i p P A. destruct (reach_good _ _ _ R SH) as [[ch (WL & WT & WO & WR)] AG].
    unfold parent_of in P. destruct (s_heap s i) as [n|] eqn:H; [|discriminate].
    refine (anc_proper_neq (s_heap s) i n p i _ H P A eq_refl). apply (wt_rooted _ _ WT). exists n; auto.
  Qed.

  Lemma types_nest : short k -> forall c p nc np, s_heap s c = Some nc -> n_parent nc = Some p -> s_heap s p = Some np ->
    n_type nc <> ATTRIBUTE -> nests (n_type np) (n_type nc).
  Proof.
    intros SH c p nc np H P Hp TA. destruct (reach_good _ _ _ R SH) as [[ch (WL & WT & WO & WR)] AG].
    destruct (wt_parent _ _ WT _ _ _ H P) as (m & A & B & C). assert (m = np) by congruence; subst. apply nests_iff. apply B. auto.
  Qed.

  Lemma held_alive : short k -> forall i, (owns g i > 0)%N -> exists n, s_heap s i = Some n /\ n_ref n = owns g i.
  Proof.
    intros SH i H. destruct (reach_good _ _ _ R SH) as [[ch W] AG]. destruct (s_heap s i) as [n|] eqn:E.
    - exists n. split; auto. apply (ag_ref _ _ _ AG); auto.
    - pose proof (ag_dead _ _ _ AG _ E). lia.
  Qed.

  Lemma never_stuck : short (S k) -> forall o, legal s g o ->
    (exists r s', exec o s = Ok r s' /\ reach (S k) s' (account s o r g)) \/ (exists e, exec o s = Exc e s).
  Proof.
    intros SH o L. destruct (reach_good _ _ _ R (short_pred _ SH)) as [[ch W] AG].
    destruct (legal_steps k s g ch W AG SH o L) as [(r & s' & E & G)|E]; auto. left. exists r, s'. split; auto.
    econstructor; eauto.
  Qed.

  Lemma fail_atomic : short (S k) -> forall o e s', legal s g o -> exec o s = Exc e s' -> s' = s.
  Proof.
    intros SH o e s' L E. destruct (never_stuck SH o L) as [(r & s2 & X & _)|(e' & X)]; congruence.
  Qed.

  Lemma doc_alive : short k -> forall i n d, s_heap s i = Some n -> used g i = false -> n_owner n = Some d ->
    exists nd, s_heap s d = Some nd /\ n_type nd = DOCUMENT.
  Proof.
    intros SH i n d H U O. destruct (reach_good _ _ _ R SH) as [[ch (WL & WT & WO & WR)] AG].
    destruct (wo_owner _ _ WO _ _ _ H O) as [X|[X _]]; auto. rewrite (ag_used _ _ _ AG _ _ H X) in U. discriminate.
  Qed.

  Lemma doc_needed : short k -> forall d nd, s_heap s d = Some nd -> n_type nd = DOCUMENT ->
    (owns g d > 0)%N \/ (exists i n, s_heap s i = Some n /\ n_owner n = Some d /\ n_parent n = None /\ (owns g i > 0)%N).
  Proof.
    intros SH d nd H T. destruct (reach_good _ _ _ R SH) as [[ch (WL & WT & WO & WR)] AG].
    destruct (wr_doc _ _ WR _ _ H T) as [X|[X _]].
    - left. rewrite <- (ag_ref _ _ _ AG _ _ H). auto.
    - right. destruct (n_pend nd) as [|i q] eqn:Q; [congruence|].
      destruct (wo_pend _ _ WO d nd i H) as (n & A & B & C). { rewrite Q. left; auto. }
      exists i, n. destruct (wo_pending _ _ WO _ _ A C) as [P _]. repeat split; auto.
      rewrite <- (ag_ref _ _ _ AG _ _ A). apply (wr_top _ _ WR _ _ A P). intros TD. destruct (wo_doc _ _ WO _ _ A TD) as (_ & _ & X1 & _). congruence.
  Qed.

  Lemma contains_ancestor : short k -> forall i j, holds g i -> holds g j ->
    exists b, contains i j s = Ok b s /\ (b = true <-> anc (s_heap s) i j).
  Proof.
    intros SH i j Hi Hj. destruct (held_alive SH i Hi) as (n & A & _). destruct (held_alive SH j Hj) as (m & B & _).
    destruct (reach_good _ _ _ R SH) as [[ch W] AG]. destruct (contains_ok s ch W i j n m A B) as (b & E & Q).
    exists b. split; auto. rewrite Q. split; [tauto|]. intros AN. split; auto.
    destruct W as (WL & WT & WO & WR). clear - A B AN WT WO. revert m B. induction AN; intros m B. { congruence. }
    assert (m = n0) by congruence; subst. destruct (wt_parent _ _ WT _ _ _ H H0) as (np & C & _).
    rewrite (IHAN _ C). symmetry. eapply (wo_child _ _ WO); eauto.
  Qed.

  Lemma anc_antisym : short k -> forall i j, live (s_heap s) i -> anc (s_heap s) i j -> anc (s_heap s) j i -> i = j.
  Proof.
    intros SH i j L A B. destruct A; auto. exfalso. apply (no_cycle SH i0 p).
    - unfold parent_of. rewrite H. auto.
    - eapply anc_trans; eauto.
  Qed.
End Reached.

(** ** Edits *)

Lemma pre_desc : forall t, pre t = root t :: desc t.
Proof. destruct t; reflexivity. Qed.

Lemma repr_children : forall h t, repr h t -> children h (root t) (map root (kids t)).
Proof.
  intros h [i ats ks] R. apply repr_inv in R. destruct R as (n & A & B & C & D & E & F & _).
  exists n. split; auto. rewrite B. eapply seg_fwd; eauto.
Qed.

Lemma repr_order : forall h t, repr h t -> order h (root t) (root t :: desc t).
Proof.
  intros h t. induction t using rose_ind2; intros R. pose proof (repr_children _ _ R) as C.
  apply repr_inv in R. destruct R as (n & A & _ & _ & _ & _ & _ & _ & _ & RK). cbn [root kids] in *.
  unfold desc. cbn [kids]. rewrite flat_map_concat_map. constructor 1 with (l := map root ks); auto.
  clear C A. induction ks as [|x ks]; simpl; constructor.
  - inversion RK; inversion H0; subst. rewrite pre_desc. auto.
  - inversion RK; inversion H0; subst. auto.
Qed.

Lemma kids_ch : forall h ch t, wfT h ch -> repr h t -> map root (kids t) = ch (root t).
Proof.
  intros h ch t WT R. pose proof (repr_children _ _ R) as C. apply (wfT_children _ _ WT) in C; auto.
  destruct C as (n & A & _). exists n; auto.
Qed.

Lemma fragmentb_eq : forall h c, fragmentb h c = true <-> type_of h c = Some FRAGMENT.
Proof. intros h c. unfold fragmentb. destruct (type_of h c) as [[]|]; split; congruence. Qed.

Lemma edited_content : forall h h' gone x, edited h h' gone x -> same_content h h' x.
Proof.
  intros h h' gone x E. split.
  - intros j. split.
    + intros [n H]. destruct (ed_some _ _ _ _ E _ _ H) as (n' & A & _). exists n'; auto.
    + intros [n' H]. destruct (h j) as [n|] eqn:Q; [exists n; auto|]. rewrite (ed_none _ _ _ _ E _ Q) in H. discriminate.
  - intros j n n' H H'. destruct (ed_some _ _ _ _ E _ _ H) as (m & A & B1 & B2 & B3 & B4 & B5 & B6 & B7 & B8 & B9 & B10 & B11).
    assert (m = n') by congruence; subst m. repeat (split; auto).
Qed.

Lemma children_live : forall h j l, children h j l -> live h j.
Proof. intros h j l (n & H & _). exists n; auto. Qed.

Section Edits.
  Variables (k : nat) (s : st) (g : client).
  Hypothesis R : reach k s g.
  Hypothesis SH : short (S k).
  Let h := s_heap s.

  Lemma insert_full : forall p c r, legal s g (OInsert p c r) ->
    exists o, first_failure (insert_checks h p c r) o /\
    match o with
    | Some e => insert_before p c r s = Exc e s
    | None => exists s', insert_before p c r s = Ok c s' /\ reach (S k) s' (account s (OInsert p c r) (OutNode (Some c)) g) /\
        (forall lp lc j l, children h p lp -> children h c lc -> children h j l ->
           children (s_heap s') j (after_insert h p c r lp lc j l)) /\
        same_content h (s_heap s') c /\
        exists evs, insert_events h p c r evs /\ s_log s' = s_log s ++ evs
    end.
  Proof.
    intros p c r L. pose proof L as (Up & Uc & Lr & NF).
    destruct (reach_good _ _ _ R (short_pred _ SH)) as [[ch W] AG].
    destruct (usable_ok _ _ _ AG SH _ Up) as [P1 P2]. destruct (usable_ok _ _ _ AG SH _ Uc) as [C1 C2].
    pose proof C2 as (nc & Hc & C3 & C4). destruct (tree_of s ch W _ _ Hc) as (t & Rt & Et).
    assert (LR : forall i, r = Some i -> exists n, s_heap s i = Some n /\ n_type n <> ATTRIBUTE).
    { intros i E. destruct (Lr _ E) as [A B]. destruct (plain_ok _ _ _ AG SH _ A B) as (n & X & Y & _). eauto. }
    destruct (insert_before_spec s ch p c r W P1 C1 LR C2 P2 t Rt Et) as (oe & FF & Q).
    exists oe. split; auto. destruct oe as [e|]; auto.
    pose proof W as (WL & WT & WO & WR). fold h in WT, WO, WR, WL, Hc, Rt, Q.
    destruct Q as [[F _]|(F & h' & E & W' & ED)].
    - exfalso. destruct F as [T (x & I & NM)]. apply NM. apply (NF T (ch c)); auto. apply (wfT_children _ _ WT); auto. exists nc; auto.
    - exists (withh (addlog s (insert_log h p c r t)) h'). split; auto.
      split. { econstructor; eauto. unfold exec, node_out. erewrite bind_ok by exact E. reflexivity. }
      split; [|split; [eapply edited_content; eauto|]].
      + intros lp lc j l Lp Lc Lj. pose proof W' as (_ & WT' & _).
        assert (LV : live h' j). { destruct (proj1 (edited_content _ _ _ _ ED) j) as [X _]. apply X. eapply children_live; eauto. }
        change (s_heap (withh (addlog s (insert_log h p c r t)) h')) with h'. apply (wfT_children _ _ WT'); auto.
        apply (wfT_children _ _ WT) in Lp; [|eapply children_live; eauto].
        apply (wfT_children _ _ WT) in Lc; [|eapply children_live; eauto].
        apply (wfT_children _ _ WT) in Lj; [|eapply children_live; eauto]. subst lp lc l.
        unfold after_insert, inserted, fragmentb. destruct (oid_eqb r (Some c)); auto.
        destruct (type_of h c) as [[]|]; auto.
      + exists (insert_log h p c r t). split; [|reflexivity]. unfold insert_log.
        pose proof (repr_order _ _ Rt) as OR. rewrite Et in OR.
        destruct (oid_eqb r (Some c)) eqn:RC. { apply oid_eqb_eq in RC. constructor; auto. } apply oid_eqb_neq in RC.
        destruct (ntype_eqb (n_type nc) FRAGMENT) eqn:TF.
        * apply ntype_eqb_eq in TF. assert (TY : type_of h c = Some FRAGMENT). { unfold type_of. rewrite Hc. simpl. congruence. }
          rewrite TY. pose proof (repr_children _ _ Rt) as CC. rewrite Et in CC.
          destruct (kids t) as [|k0 ks] eqn:KT.
          { apply ie_frag_empty; auto. }
          assert (EQ : flat_map (log_inserted p) (k0 :: ks) =
            concat (map (fun q => enters p (fst q) (snd q)) (combine (map root (k0 :: ks)) (map desc (k0 :: ks))))).
          { rewrite flat_map_concat_map. f_equal. clear. induction (k0 :: ks); simpl; auto. f_equal; auto. }
          rewrite EQ. apply ie_frag; auto. { discriminate. }
          assert (RK : Forall (repr h) (k0 :: ks)).
          { destruct t as [i ats ks']. simpl in KT. subst ks'. apply repr_inv in Rt. destruct Rt as (n & _ & _ & _ & _ & _ & _ & _ & _ & RK). exact RK. }
          clear - RK. induction RK; simpl; constructor; auto. apply repr_order; auto.
        * apply ntype_eqb_neq in TF. assert (TY : type_of h c <> Some FRAGMENT). { unfold type_of. rewrite Hc. simpl. congruence. }
          assert (EQ : forall A (x y : A), (match type_of h c with Some FRAGMENT => x | _ => y end) = y).
          { intros A x y. destruct (type_of h c) as [[]|]; auto; congruence. }
          rewrite EQ. unfold log_inserted. rewrite Et. destruct (parent_of h c) as [q|] eqn:PC.
          -- apply ie_move; auto.
          -- apply ie_new; auto.
  Qed.

  Lemma replace_full : forall p c old, legal s g (OReplace p c old) ->
    exists o, first_failure (replace_checks h p c old) o /\
    match o with
    | Some e => replace_child p c old s = Exc e s
    | None => exists s', replace_child p c old s = Ok old s' /\ reach (S k) s' (account s (OReplace p c old) (OutNode (Some old)) g) /\
        (forall lp lc j l, children h p lp -> children h c lc -> children h j l ->
           children (s_heap s') j (after_replace h p c old lp lc j l)) /\
        same_content h (s_heap s') old /\
        (forall q, parent_of h c = Some q -> c <> old -> exists ds, order h c (c :: ds) /\ s_log s' = s_log s ++ leaves q c ds ++ [EvSubtree q]) /\
        (parent_of h c = None -> s_log s' = s_log s)
    end.
  Proof.
    intros p c old L. pose proof L as (Up & Uc & Ho & Po & NF).
    destruct (reach_good _ _ _ R (short_pred _ SH)) as [[ch W] AG].
    destruct (usable_ok _ _ _ AG SH _ Up) as [P1 P2]. destruct (usable_ok _ _ _ AG SH _ Uc) as [C1 C2].
    pose proof C2 as (nc & Hc & C3 & C4). destruct (tree_of s ch W _ _ Hc) as (t & Rt & Et).
    pose proof (plain_ok _ _ _ AG SH _ Ho Po) as LO. pose proof W as (WL & WT & WO & WR).
    assert (NE : type_of (s_heap s) c = Some FRAGMENT -> ch c <> []).
    { intros T E. apply (NF T). apply (wfT_children _ _ WT); auto. exists nc; auto. }
    destruct (replace_child_spec s ch p c old W P1 C1 LO C2 P2 NE t Rt Et) as (oe & FF & Q).
    exists oe. split; auto. destruct oe as [e|]; auto.
    fold h in WT, WO, WR, WL, Hc, Rt, Q. destruct Q as (h' & E & W' & ED).
    exists (withh (addlog s (replace_log h c old t)) h'). split; auto.
    split. { econstructor; eauto. unfold exec, node_out. erewrite bind_ok by exact E. reflexivity. }
    split; [|split; [eapply edited_content; eauto|split]].
    - intros lp lc j l Lp Lc Lj. pose proof W' as (_ & WT' & _).
      assert (LV : live h' j). { destruct (proj1 (edited_content _ _ _ _ ED) j) as [X _]. apply X. eapply children_live; eauto. }
      change (s_heap (withh (addlog s (replace_log h c old t)) h')) with h'. apply (wfT_children _ _ WT'); auto.
      apply (wfT_children _ _ WT) in Lp; [|eapply children_live; eauto].
      apply (wfT_children _ _ WT) in Lc; [|eapply children_live; eauto].
      apply (wfT_children _ _ WT) in Lj; [|eapply children_live; eauto]. subst lp lc l.
      unfold after_replace, replaced, fragmentb. destruct (Nat.eqb c old); auto.
      destruct (type_of h c) as [[]|]; auto.
    - intros q PC CO. exists (desc t). split. { rewrite <- Et. apply repr_order; auto. }
      cbn [withh addlog s_log]. unfold replace_log. apply Nat.eqb_neq in CO. rewrite CO, PC. reflexivity.
    - intros PC. cbn [withh addlog s_log]. unfold replace_log. rewrite PC. destruct (Nat.eqb c old); apply app_nil_r.
  Qed.

  Lemma remove_full : forall p c, legal s g (ORemove p c) ->
    exists o, first_failure (remove_checks h p c) o /\
    match o with
    | Some e => remove_child p c s = Exc e s
    | None => exists s', remove_child p c s = Ok c s' /\ reach (S k) s' (account s (ORemove p c) (OutNode (Some c)) g) /\
        (forall j l, children h j l -> children (s_heap s') j (without c l)) /\
        parent_of (s_heap s') c = None /\
        same_content h (s_heap s') c /\
        exists ds, order h c (c :: ds) /\
          s_log s' = s_log s ++ leaves p c ds ++ leaves p c ds ++ [EvSubtree p; EvSubtree p]
    end.
  Proof.
    intros p c L. pose proof L as (Hp & Hc' & Pc).
    destruct (reach_good _ _ _ R (short_pred _ SH)) as [[ch W] AG].
    destruct (plain_ok _ _ _ AG SH _ Hc' Pc) as (nc & Hc & C2 & C3). destruct (holds_live _ _ _ AG SH _ Hc') as (m & M1 & M2 & M3).
    assert (m = nc) by congruence; subst m. destruct (holds_live _ _ _ AG SH _ Hp) as (np & P1 & _).
    destruct (tree_of s ch W _ _ Hc) as (t & Rt & Et). pose proof W as (WL & WT & WO & WR).
    destruct (remove_child_spec s ch p c W (ex_intro _ np P1) (ex_intro _ nc (conj Hc C2))) with (t := t) as (oe & FF & Q); auto.
    { exists nc. split; auto. split; auto. lia. }
    exists oe. split; auto. destruct oe as [e|]; auto.
    fold h in WT, WO, WR, WL, Hc, Rt, Q. destruct Q as (h' & E & W' & ED).
    exists (withh (addlog s (remove_log p c t)) h'). split; auto.
    split. { econstructor; eauto. unfold exec, node_out. erewrite bind_ok by exact E. reflexivity. }
    change (s_heap (withh (addlog s (remove_log p c t)) h')) with h'. pose proof W' as (_ & WT' & _).
    split; [|split; [|split; [eapply edited_content; eauto|]]].
    - intros j l Lj. assert (LV : live h' j). { destruct (proj1 (edited_content _ _ _ _ ED) j) as [X _]. apply X. eapply children_live; eauto. }
      apply (wfT_children _ _ WT'); auto. apply (wfT_children _ _ WT) in Lj; [|eapply children_live; eauto]. subst l. reflexivity.
    - destruct (ed_some _ _ _ _ ED _ _ Hc) as (n' & A & B1 & _). unfold parent_of. rewrite A.
      destruct (n_parent n') as [q|] eqn:PQ; auto. exfalso.
      destruct (wt_parent _ _ WT' _ _ _ A PQ) as (nq & _ & X & _). destruct X as [X _]. { congruence. }
      apply filter_In in X. destruct X as [_ X]. rewrite Nat.eqb_refl in X. discriminate.
    - exists (desc t). split. { rewrite <- Et. apply repr_order; auto. } reflexivity.
  Qed.
End Edits.
