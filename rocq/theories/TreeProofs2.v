(** Dropping references, cycles, and the document's root, over whole histories. *)
From Coq Require Import List Arith NArith Bool Lia ZifyBool ZifyNat ZifyN.
From Verif Require Import Base HeapModel HeapSpec HeapInv HeapExec HeapTree HeapSplice HeapLoops HeapEdit HeapAttach HeapInsert HeapFrame
  HeapOps HeapReplace HeapReplaceOp HeapRemoveOp HeapDestroy HeapGut HeapUnref HeapCreate HistModel HistProofs TreeSpec TreeProofs HeapAttrNode.
Import ListNotations.
Local Open Scope dom_scope.

Lemma dies_ref_down : forall h i j, dies (hmod h i ref_down) i j <-> dies h i j.
Proof.
  intros h i j. split; intros D; induction D; try constructor.
  - destruct (Nat.eq_dec j i) as [->|NE]; [constructor|]. rewrite hmod_other in H by auto. econstructor; eauto.
  - destruct (Nat.eq_dec j i) as [->|NE]; [constructor|]. econstructor; eauto. rewrite hmod_other by auto. auto.
Qed.

Lemma orphaned_ref_down : forall h i j, parent_of h i = None -> (orphaned (hmod h i ref_down) i j <-> orphaned h i j).
Proof.
  intros h i j P. unfold orphaned. split; intros (n & p & A & B & C & D).
  - destruct (hmod_inv _ _ _ _ _ A) as (m & M & E). destruct (Nat.eqb_spec j i).
    + subst. exfalso. unfold parent_of in P. rewrite M in P. destruct m; simpl in *; congruence.
    + subst n. exists m, p. rewrite dies_ref_down in D. auto.
  - assert (NE : j <> i). { intros ->. unfold parent_of in P. rewrite A in P. congruence. }
    exists n, p. rewrite hmod_other, dies_ref_down by auto. auto.
Qed.

Lemma classic_unref : forall o, (exists i, o = OUnref i) \/ (forall i, o <> OUnref i).
Proof. intros []; try (right; discriminate). left; eauto. Qed.

Section Unref.
  Variables (k : nat) (s : st) (g : client).
  Hypothesis R : reach k s g.
  Hypothesis SH : short (S k).
  Let h := s_heap s.

  Lemma unref_full : forall i, holds g i ->
    exists s', node_unref i s = Ok tt s' /\ reach (S k) s' (lose g i) /\ s_log s' = s_log s /\
      ((owns g i > 1)%N \/ parent_of h i <> None ->
         forall j n, h j = Some n -> s_heap s' j = Some (if Nat.eqb j i then set_ref (owns g i - 1) n else n)) /\
      (owns g i = 1%N -> parent_of h i = None ->
         (forall j n, h j = Some n -> n_type n <> DOCUMENT -> dies h i j -> s_heap s' j = None) /\
         (forall j n, h j = Some n -> orphaned h i j -> s_heap s' j = Some (set_pending true (set_parent None n))) /\
         (forall j n, h j = Some n -> n_type n <> DOCUMENT -> ~ dies h i j -> ~ orphaned h i j -> s_heap s' j = Some n) /\
         (forall d nd, h d = Some nd -> n_type nd = DOCUMENT -> (owns (lose g i) d > 0)%N ->
            exists q, s_heap s' d = Some (set_pend q nd)) /\
         (forall j l, children h j l -> live (s_heap s') j -> j <> i -> children (s_heap s') j l) /\
         (live (s_heap s') i -> children (s_heap s') i [])) /\
      (forall j, h j = None -> s_heap s' j = None).
  Proof.
    intros i H. destruct (reach_good _ _ _ R (short_pred _ SH)) as [[ch W] AG].
    destruct (holds_live _ _ _ AG SH _ H) as (n & A & B & C).
    assert (RB : (n_ref n < two32)%N). { unfold no_wrap, two32 in *. lia. }
    destruct (unref_spec s ch i n W A B RB) as (h' & ch' & E & W' & Q).
    exists (withh s h'). split; auto.
    assert (R' : reach (S k) (withh s h') (lose g i)).
    { apply (reach_call k s g (OUnref i) OutNothing); auto. unfold exec. erewrite bind_ok by exact E. reflexivity. }
    split; auto. split; [reflexivity|]. change (s_heap (withh s h')) with h'. fold h in A.
    pose proof (ag_ref _ _ _ AG _ _ A) as RF. pose proof W as (WL & WT & WO & WR).
    assert (DOWN : ref_down n = set_ref (owns g i - 1) n).
    { pose proof (ref_down_val n B RB) as V. change (u32 (n_ref n + (two32 - 1)) = n_ref n - 1)%N in V. unfold ref_down. rewrite V, RF. reflexivity. }
    assert (OWN : forall p, parent_of h i = p -> n_parent n = p). { intros p. unfold parent_of. rewrite A. auto. }
    destruct ((1 <? n_ref n)%N || negb (is_none (n_parent n))) eqn:BR.
    - destruct Q as [-> ->]. split; [|split].
      + intros _ j m J. erewrite hmod_get by exact J. destruct (Nat.eqb_spec j i); auto. subst.
        assert (m = n) by (unfold h in *; congruence). subst. rewrite DOWN. auto.
      + intros O1 P1. exfalso. apply OWN in P1. rewrite P1 in BR. simpl in BR. rewrite orb_false_r in BR. lia.
      + intros j J. apply hmod_none. auto.
    - apply orb_false_iff in BR. destruct BR as [B1 B2]. apply negb_false_iff in B2.
      assert (P0 : n_parent n = None) by (destruct (n_parent n); auto; discriminate).
      assert (P1 : parent_of h i = None) by (unfold parent_of; rewrite A; auto).
      destruct Q as [R1 R2 R3 R4 R5 R6]. fold h in R1, R2, R3, R4, R5.
      split; [|split].
      + intros [O|O]; [lia|contradiction].
      + intros O1 _.
        assert (HM : forall j m, h j = Some m -> j <> i -> hmod h i ref_down j = Some m). { intros. rewrite hmod_other; auto. }
        assert (HI : hmod h i ref_down i = Some (ref_down n)). { rewrite hmod_same, A. auto. }
        assert (NI : forall j, orphaned h i j -> j <> i). { intros j (m & p & X & Y & _) ->. congruence. }
        split; [|split; [|split; [|split; [|split]]]].
        * intros j m J T D. destruct (Nat.eq_dec j i) as [->|NE].
          -- eapply R1; [constructor|exact HI|]. assert (m = n) by congruence; subst. destruct n; auto.
          -- eapply R1; eauto. apply dies_ref_down; auto.
        * intros j m J O. apply R2; auto. apply orphaned_ref_down; auto.
        * intros j m J T ND NO. destruct (Nat.eq_dec j i) as [->|NE]. { exfalso. apply ND. constructor. }
          apply R3; auto. { rewrite dies_ref_down; auto. } rewrite orphaned_ref_down; auto.
        * intros d nd D T O. cbn [lose owns] in O. destruct (Nat.eqb_spec d i); [subst; lia|].
          assert (RD : n_ref nd = owns g d) by (apply (ag_ref _ _ _ AG); auto).
          destruct (R5 _ _ (HM _ _ D n0) T) as [[X Y]|(nd' & X1 & X2 & X3 & X4)]; [lia|].
          exists (n_pend nd'). rewrite X1. f_equal. apply X4; auto. lia.
        * intros j l L LV NE. pose proof W' as (_ & WT' & _). apply (wfT_children _ _ WT'); auto.
          apply (wfT_children _ _ WT) in L; [|eapply children_live; eauto]. subst l. symmetry. apply R6; auto. destruct LV; congruence.
        * intros LV. pose proof W' as (_ & WT' & WO' & WR'). apply (wfT_children _ _ WT'); auto. destruct LV as [n' LV].
          assert (TD : n_type n = DOCUMENT).
          { destruct (ntype_eqb (n_type n) DOCUMENT) eqn:TD; [apply ntype_eqb_eq; auto|]. apply ntype_eqb_neq in TD.
            exfalso. assert (Z : h' i = None). { eapply R1; [constructor|exact HI|]. destruct n; auto. } change (h' i = Some n') in LV. congruence. }
          destruct (R5 _ _ HI) as [[X Y]|(nd' & X1 & X2 & X3 & X4)]. { destruct n; auto. } { change (h' i = Some n') in LV. congruence. }
          destruct (wr_doc _ _ WR' _ _ X1 X2) as [Z|[_ Z]]; auto.
          rewrite X3, DOWN in Z. change (owns g i - 1 > 0)%N in Z. lia.
      + intros j J. apply R4. apply hmod_none. auto.
  Qed.

  (** A legal call other than dropping a reference frees nothing. *)
  Lemma others_free_nothing : forall o r s', legal s g o -> exec o s = Ok r s' -> (forall i, o <> OUnref i) ->
    forall j, live h j -> live (s_heap s') j.
  Proof.
    intros o r s' L E NU j LJ. destruct (reach_good _ _ _ R (short_pred _ SH)) as [[ch W] AG].
    assert (GR : forall h' i n0 d, grown h h' i n0 d -> live h' j).
    { intros h' i n0 d G. destruct LJ as [m M]. destruct (gr_fwd _ _ _ _ _ G _ _ M) as (_ & n' & X & _). exists n'; auto. }
    assert (GT : forall v s2, got s s2 v -> live (s_heap s2) j).
    { intros [v|] s2 G; simpl in G. - destruct G as (n & _ & ->). apply hmod_live. auto. - subst; auto. }
    assert (NO : forall m v, exec o = nodes_out m -> (exists s2, m s = Ok v s2 /\ got s s2 v) -> live (s_heap s') j).
    { intros m v EX (s2 & M & G). rewrite EX in E. unfold nodes_out in E. erewrite bind_ok in E by exact M. inversion E; subst. eauto. }
    destruct o.
    - destruct (create_document_spec s ch W) as (h' & X & W' & G). unfold exec, node_out in E. erewrite bind_ok in E by exact X. inversion E; subst. eauto.
    - destruct (create_doctype_spec s ch name value None None W) as (h' & X & W' & G). unfold exec, node_out in E. erewrite bind_ok in E by exact X. inversion E; subst. eauto.
    - destruct L as (H & T & TN). destruct (holds_live _ _ _ AG SH _ H) as (nd & A & _).
      assert (TD : n_type nd = DOCUMENT). { unfold type_of in T. rewrite A in T. simpl in T. congruence. }
      destruct (create_node_spec s ch d nd t name value ns prefix W A TD TN) as (h' & X & W' & G).
      unfold exec, node_out in E. erewrite bind_ok in E by exact X. inversion E; subst. eauto.
    - destruct (insert_full k s g R SH p c r0 L) as ([e|] & _ & Q).
      + unfold exec, node_out in E. erewrite bind_exc in E by exact Q. discriminate.
      + destruct Q as (s2 & X & _ & _ & [LV _] & _). unfold exec, node_out in E. erewrite bind_ok in E by exact X. inversion E; subst. apply LV; auto.
    - assert (L' : legal s g (OInsert p c None)). { destruct L as (L1 & L2 & L3). repeat (split; auto); discriminate. }
      destruct (insert_full k s g R SH p c None L') as ([e|] & _ & Q).
      + unfold exec, node_out, append_child in E. erewrite bind_exc in E by exact Q. discriminate.
      + destruct Q as (s2 & X & _ & _ & [LV _] & _). unfold exec, node_out, append_child in E. erewrite bind_ok in E by exact X. inversion E; subst. apply LV; auto.
    - destruct (replace_full k s g R SH p c old L) as ([e|] & _ & Q).
      + unfold exec, node_out in E. erewrite bind_exc in E by exact Q. discriminate.
      + destruct Q as (s2 & X & _ & _ & [LV _] & _). unfold exec, node_out in E. erewrite bind_ok in E by exact X. inversion E; subst. apply LV; auto.
    - destruct (remove_full k s g R SH p c L) as ([e|] & _ & Q).
      + unfold exec, node_out in E. erewrite bind_exc in E by exact Q. discriminate.
      + destruct Q as (s2 & X & _ & _ & _ & [LV _] & _). unfold exec, node_out in E. erewrite bind_ok in E by exact X. inversion E; subst. apply LV; auto.
    - destruct (holds_live _ _ _ AG SH _ L) as (n & A & _). unfold exec in E. erewrite bind_ok in E; [|eapply node_ref_ok; exact A].
      inversion E; subst. apply hmod_live. auto.
    - exfalso. eapply NU; eauto.
    - destruct (holds_live _ _ _ AG SH _ L) as (n & A & _). eapply NO; [reflexivity|]. apply (get_parent_ok s ch W i n A).
    - destruct (holds_live _ _ _ AG SH _ L) as (n & A & _). eapply NO; [reflexivity|]. apply (get_first_ok s ch W i n A).
    - destruct (holds_live _ _ _ AG SH _ L) as (n & A & _). eapply NO; [reflexivity|]. apply (get_last_ok s ch W i n A).
    - destruct L as [L NS]. destruct (holds_live _ _ _ AG SH _ L) as (n & A & _).
      unfold exec, nodes_out, get_previous_sibling in E. rewrite bind_assoc in E. rewrite (bind_ok _ _ _ _ _ _ _ _ (load_ok _ _ _ A)) in E.
      destruct (ntype_eqb (n_type n) ATTRIBUTE). { rewrite bind_ret in E. inversion E; subst; auto. }
      unfold ref_opt in E. destruct (n_prev n) as [v|]; [|rewrite bind_ret in E; inversion E; subst; auto].
      destruct (s_heap s v) as [nv|] eqn:V.
      + erewrite bind_ok in E; [|erewrite bind_ok; [|eapply node_ref_ok; exact V]; reflexivity]. inversion E; subst. apply hmod_live; auto.
      + unfold bind, node_ref, upd in E. rewrite V in E. discriminate.
    - destruct L as [L NS]. destruct (holds_live _ _ _ AG SH _ L) as (n & A & _).
      unfold exec, nodes_out, get_next_sibling in E. rewrite bind_assoc in E. rewrite (bind_ok _ _ _ _ _ _ _ _ (load_ok _ _ _ A)) in E.
      destruct (ntype_eqb (n_type n) ATTRIBUTE). { rewrite bind_ret in E. inversion E; subst; auto. }
      unfold ref_opt in E. destruct (n_next n) as [v|]; [|rewrite bind_ret in E; inversion E; subst; auto].
      destruct (s_heap s v) as [nv|] eqn:V.
      + erewrite bind_ok in E; [|erewrite bind_ok; [|eapply node_ref_ok; exact V]; reflexivity]. inversion E; subst. apply hmod_live; auto.
      + unfold bind, node_ref, upd in E. rewrite V in E. discriminate.
    - destruct (usable_ok _ _ _ AG SH _ L) as [(n & A & B) _]. eapply NO; [reflexivity|]. apply (get_owner_ok s ch W i n A B).
    - destruct (holds_live _ _ _ AG SH _ L) as (n & A & _). unfold exec, bool_out in E. erewrite bind_ok in E by (eapply has_child_ok; eauto).
      inversion E; subst; auto.
    - destruct L as [L1 L2]. destruct (holds_live _ _ _ AG SH _ L1) as (n & A & _). destruct (holds_live _ _ _ AG SH _ L2) as (m & B & _).
      destruct (contains_ok s ch W i j0 n m A B) as (b & X & _). unfold exec, bool_out in E. erewrite bind_ok in E by exact X. inversion E; subst; auto.
    - destruct L as (L1 & L2 & TE & TA & PE & _). destruct (holds_live _ _ _ AG SH _ L1) as (ne & A & _). destruct (holds_live _ _ _ AG SH _ L2) as (na & B & _).
      unfold type_of, parent_of in TE, TA, PE. rewrite A in TE. rewrite B in TA, PE. cbn in TE, TA, PE.
      destruct (set_attribute_node_spec s ch e a ne na W A B ltac:(congruence) ltac:(congruence) PE)
        as [[_ X]|[(_ & _ & X)|[(_ & _ & _ & X)|(_ & _ & P0 & h' & d & l & X & Od & OW & W')]]]; unfold exec in E.
      1-3: erewrite bind_exc in E by exact X; discriminate.
      erewrite bind_ok in E by exact X. inversion E; subst. rewrite withh_heap.
      destruct LJ as [m M]. exists (own e a d j m). apply (ow_some _ _ _ _ _ OW); auto.
  Qed.

  Lemma dies_unheld : forall i j a, parent_of h i = None -> dies h i j -> anc h a j -> a = i \/ exists n, h a = Some n /\ n_ref n = 0%N.
  Proof.
    intros i j a P D. induction D; intros A.
    - inversion A; subst; auto. unfold parent_of in P. rewrite H in P. congruence.
    - inversion A; subst. { right; eauto. } assert (n0 = n) by congruence; subst. assert (p0 = p) by congruence; subst. auto.
  Qed.

  (** Whatever is below a node the client still owns survives every call. *)
  Lemma subtree_survives : forall o r s' i j, legal s g o -> exec o s = Ok r s' ->
    (owns (account s o r g) i > 0)%N -> live h i -> anc h i j -> live h j -> live (s_heap s') j.
  Proof.
    intros o r s' i j L E O LI A LJ. destruct (classic_unref o) as [[x ->]|NU].
    2:{ eapply others_free_nothing; eauto. }
    destruct (unref_full x L) as (s2 & X & _ & _ & Q1 & Q2 & _). unfold exec in E. erewrite bind_ok in E by exact X. inversion E; subst s2 r; clear E.
    cbn [account] in O. destruct LJ as [n J].
    destruct (reach_good _ _ _ R (short_pred _ SH)) as [[ch W] AG]. pose proof W as (WL & WT & WO & WR).
    assert (CASE : (owns g x > 1)%N \/ parent_of h x <> None \/ (owns g x = 1%N /\ parent_of h x = None)).
    { simpl in L. unfold holds in L. destruct (parent_of h x); [right; left; discriminate|]. assert ((owns g x > 1)%N \/ owns g x = 1%N) by lia. tauto. }
    unfold live. destruct CASE as [CA|[CA|[CA CB]]]; [rewrite (Q1 (or_introl CA) _ _ J)|rewrite (Q1 (or_intror CA) _ _ J)|]; try (eexists; reflexivity).
    destruct (Q2 CA CB) as (U1 & U2 & U3 & U4 & U5 & U6).
    assert (NX : i <> x). { intros ->. cbn [lose owns] in O. rewrite Nat.eqb_refl in O. lia. }
    destruct LI as [ni I].
    assert (RI : (n_ref ni > 0)%N). { rewrite (ag_ref _ _ _ AG _ _ I). cbn [lose owns] in O. apply Nat.eqb_neq in NX. rewrite NX in O. lia. }
    destruct (ntype_eqb (n_type n) DOCUMENT) eqn:TD.
    - apply ntype_eqb_eq in TD. destruct (wo_doc _ _ WO _ _ J TD) as (_ & PN & _).
      assert (i = j). { inversion A; subst; auto. congruence. } subst j.
      destruct (U4 _ _ J TD O) as (q & Z). rewrite Z. eexists; reflexivity.
    - apply ntype_eqb_neq in TD.
      assert (ND : ~ dies h x j). { intros D. destruct (dies_unheld _ _ _ CB D A) as [Z|(m & Z1 & Z2)]; [contradiction|]. assert (m = ni) by congruence; subst. lia. }
      destruct (orph_dec h ch x j n WT J) as [OO|OO].
      + rewrite (U2 _ _ J OO). eexists; reflexivity.
      + rewrite (U3 _ _ J TD ND OO). eexists; reflexivity.
  Qed.
End Unref.
