(** importNode keeps the heap invariant, copies the tree and leaves the rest alone. *)
From Coq Require Import List Arith NArith Bool Lia ZifyBool ZifyNat ZifyN.
From Verif Require Import Base HeapModel HeapSpec HeapInv HeapExec HeapTree HeapSplice HeapLoops HeapEdit HeapAttach HeapInsert HeapFrame
  HeapOps HeapDestroy HeapGut HeapUnref HeapCreate CharDataModel ContentModel ImportModel HeapContent HeapClone.
Import ListNotations.
Local Open Scope dom_scope.

(** Giving a node without parent a new last child and dropping one reference to it. *)
Lemma append_dup : forall s ch d nd j r nj ty, wf s ch -> s_heap s d = Some nd -> n_type nd = DOCUMENT -> top_copy s d ty r ->
  s_heap s j = Some nj -> n_parent nj = None -> n_type nj <> DOCUMENT -> n_owner nj = Some d -> ~ spent nj -> n_ref nj = 1%N -> ~ read_only (s_heap s) j ->
  ty <> FRAGMENT -> nests (n_type nj) ty -> r <> j ->
  exists sa s', try (append_child j r) s = Ok (inl r) sa /\ node_unref r sa = Ok tt s' /\
    s_nxt s' = s_nxt s /\ wf s' (fun x => if Nat.eqb x j then ch j ++ [r] else ch x) /\
    (forall x n, s_heap s x = Some n -> x <> r -> exists n', s_heap s' x = Some n' /\ core_eq n n' /\ n_parent n' = n_parent n /\
        (n_owner n' = n_owner n \/ n_owner n = None) /\ (n_pending n = true -> n_pending n' = true)) /\
    (forall x, s_heap s x = None -> s_heap s' x = None) /\
    (exists m m', s_heap s r = Some m /\ s_heap s' r = Some m' /\ field_eq m m' /\ n_attrs m' = n_attrs m /\ n_ref m' = 1%N).
Proof.
  intros s ch d nd j r nj ty W Hd Td (m & Hr & Pr & Rr & Tr & Or & Qr & Nr) Hj Pj Tj Oj NS Rj RO TF NE RJ.
  pose proof W as (WL & WT & WO & WR).
  destruct (tree_exists _ _ _ WL WT r) as (t & Rt & Et). { exists m; auto. }
  assert (NIN : forall q, ~ In r (ch q)).
  { intros q I. destruct (wt_child _ _ WT _ _ I) as (a & b & A1 & A2 & A3 & A4 & _). congruence. }
  destruct (insert_before_spec s ch j r None) with (t := t) as (o & FF & Q); auto.
  { exists nj; auto. } { exists m. split; auto. intros [X _]. congruence. } { discriminate. }
  { exists m. split; auto. split; [lia|unfold no_wrap, two32; lia]. } { exists nj. split; auto. split; [lia|unfold no_wrap, two32; lia]. }
  assert (o = None).
  { destruct o as [e|]; auto. exfalso. unfold insert_checks in FF.
    inversion FF as [|P1 e1 r1 X|P1 e1 r1 o1 _ F1]; subst.
    { destruct X as [X _]. unfold owner_of in X. rewrite Hr, Hj in X. apply X. congruence. }
    inversion F1 as [|P2 e2 r2 X|P2 e2 r2 o2 _ F3]; subst. { contradiction. }
    inversion F3 as [|P3 e3 r3 X|P3 e3 r3 o3 _ F4]; subst. { destruct X as (i & X & _). discriminate. }
    inversion F4 as [|P4 e4 r4 X|P4 e4 r4 o4 _ F5]; subst.
    { inversion X as [|i a q A1 A2 A3]; subst; [contradiction|]. congruence. }
    inversion F5 as [|P5 e5 r5 X|P5 e5 r5 o5 _ F6]; subst.
    { destruct X as [_ X]. apply X. exists nj, m. split; [auto|]. split; [auto|]. split; [auto|congruence]. }
    inversion F6 as [|P6 e6 r6 X|P6 e6 r6 o6 _ F7]; subst.
    { destruct X as [_ (q & X & _)]. unfold parent_of in X. rewrite Hr in X. congruence. }
    inversion F7. }
  subst o. destruct Q as [[[X _] _]|[_ (h2 & E2 & W2 & ED)]].
  { unfold type_of in X. rewrite Hr in X. simpl in X. congruence. }
  set (ch2 := inserted (s_heap s) ch j r None) in *.
  assert (CH2 : forall x, ch2 x = if Nat.eqb x j then ch j ++ [r] else ch x).
  { intros x. unfold ch2, inserted, type_of. rewrite Hr. cbn [oid_eqb option_map]. rewrite Tr.
    assert (WJ : forall q, without r (ch q) = ch q) by (intros q; apply without_notin; auto).
    assert (Z : (if Nat.eqb x j then insert_at None [r] (without r (ch j)) else without r (ch x)) = (if Nat.eqb x j then ch j ++ [r] else ch x)).
    { rewrite !WJ. reflexivity. }
    destruct ty; try exact Z. congruence. }
  set (s2 := withh (addlog s (insert_log (s_heap s) j r None t)) h2) in *.
  assert (W2' : wf s2 ch2) by exact W2.
  destruct (ed_some _ _ _ _ ED _ _ Hr) as (m2 & H2r & D1 & D2 & D3 & D4 & D5 & D6 & D7 & D8 & D9 & D10 & D11).
  rewrite Nat.eqb_refl, Rr in D9. change (1 + 1)%N with 2%N in D9.
  assert (P2 : n_parent m2 = Some j).
  { destruct W2' as (_ & WT2 & _). destruct (wt_child _ _ WT2 j r) as (a & b & A1 & _ & _ & A2 & _).
    { rewrite CH2, Nat.eqb_refl. apply in_or_app. right; left; auto. } change (s_heap s2) with h2 in A1. congruence. }
  destruct (unref_spec s2 ch2 r m2 W2' H2r) as (h4 & ch4 & E4 & W4 & R4). { rewrite D9. reflexivity. } { rewrite D9. unfold two32. reflexivity. }
  rewrite D9 in R4. change (1 <? 2)%N with true in R4. cbn [orb] in R4. destruct R4 as [-> ->].
  change (s_heap s2) with h2 in *.
  set (s4 := withh s2 (hmod h2 r ref_down)) in *.
  assert (H4t : s_heap s4 r = Some (ref_down m2)). { change (s_heap s4) with (hmod h2 r ref_down). rewrite hmod_same, H2r. auto. }
  assert (RV : n_ref (ref_down m2) = 1%N). { rewrite ref_down_val; rewrite D9; [reflexivity|reflexivity|unfold two32; reflexivity]. }
  assert (H5o : forall x, x <> r -> s_heap s4 x = h2 x).
  { intros x X. change (s_heap s4) with (hmod h2 r ref_down). rewrite !hmod_other; auto. }
  assert (H5t : s_heap s4 r = Some (ref_down m2)).
  { change (s_heap s4) with (hmod h2 r ref_down). rewrite hmod_same, H2r. auto. }
  exists s2, s4. split. { unfold try, append_child. rewrite E2. reflexivity. }
  split; [exact E4|].
  split; [reflexivity|]. split.
  { eapply wf_ch_ext; [|exact W4]. exact CH2. }
  assert (WT2 : wfT h2 ch2) by (destruct W2' as (_ & ? & _); auto).
  split; [|split].
  - intros x n Hx NX. destruct (ed_some _ _ _ _ ED _ _ Hx) as (n' & A & B1 & B2 & B3 & B4 & B5 & B6 & B7 & B8 & B9 & B10 & B11).
    apply Nat.eqb_neq in NX as NX'. rewrite NX' in B9. exists n'. rewrite H5o by auto. split; auto. split; [repeat split; auto|]. split; [|split; auto].
    + destruct (ntype_eqb (n_type n) ATTRIBUTE) eqn:TA.
      * apply ntype_eqb_eq in TA.
        destruct (n_parent n) as [q|] eqn:P.
        -- destruct (wt_parent _ _ WT _ _ _ Hx P) as (nq & Q1 & _ & Q2). specialize (Q2 TA).
           destruct (ed_some _ _ _ _ ED _ _ Q1) as (nq' & Q1' & _ & Q3 & _). rewrite <- Q3 in Q2.
           destruct (wt_attrs _ _ WT2 _ _ Q1') as (_ & _ & Z). destruct (Z _ Q2) as (a & Z1 & _ & Z2). congruence.
        -- destruct (n_parent n') as [q|] eqn:P'; auto. exfalso.
           destruct (wt_parent _ _ WT2 _ _ _ A P') as (nq' & Q1' & _ & Q2). rewrite B1 in Q2. specialize (Q2 TA).
           destruct (s_heap s q) as [nq|] eqn:Q1. 2:{ rewrite (ed_none _ _ _ _ ED _ Q1) in Q1'. discriminate. }
           destruct (ed_some _ _ _ _ ED _ _ Q1) as (nq2 & Q1'' & _ & Q3 & _). assert (nq2 = nq') by congruence; subst. rewrite Q3 in Q2.
           destruct (wt_attrs _ _ WT _ _ Q1) as (_ & _ & Z). destruct (Z _ Q2) as (a & Z1 & _ & Z2). congruence.
      * apply ntype_eqb_neq in TA. destruct (n_parent n) as [q|] eqn:P.
        -- destruct (wt_parent _ _ WT _ _ _ Hx P) as (nq & Q1 & Q2 & _). destruct (Q2 TA) as [I _].
           destruct (wt_child _ _ WT2 q x) as (a & b & A1 & _ & _ & A2 & _).
           { rewrite CH2. destruct (Nat.eqb_spec q j) as [->|]; auto. apply in_or_app; auto. } congruence.
        -- destruct (n_parent n') as [q|] eqn:P'; auto. exfalso.
           destruct (wt_parent _ _ WT2 _ _ _ A P') as (nq' & Q1' & Q2 & _). rewrite B1 in Q2. destruct (Q2 TA) as [I _].
           assert (I' : In x (ch q)).
           { rewrite CH2 in I. destruct (Nat.eqb_spec q j) as [->|]; auto. apply in_app_or in I. destruct I as [I|[I|[]]]; auto. congruence. }
           destruct (wt_child _ _ WT _ _ I') as (a & b & A1 & _ & _ & A2 & _). congruence.
    + intros X. destruct (B11 X) as [Y|Y]; auto. congruence.
  - intros x Hx. destruct (Nat.eq_dec x r) as [->|NX]; [congruence|]. rewrite H5o by auto. apply (ed_none _ _ _ _ ED); auto.
  - exists m, (ref_down m2). split; auto. split; auto. split; [repeat split; auto|]. split; [exact D2|exact RV].
Qed.

Section ImportTree.
  Variables (d doc : id).

  Lemma import_doc : forall s s' x ch ch', keeps x s s' ch ch' -> live (s_heap s) doc -> live (s_heap s') doc.
  Proof. intros s s' x ch ch' K (n & A). destruct (kp_node _ _ _ _ _ K _ _ A) as (n' & A' & _). exists n'; auto. Qed.

  Definition dups (t : rose) : Prop := forall f s ch n ad, wf s ch -> doc_there d s -> live (s_heap s) doc -> src (s_heap s) ch d t -> s_heap s (root t) = Some n ->
    length (nodes t) <= f -> (ad = true -> ~ read_only (s_heap s) (root t)) ->
    exists s' ch', dup_with f doc true ad (root t) s = Ok (Fresh (s_nxt s)) s' /\ wf s' ch' /\ keeps (s_nxt s) s s' ch ch' /\
      top_copy s' d (n_type n) (s_nxt s) /\ cp (s_nxt s) (s_heap s) (s_heap s') ch' t (s_nxt s).

  Lemma dup_kids_ok : forall f ks, Forall dups ks -> forall g s ch i ni done j ty, wf s ch -> doc_there d s -> live (s_heap s) doc -> Forall (src (s_heap s) ch d) ks ->
    s_heap s i = Some ni -> n_type ni = ty -> ch i = done ++ map root ks -> i <> j ->
    top_copy s d ty j -> In ty [ELEMENT; FRAGMENT; ATTRIBUTE] \/ ks = [] -> (forall k, In k ks -> ~ In j (nodes k)) ->
    length (flat_map nodes ks) <= f -> length ks <= g ->
    exists s' ch' js, dup_kids (fun ci => load doc ;;; dup_with f doc true false ci) g j (hd_error (map root ks)) s = Ok tt s' /\ wf s' ch' /\
      keeps j s s' ch ch' /\ ch' j = ch j ++ js /\ Forall2 (cp (s_nxt s) (s_heap s) (s_heap s') ch') ks js.
  Proof.
    intros f. induction ks as [|t ks IH]; intros FC g s ch i ni done j ty W DT LD FS Hi Ti CH IJ TJ TY NJ LF LG.
    - exists s, ch, []. split; [destruct g; reflexivity|]. split; auto. split; [apply keeps_refl|]. split; [rewrite app_nil_r; auto|constructor].
    - destruct TY as [TY|TY]; [|discriminate].
      inversion FC as [|? ? CT FC']; subst. inversion FS as [|? ? ST FS']; subst. pose proof W as (WL & WT & WO & WR).
      destruct g as [|g]; [simpl in LG; lia|]. cbn [flat_map] in LF. rewrite app_length in LF.
      assert (IC : In (root t) (ch i)). { rewrite CH. apply in_or_app. right. left. auto. }
      destruct (wt_child _ _ WT _ _ IC) as (nt & ni0 & Ht & Hi0 & TA & PT & PE). assert (ni0 = ni) by congruence; subst ni0.
      destruct (CT f s ch nt false W DT LD ST Ht) as (s1 & ch1 & E1 & W1 & K1 & T1 & C1); [lia|discriminate|].
      set (r := s_nxt s) in *.
      assert (NR : s_heap s r = None). { apply (nxt_fresh _ _ W). }
      assert (K1j : keeps j s s1 ch ch1). { eapply keeps_weaken; [|exact K1]. left. intros (a & A). congruence. }
      assert (TJ1 : top_copy s1 d (n_type ni) j) by (eapply keeps_top; eauto).
      assert (RJ : r <> j). { destruct TJ as (a & A & _). congruence. }
      destruct (keeps_doc d _ _ _ _ _ K1 DT) as (nd & Hd & Td).
      pose proof TJ1 as (nj & J1 & J2 & J3 & J4 & J5 & J6 & J7).
      destruct (append_dup s1 ch1 d nd j r nj (n_type nt)) as (sa & s4 & Ea & E4 & NX4 & W4 & OLD4 & NONE4 & (m & m' & M1 & M2 & M3 & M4 & M5)); auto.
      { intros X. rewrite X in J4. rewrite <- J4 in TY. simpl in TY. decompose [or] TY; try discriminate; try tauto. }
      { intros (_ & X & _). congruence. }
      { eapply top_not_ro; eauto. }
      { intros X. rewrite X in PE. destruct (n_type ni); discriminate. }
      { rewrite J4. apply nests_iff. auto. }
      set (ch4 := fun x => if Nat.eqb x j then ch1 j ++ [r] else ch1 x) in *.
      assert (K4 : keeps j s s4 ch ch4).
      { constructor.
        - pose proof (kp_nxt _ _ _ _ _ K1). lia.
        - intros x n Hx. destruct (kp_node _ _ _ _ _ K1 _ _ Hx) as (n1 & Hx1 & CE1 & P1 & O1 & Q1).
          destruct (OLD4 _ _ Hx1) as (n4 & Hx4 & CE4 & P4 & O4 & Q4). { intros ->. congruence. }
          exists n4. split; auto. split; [eapply core_eq_trans; eauto|]. split; [congruence|]. split; auto.
          destruct O1 as [O1|O1]; auto. rewrite <- O1. destruct O4 as [O4|O4]; auto.
        - intros x L NE. unfold ch4. apply Nat.eqb_neq in NE. rewrite NE. apply (kp_ch _ _ _ _ _ K1); auto. intros ->. destruct L as (a & A). congruence.
        - intros x X (a & L). apply (kp_new _ _ _ _ _ K1); auto. destruct (s_heap s1 x) as [b|] eqn:B; [exists b; auto|]. rewrite (NONE4 _ B) in L. discriminate. }
      assert (C4 : cp r (s_heap s) (s_heap s4) ch4 t r).
      { eapply cp_target; [exact C1| |].
        - intros x a A LE. destruct (Nat.eq_dec x r) as [->|NE].
          + assert (a = m) by congruence; subst a. exists m'. auto.
          + destruct (OLD4 _ _ A NE) as (n4 & Hx4 & CE4 & _). exists n4. split; auto. destruct CE4 as (X1&X2&X3&X4&X5&X6&_). repeat split; auto.
        - intros x L LE. unfold ch4. destruct (Nat.eqb_spec x j) as [->|]; auto. destruct TJ as (a & A & _). pose proof (WL _ _ A). unfold r in LE. lia. }
      assert (Hi4 : exists ni4, s_heap s4 i = Some ni4 /\ n_type ni4 = n_type ni).
      { destruct (kp_node _ _ _ _ _ K4 _ _ Hi) as (a & A & (B & _) & _). exists a. auto. }
      destruct Hi4 as (ni4 & Hi4 & Ti4).
      assert (CH4 : ch4 i = (done ++ [root t]) ++ map root ks).
      { rewrite (kp_ch _ _ _ _ _ K4) by (auto; exists ni; auto). rewrite CH. rewrite <- app_assoc. reflexivity. }
      assert (NX : exists nt4, s_heap s4 (root t) = Some nt4 /\ n_next nt4 = hd_error (map root ks)).
      { pose proof W4 as (_ & WT4 & _). pose proof (wt_seg _ _ WT4 i) as SG. fold (ch4 i) in SG. change (seg (s_heap s4) i None (ch4 i) None) in SG. rewrite CH4 in SG. rewrite <- app_assoc in SG.
        apply seg_app in SG. destruct SG as [_ SG]. cbn [app seg] in SG. destruct SG as [(a & A1 & _ & _ & _ & A2) _].
        exists a. split; [auto|]. rewrite A2. destruct ks; reflexivity. }
      destruct NX as (nt4 & Ht4 & NX).
      destruct (IH FC' g s4 ch4 i ni4 (done ++ [root t]) j (n_type ni)) as (s' & ch' & js & E' & W' & K' & CJ & F2); auto.
      { eapply keeps_doc; eauto. }
      { eapply import_doc; eauto. }
      { rewrite Forall_forall in *. intros k I. eapply src_keeps; [exact K4| |]; auto. apply NJ. right; auto. }
      { eapply keeps_top; eauto. }
      { intros k I. apply NJ. right; auto. }
      { lia. } { simpl in LG. lia. }
      exists s', ch', (r :: js). split.
      { cbn [map hd_error dup_kids].
        assert (E1' : try (load doc ;;; dup_with f doc true false (root t)) s = Ok (inl (Fresh r)) s1).
        { destruct LD as (ndoc & LD). unfold try. rewrite (bind_ok _ _ _ _ _ _ _ _ (load_ok _ _ _ LD)). rewrite E1. reflexivity. }
        step E1'. step Ea. step E4. step (load_ok _ _ _ Ht4). rewrite NX. exact E'. }
      split; auto. split; [eapply keeps_trans; eauto|]. split.
      { rewrite CJ. unfold ch4. rewrite Nat.eqb_refl. rewrite <- app_assoc. cbn [app]. f_equal.
        apply (kp_ch _ _ _ _ _ K1). { destruct TJ as (a & A & _). exists a; auto. } auto. }
      constructor.
      + eapply cp_target; [exact C4| |].
        * intros x a A LE. destruct (kp_node _ _ _ _ _ K' _ _ A) as (b & B & CE & _). exists b. split; auto.
          destruct CE as (X1&X2&X3&X4&X5&X6&_). repeat split; auto.
        * intros x L LE. apply (kp_ch _ _ _ _ _ K'); auto. intros ->. destruct TJ as (a & A & _). pose proof (WL _ _ A). unfold r in LE. lia.
      + assert (LE4 : s_nxt s <= s_nxt s4) by (apply (kp_nxt _ _ _ _ _ K4)).
        clear - F2 FS' K4 LE4. revert FS'. induction F2; intros FS'; constructor.
        * inversion FS' as [|? ? S1 S2]; subst. eapply cp_source; [exact H|exact LE4|]. intros z n Y I.
          destruct (src_live _ _ _ _ S1 z I) as (n0 & Y0). destruct (kp_node _ _ _ _ _ K4 _ _ Y0) as (n4 & Y4 & CE & _).
          assert (n4 = n) by congruence; subst n4. exists n0. split; auto. destruct CE as (X1&X2&X3&X4&X5&X6&_). repeat split; auto.
        * apply IHF2. inversion FS'; auto.
  Qed.

  Lemma dups_all : forall t, dups t.
  Proof.
    intros t. induction t as [i ats ks _ IH] using rose_ind2. intros f s ch n ad W DT LD S Hn LF AD. cbn [root] in Hn.
    inversion S as [? ? ? n0 A B C D E F G]; subst. assert (n0 = n) by congruence; subst n0.
    destruct f as [|f]; [simpl in LF; lia|]. cbn [nodes length] in LF. rewrite app_length in LF.
    destruct (copy_head d f i ats s ch n) as (s1 & s2 & ch2 & m & E1 & E2 & W2 & K2 & T2 & CJ & M1 & M2 & MA); auto.
    { rewrite Forall_forall. intros x _. apply clones_all. } { lia. }
    set (j := s_nxt s) in *. assert (NJ : s_heap s j = None) by (apply (nxt_fresh _ _ W)).
    destruct (kp_node _ _ _ _ _ K2 _ _ A) as (n1 & A1 & (CE1 & _) & _).
    assert (NIN : forall k, In k ks -> ~ In j (nodes k)).
    { intros k I X. rewrite Forall_forall in G. destruct (src_live _ _ _ _ (G _ I) _ X) as (a & Y). congruence. }
    destruct (dup_kids_ok f ks IH f s2 ch2 i n1 [] j (n_type n)) as (s' & ch' & js & E' & W' & K' & CJ' & F2); auto.
    { eapply keeps_doc; eauto. }
    { eapply import_doc; eauto. }
    { rewrite Forall_forall in *. intros k I. eapply src_keeps; [exact K2|apply NIN; auto|auto]. }
    { cbn [app]. rewrite <- E. apply (kp_ch _ _ _ _ _ K2); [exists n; auto|intros ->; congruence]. }
    { intros ->. congruence. }
    { destruct ks as [|k ks]; auto. left. pose proof W as (_ & WT & _).
      destruct (wt_child _ _ WT i (root k)) as (a & b & X1 & X2 & X3 & X4 & X5). { rewrite E. left; auto. }
      assert (b = n) by congruence; subst b. unfold copyable in B. simpl in B.
      destruct B as [B|[B|[B|[B|[B|[B|[]]]]]]]; rewrite <- B in *; simpl; auto; destruct (n_type a); discriminate. }
    { lia. }
    { clear - LF. assert (length ks <= length (flat_map nodes ks)). { clear. induction ks as [|[a b c] ks]; simpl; auto. rewrite app_length. lia. } lia. }
    exists s', ch'. split.
    { cbn [root dup_with]. step (load_ok _ _ _ A).
      assert (RO : (if ad then ro <- readonly i ;; check (negb ro) NO_MODIFICATION_ALLOWED_ERR else ret tt) s = Ok tt s).
      { destruct ad; [|reflexivity]. pose proof W as (WL & WT & _). destruct (readonly_ok s ch WL WT i (ex_intro _ n A)) as (ro & X1 & X2).
        step X1. destruct ro; [|reflexivity]. exfalso. apply AD; auto. apply X2. auto. }
      step RO. destruct (copyable_not _ B) as (Y1 & Y2 & Y3).
      assert (Z1 : ntype_eqb (n_type n) DOCUMENT = false) by (apply ntype_eqb_neq; auto).
      assert (Z2 : ntype_eqb (n_type n) DOCTYPE = false) by (apply ntype_eqb_neq; auto).
      assert (Z3 : ntype_eqb (n_type n) ENTITY = false /\ ntype_eqb (n_type n) NOTATION = false /\ ntype_eqb (n_type n) ENTITY_REFERENCE = false).
      { clear - B. unfold copyable in B. simpl in B. decompose [or] B; try tauto; match goal with H : _ = n_type n |- _ => rewrite <- H end; auto. }
      destruct Z3 as (Z3 & Z4 & Z5). rewrite Z1, Z2. cbn [orb negb check]. rewrite bind_ret. step E1.
      rewrite Z3, Z4, Z5. cbn [orb]. rewrite andb_false_r. cbn [negb check andb]. rewrite bind_ret. step E2.
      assert (FI : n_first n = hd_error (map root ks)). { destruct W as (_ & WT & _). rewrite <- E. apply (wt_ends _ _ WT); auto. }
      rewrite FI. step E'. reflexivity. }
    assert (WL : wfL (s_heap s) (s_nxt s)) by (destruct W; auto).
    split; auto. split; [eapply keeps_trans; eauto|]. split; [eapply keeps_top; eauto|].
    destruct (kp_node _ _ _ _ _ K' _ _ M1) as (m' & M1' & CE & _).
    destruct CE as (X1&X2&X3&X4&X5&X6&_).
    apply (cp_T _ _ _ _ i ats ks j n m'); auto.
    - destruct M2 as (Y1&Y2&Y3&Y4&Y5). repeat split; congruence.
    - rewrite X2. clear - MA K'. induction MA; constructor; auto. apply cp_source with (nx := S j) (h := s_heap s); [|lia|intros z n0 Y I; exists n0; split; [exact Y|repeat split]].
      eapply cp_target; [exact H| |].
      * intros z a A LE. destruct (kp_node _ _ _ _ _ K' _ _ A) as (c & B & CE & _). exists c. split; auto. destruct CE as (Z1&Z2&Z3&Z4&Z5&Z6&_). repeat split; auto.
      * intros z L LE. apply (kp_ch _ _ _ _ _ K'); auto. lia.
    - rewrite CJ', CJ. cbn [app]. clear - F2 G K2. assert (NX1 : s_nxt s <= s_nxt s2) by (apply (kp_nxt _ _ _ _ _ K2)). revert G. induction F2; intros F; constructor.
      * inversion F as [|? ? S1 S2]; subst. eapply cp_source; [exact H|unfold j; lia|]. intros z n0 Y I.
        destruct (src_live _ _ _ _ S1 z I) as (n1 & Y1). destruct (kp_node _ _ _ _ _ K2 _ _ Y1) as (n4 & Y4 & CE & _).
        assert (n4 = n0) by congruence; subst n4. exists n1. split; auto. destruct CE as (X1&X2&X3&X4&X5&X6&_). repeat split; auto.
      * apply IHF2. inversion F; auto.
  Qed.
End ImportTree.
