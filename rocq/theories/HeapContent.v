(** setTextContent keeps the heap invariant. *)
From Coq Require Import List Arith NArith Bool Lia ZifyBool ZifyNat ZifyN.
From Verif Require Import Base HeapModel HeapSpec HeapInv HeapExec HeapTree HeapSplice HeapLoops HeapEdit HeapAttach HeapInsert HeapFrame
  HeapOps HeapRemoveOp HeapDestroy HeapGut HeapUnref HeapCreate StringModel CharDataModel ContentModel.
Import ListNotations.
Local Open Scope dom_scope.

Definition core_eq (n n' : node) : Prop :=
  n_type n' = n_type n /\ n_attrs n' = n_attrs n /\ n_name n' = n_name n /\ n_value n' = n_value n /\
  n_ns n' = n_ns n /\ n_prefix n' = n_prefix n /\ n_classes n' = n_classes n /\ n_ro n' = n_ro n /\ n_ref n' = n_ref n.

(** [h'] is what is left of [h] when some nodes below [p] are gone. *)
Record shrunk (h h' : heap) (p : id) : Prop := mkShrunk {
  sh_old : forall j n', h' j = Some n' -> exists n, h j = Some n /\ n_type n' = n_type n /\ n_ref n' = n_ref n /\
     ((n_ref n > 0)%N \/ n_type n <> DOCUMENT -> core_eq n n' /\ (n_owner n' = n_owner n \/ n_owner n = None) /\
       (n_pending n = true -> n_pending n' = true));
  sh_held : forall j n, h j = Some n -> (n_ref n > 0)%N -> live h' j;
  sh_dead : forall j n, h j = Some n -> h' j = None -> n_ref n = 0%N /\ (n_type n = DOCUMENT \/ anc h p j /\ j <> p);
  sh_anc : forall a j, anc h' a j -> anc h a j
}.

Lemma core_eq_refl : forall n, core_eq n n.
Proof. intros n. repeat split. Qed.
Lemma core_eq_trans : forall a b c, core_eq a b -> core_eq b c -> core_eq a c.
Proof. intros a b c (A1&A2&A3&A4&A5&A6&A7&A8&A9) (B1&B2&B3&B4&B5&B6&B7&B8&B9). repeat split; congruence. Qed.

Lemma shrunk_refl : forall h p, shrunk h h p.
Proof.
  intros h p. constructor.
  - intros j n H. exists n. split; [|split; [|split]]; auto. intros _. split; [apply core_eq_refl|]. split; auto.
  - intros j n H _. exists n; auto.
  - intros j n H E. congruence.
  - auto.
Qed.

Lemma shrunk_trans : forall h1 h2 h3 p, shrunk h1 h2 p -> shrunk h2 h3 p -> shrunk h1 h3 p.
Proof.
  intros h1 h2 h3 p A B. constructor.
  - intros j n3 H3. destruct (sh_old _ _ _ B _ _ H3) as (n2 & H2 & T2 & R2 & C2).
    destruct (sh_old _ _ _ A _ _ H2) as (n1 & H1 & T1 & R1 & C1).
    exists n1. split; auto. split; [congruence|]. split; [congruence|].
    intros D. destruct (C1 D) as (X1 & X2 & X3). destruct C2 as (Y1 & Y2 & Y3). { rewrite T1, R1. auto. }
    split; [eapply core_eq_trans; eauto|]. split; auto.
    destruct X2 as [X|X]; auto. destruct Y2 as [Y|Y]; [left; congruence|]. right. congruence.
  - intros j n H R. destruct (sh_held _ _ _ A _ _ H R) as (n2 & H2).
    destruct (sh_old _ _ _ A _ _ H2) as (n1 & H1 & _ & R1 & _). assert (n1 = n) by congruence; subst.
    apply (sh_held _ _ _ B _ _ H2). congruence.
  - intros j n H E. destruct (h2 j) as [n2|] eqn:H2.
    + destruct (sh_old _ _ _ A _ _ H2) as (n1 & H1 & T1 & R1 & _). assert (n1 = n) by congruence; subst.
      destruct (sh_dead _ _ _ B _ _ H2 E) as [Z [D|[D N]]]; (split; [congruence|]); [left; congruence|right; split; auto].
      apply (sh_anc _ _ _ A); auto.
    + apply (sh_dead _ _ _ A _ _ H H2).
  - intros a j H. apply (sh_anc _ _ _ A). apply (sh_anc _ _ _ B). auto.
Qed.

(** Fewer children, fewer parents. *)
Lemma parents_shrink : forall h h' ch ch' , wfT h ch -> wfT h' ch' ->
  (forall j n', h' j = Some n' -> exists n, h j = Some n /\ n_type n' = n_type n /\ (n_type n <> DOCUMENT -> n_attrs n' = n_attrs n)) ->
  (forall j x, live h' j -> In x (ch' j) -> In x (ch j)) ->
  forall i n n' q, h i = Some n -> h' i = Some n' -> n_parent n' = Some q -> n_parent n = Some q.
Proof.
  intros h h' ch ch' WT WT' OLD SUB i n n' q H H' P.
  destruct (OLD _ _ H') as (n0 & A & B & C). assert (n0 = n) by congruence; subst n0.
  destruct (wt_parent _ _ WT' _ _ _ H' P) as (nq' & Hq' & X & Y).
  destruct (OLD _ _ Hq') as (nq & Hq & Tq & Aq).
  destruct (ntype_eqb (n_type n) ATTRIBUTE) eqn:TA.
  - apply ntype_eqb_eq in TA. rewrite B in Y. specialize (Y TA).
    destruct (wt_attrs _ _ WT' _ _ Hq') as (_ & EL & _). rewrite Tq in EL.
    rewrite Aq in Y. 2:{ rewrite EL; [discriminate|]. intros E. rewrite E in Y. destruct Y. }
    destruct (wt_attrs _ _ WT _ _ Hq) as (_ & _ & Z). destruct (Z _ Y) as (na & N1 & _ & N2). congruence.
  - apply ntype_eqb_neq in TA. rewrite B in X. destruct (X TA) as [I _].
    apply SUB in I; [|exists nq'; auto]. destruct (wt_child _ _ WT _ _ I) as (nc & np & N1 & N2 & N3 & N4 & _). congruence.
Qed.

Lemma anc_shrink : forall h h', (forall i n n' q, h i = Some n -> h' i = Some n' -> n_parent n' = Some q -> n_parent n = Some q) ->
  (forall j n', h' j = Some n' -> exists n, h j = Some n) -> forall a i, anc h' a i -> anc h a i.
Proof.
  intros h h' P O a i A. induction A; [constructor|]. destruct (O _ _ H) as (n0 & H0'). econstructor; eauto.
Qed.

Lemma ro_shrink : forall h h' p, shrunk h h' p -> forall i, read_only h' i -> read_only h i.
Proof.
  intros h h' p SH i (n' & H & R). destruct (sh_old _ _ _ SH _ _ H) as (n & A & T & RE & C). exists n. split; auto. rewrite T in R.
  destruct R as [R|[R|[R|(R & a & na & X & Y & Z)]]]; auto.
  - right; right; left. destruct R as [R1 R2]. split; auto. destruct C as [(_ & _ & _ & _ & _ & _ & _ & C & _) _]; [|congruence]. right. congruence.
  - right; right; right. split; auto.
    destruct (sh_old _ _ _ SH _ _ Y) as (ma & M1 & M2 & _). exists a, ma. split; [apply (sh_anc _ _ _ SH); auto|]. split; auto. congruence.
Qed.

Lemma bounded_shrunk : forall h h' p, shrunk h h' p -> (forall j n, h j = Some n -> no_wrap n) -> forall j n, h' j = Some n -> no_wrap n.
Proof.
  intros h h' p SH B j n' H. destruct (sh_old _ _ _ SH _ _ H) as (n & A & T & RE & _). specialize (B _ _ A). unfold no_wrap in *. lia.
Qed.

Lemma dies_dec : forall h c j, rooted h j -> dies h c j \/ ~ dies h c j.
Proof.
  intros h c j L. induction L.
  - destruct (Nat.eq_dec i c) as [->|NE]; [left; constructor|]. right. intros D. inversion D; subst; congruence.
  - destruct (Nat.eq_dec i c) as [->|NE]; [left; constructor|]. destruct (N.eq_dec (n_ref n) 0) as [Z|Z].
    + destruct IHL as [D|D]; [left; econstructor; eauto|]. right. intros D'. inversion D'; subst; [congruence|].
      assert (n0 = n) by congruence; subst. assert (p0 = p) by congruence; subst. contradiction.
    + right. intros D'. inversion D'; subst; congruence.
Qed.

Lemma dies_anc : forall h c j, dies h c j -> anc h c j.
Proof. induction 1; [constructor|]. econstructor; eauto. Qed.

Definition bounded (h : heap) : Prop := forall j n, h j = Some n -> no_wrap n.

Section ClearOne.
  Variables (s : st) (ch : id -> list id) (p c : id) (np : node).
  Let h := s_heap s.
  Hypothesis WF : wf s ch.
  Hypothesis Hp : h p = Some np.
  Hypothesis Tp : n_type np <> DOCUMENT.
  Hypothesis Rp : (n_ref np > 0)%N.
  Hypothesis RO : ~ read_only h p.
  Hypothesis BND : bounded h.
  Hypothesis IC : In c (ch p).

  Lemma clear_one : exists s' ch', (r <- remove_child p c ;; node_unref r) s = Ok tt s' /\ s_nxt s' = s_nxt s /\
    wf s' ch' /\ (forall j, live (s_heap s') j -> ch' j = without c (ch j)) /\
    shrunk h (s_heap s') p /\
    (forall n, s_heap s' c = Some n -> n_parent n = None).
  Proof.
    pose proof WF as (WL & WT & WO & WR). fold h in WL, WT, WO, WR.
    destruct (wt_child _ _ WT _ _ IC) as (nc & np0 & Hc & Hp0 & TA & PC & PE).
    assert (np0 = np) by congruence; subst np0.
    assert (TC : n_type nc <> DOCUMENT). { intros E. destruct (wo_doc _ _ WO _ _ Hc E) as (_ & X & _). congruence. }
    destruct (tree_exists _ _ _ WL WT c) as (t & Rt & Et). { exists nc; auto. }
    destruct (remove_child_spec0 s ch p c WF (ex_intro _ np Hp)) with (t := t) as (o & FF & Q); auto.
    { exists nc. split; auto. split; auto. apply (BND c); auto. }
    destruct o as [e|].
    { exfalso. unfold remove_checks in FF. inversion FF as [|P1 e1 r1 X|P1 e1 r1 o1 _ F1]; subst.
      - destruct X as [X _]. unfold type_of in X. fold h in X. rewrite Hp in X. simpl in X. congruence.
      - inversion F1 as [|P2 e2 r2 X|P2 e2 r2 o2 _ F2]; subst.
        + unfold parent_of in X. fold h in X. rewrite Hc in X. contradiction.
        + inversion F2 as [|P3 e3 r3 X|P3 e3 r3 o3 _ F3]; subst. { contradiction. } inversion F3. }
    destruct Q as (h1 & E1 & W1 & ED). fold h in ED.
    set (s1 := withh (addlog s (remove_log p c t)) h1) in *.
    assert (W1' : wf s1 (fun j => without c (ch j))) by exact W1.
    destruct (ed_some _ _ _ _ ED _ _ Hc) as (nc1 & Hc1 & C1 & C2 & C3 & C4 & C5 & C6 & C7 & C8 & C9 & C10 & C11).
    rewrite Nat.eqb_refl in C9.
    assert (NWc := BND _ _ Hc). unfold no_wrap in NWc.
    destruct (unref_spec s1 _ c nc1 W1' Hc1) as (h' & ch' & E2 & W' & R). { lia. } { lia. }
    assert (P1 : n_parent nc1 = None).
    { destruct (n_parent nc1) as [q|] eqn:PQ; auto. exfalso.
      pose proof W1' as (_ & WT1 & _). destruct (wt_parent _ _ WT1 _ _ _ Hc1 PQ) as (nq & X & Y & _).
      destruct Y as [Y _]; [congruence|]. rewrite without_eq in Y. apply remove_id_in in Y. tauto. }
    rewrite P1 in R. cbn [is_none negb] in R. rewrite orb_false_r in R.
    change (s_heap s1) with h1 in R.
    set (h2 := hmod h1 c ref_down) in *.
    (* what the heap looks like just before the node is given up *)
    assert (OLD2 : forall j m, h2 j = Some m -> exists n, h j = Some n /\ core_eq n m /\ (n_owner m = n_owner n \/ n_owner n = None) /\
                     (n_pending n = true -> n_pending m = true)).
    { intros j m J. destruct (hmod_inv _ _ _ _ _ J) as (m0 & M0 & EM).
      destruct (h j) as [n|] eqn:Hj. 2:{ rewrite (ed_none _ _ _ _ ED _ Hj) in M0. discriminate. }
      destruct (ed_some _ _ _ _ ED _ _ Hj) as (m1 & M1 & D1 & D2 & D3 & D4 & D5 & D6 & D7 & D8 & D9 & D10 & D11).
      assert (m1 = m0) by congruence; subst m1. exists n. split; auto.
      destruct (Nat.eqb_spec j c).
      - subst m j. assert (m0 = nc1) by congruence; subst m0. assert (n = nc) by congruence; subst n.
        split; [|split].
        + assert (RV : n_ref (ref_down nc1) = n_ref nc). { rewrite ref_down_val by lia. lia. }
          repeat split; auto.
        + exact D10.
        + intros X. destruct (D11 X) as [Y|Y]; [exact Y|discriminate].
      - subst m. split; [repeat split; auto|]. split; auto. intros X. destruct (D11 X) as [Y|Y]; [exact Y|discriminate]. }
    assert (LIV2 : forall j n, h j = Some n -> exists m, h2 j = Some m).
    { intros j n J. destruct (ed_some _ _ _ _ ED _ _ J) as (m1 & M1 & _). unfold h2. eexists. eapply hmod_get; eauto. }
    assert (WT2 : wfT h2 (fun j => without c (ch j))).
    { pose proof W1' as (_ & WT1 & _). eapply same_wfT; [|exact WT1]. apply same_struct_hmod. apply struct_eq_ref_down. }
    assert (PAR2 : forall i n n' q, h i = Some n -> h2 i = Some n' -> n_parent n' = Some q -> n_parent n = Some q).
    { apply (parents_shrink h h2 ch _ WT WT2).
      - intros j m J. destruct (OLD2 _ _ J) as (n & A & B & _). exists n. destruct B as (B1 & B2 & _). auto.
      - intros j x _ I. cbv beta in I. rewrite without_eq in I. apply remove_id_in in I. tauto. }
    assert (ANC2 : forall a i, anc h2 a i -> anc h a i).
    { apply anc_shrink; auto. intros j m J. destruct (OLD2 _ _ J) as (n & A & _). eauto. }
    exists (withh s1 h'), ch'.
    split. { step E1. exact E2. }
    split; [reflexivity|]. split; [exact W'|]. rewrite withh_heap.
    destruct (1 <? n_ref nc1)%N eqn:LT.
    - destruct R as [-> ->]. split; [|split]; auto.
      + constructor.
        * intros j m J. destruct (OLD2 _ _ J) as (n & A & B & C & D). exists n. destruct B as (B1&B2&B3&B4&B5&B6&B7&B8&B9).
          split; auto. split; auto. split; auto. intros _. split; [repeat split; auto|]. auto.
        * intros j n J _. destruct (LIV2 _ _ J) as (m & M). exists m; auto.
        * intros j n J K. destruct (LIV2 _ _ J) as (m & M). congruence.
        * auto.
      + intros n J. unfold h2 in J. rewrite hmod_same, Hc1 in J. inversion J; subst. exact P1.
    - assert (Z : n_ref nc = 0%N) by lia.
      destruct R as [Q1 Q2 Q3 Q4 Q5 Q6].
      assert (H2c : h2 c = Some (ref_down nc1)). { unfold h2. rewrite hmod_same, Hc1. auto. }
      assert (NC : h' c = None). { eapply Q1; [constructor|exact H2c|]. change (n_type nc1 <> DOCUMENT). congruence. }
      assert (ROOT2 : forall j m, h2 j = Some m -> rooted h2 j). { intros j m J. apply (wt_rooted _ _ WT2). exists m; auto. }
      assert (CL : forall j m, h2 j = Some m -> n_type m <> DOCUMENT ->
          (dies h2 c j /\ h' j = None) \/ h' j = Some (set_pending true (set_parent None m)) \/ h' j = Some m).
      { intros j m J T. destruct (dies_dec h2 c j) as [DD|DD]; [eapply ROOT2; eauto|left; split; eauto|].
        destruct (n_parent m) as [q|] eqn:P.
        - destruct (N.eq_dec (n_ref m) 0) as [Y|Y].
          + right; right. apply Q3; auto. intros (m2 & q2 & X1 & X2 & X3 & X4). assert (m2 = m) by congruence; subst. lia.
          + destruct (dies_dec h2 c q) as [DQ|DQ].
            { destruct (wt_parent _ _ WT2 _ _ _ J P) as (nq & X & _). eapply ROOT2; eauto. }
            * right; left. apply Q2; auto. exists m, q. repeat split; auto. lia.
            * right; right. apply Q3; auto. intros (m2 & q2 & X1 & X2 & X3 & X4). assert (m2 = m) by congruence; subst.
              assert (q2 = q) by congruence; subst. contradiction.
        - right; right. apply Q3; auto. intros (m2 & q2 & X1 & X2 & _). congruence. }
      assert (DIER : forall j m, dies h2 c j -> h2 j = Some m -> n_ref m = 0%N).
      { intros j m D J. destruct D; [|congruence]. rewrite H2c in J. inversion J; subst m.
        rewrite ref_down_val by lia. lia. }
      assert (ACP : forall j, anc h c j -> anc h p j /\ j <> p).
      { intros j A. split.
        - eapply anc_trans; [|exact A]. econstructor; eauto; constructor.
        - intros ->. refine (anc_proper_neq h c nc p c _ Hc PC A eq_refl). apply (wt_rooted _ _ WT). exists nc; auto. }
      assert (LIV' : forall j n', h' j = Some n' -> exists m, h2 j = Some m /\ n_type n' = n_type m /\ n_ref n' = n_ref m /\
         ((n_ref m > 0)%N \/ n_type m <> DOCUMENT -> core_eq m n' /\ n_owner n' = n_owner m /\ (n_pending m = true -> n_pending n' = true))).
      { intros j n' J. destruct (h2 j) as [m|] eqn:E. 2:{ rewrite (Q4 _ E) in J. discriminate. }
        exists m. split; auto. destruct (ntype_eqb (n_type m) DOCUMENT) eqn:TD.
        - apply ntype_eqb_eq in TD. destruct (Q5 _ _ E TD) as [[X _]|(nd' & X1 & X2 & X3 & X4)]; [congruence|].
          assert (nd' = n') by congruence; subst nd'. split; [congruence|]. split; auto. intros [RR|RR]; [|congruence].
          rewrite X4; auto. { destruct m; repeat split; auto. } intros ->. congruence.
        - apply ntype_eqb_neq in TD. destruct (CL _ _ E TD) as [[_ X]|[X|X]]; [congruence| |];
            rewrite X in J; inversion J; subst n'; destruct m; repeat split; auto. }
      assert (WT' : wfT h' ch') by (destruct W' as (_ & ? & _); auto).
      assert (CH' : forall j, live h' j -> ch' j = without c (ch j)).
      { intros j (m & J). apply (Q6 j); congruence. }
      assert (OLD' : forall j n', h' j = Some n' -> exists n, h j = Some n /\ n_type n' = n_type n /\ n_ref n' = n_ref n /\
        ((n_ref n > 0)%N \/ n_type n <> DOCUMENT -> core_eq n n' /\ (n_owner n' = n_owner n \/ n_owner n = None) /\
         (n_pending n = true -> n_pending n' = true))).
      { intros j n' J. destruct (LIV' _ _ J) as (m & M & T & RE & C). destruct (OLD2 _ _ M) as (n & A & B & CC & D).
        pose proof B as (B1&_&_&_&_&_&_&_&B9). exists n. split; auto. split; [congruence|]. split; [congruence|].
        rewrite <- B1, <- B9. intros X. destruct (C X) as (Y1 & Y2 & Y3). split; [eapply core_eq_trans; eauto|]. split; auto.
        rewrite Y2. exact CC. }
      split; [exact CH'|]. split; [|congruence]. constructor; auto.
      + intros j n J RR. destruct (LIV2 _ _ J) as (m & M). destruct (OLD2 _ _ M) as (n1 & A & B & _).
        assert (n1 = n) by congruence; subst n1. pose proof B as (B1&_&_&_&_&_&_&_&B9).
        destruct (ntype_eqb (n_type m) DOCUMENT) eqn:TD.
        * apply ntype_eqb_eq in TD. destruct (Q5 _ _ M TD) as [[_ X]|(nd' & X1 & _)]; [lia|exists nd'; auto].
        * apply ntype_eqb_neq in TD. destruct (CL _ _ M TD) as [[D X]|[X|X]]; [|eexists; eauto|eexists; eauto].
          pose proof (DIER _ _ D M). lia.
      + intros j n J K. destruct (LIV2 _ _ J) as (m & M). destruct (OLD2 _ _ M) as (n1 & A & B & _).
        assert (n1 = n) by congruence; subst n1. pose proof B as (B1&_&_&_&_&_&_&_&B9).
        destruct (ntype_eqb (n_type m) DOCUMENT) eqn:TD.
        * apply ntype_eqb_eq in TD. destruct (Q5 _ _ M TD) as [[_ X]|(nd' & X1 & _)]; [|congruence]. split; [lia|left; congruence].
        * apply ntype_eqb_neq in TD. destruct (CL _ _ M TD) as [[D X]|[X|X]]; [|congruence|congruence].
          split; [rewrite <- B9; eapply DIER; eauto|]. right. apply ACP. apply ANC2. apply dies_anc. auto.
      + apply anc_shrink.
        * apply (parents_shrink h h' ch ch' WT WT').
          -- intros j n' J. destruct (OLD' _ _ J) as (n & A & T & _ & C). exists n. split; auto. split; auto.
             intros X. destruct C as [C _]; auto. destruct C as (_ & C & _). auto.
          -- intros j x L I. rewrite (CH' _ L) in I. rewrite without_eq in I. apply remove_id_in in I. tauto.
        * intros j n' J. destruct (OLD' _ _ J) as (n & A & _). eauto.
  Qed.
End ClearOne.

(** The children of [p] and their unreferenced descendants are gone. *)
Record cleared (s s' : st) (ch ch' : id -> list id) (p : id) : Prop := mkCleared {
  cl_nxt : s_nxt s' = s_nxt s;
  cl_wf : wf s' ch';
  cl_empty : ch' p = [];
  cl_ch : forall j, live (s_heap s') j -> j <> p -> ch' j = ch j;
  cl_shrunk : shrunk (s_heap s) (s_heap s') p;
  cl_out : forall c n, In c (ch p) -> s_heap s' c = Some n -> n_parent n = None
}.

Lemma without_notin : forall c l, ~ In c l -> without c l = l.
Proof.
  intros c l H. unfold without. induction l; auto. cbn [filter]. destruct (Nat.eqb_spec a c).
  - exfalso. apply H. left; auto.
  - cbn [negb]. cbv iota. rewrite IHl; auto. intros I. apply H. right; auto.
Qed.

Lemma child_once : forall h ch c p q, wfT h ch -> In c (ch p) -> In c (ch q) -> p = q.
Proof.
  intros h ch c p q WT A B. destruct (wt_child _ _ WT _ _ A) as (n & ? & X & _ & _ & Y & _).
  destruct (wt_child _ _ WT _ _ B) as (n' & ? & X' & _ & _ & Y' & _). congruence.
Qed.

Lemma clear_loop_spec : forall l s ch p np fuel, wf s ch -> s_heap s p = Some np -> n_type np <> DOCUMENT -> (n_ref np > 0)%N ->
  ~ read_only (s_heap s) p -> bounded (s_heap s) -> ch p = l -> length l < fuel ->
  exists s' ch', clear_loop fuel p (hd_error l) s = Ok tt s' /\ cleared s s' ch ch' p.
Proof.
  induction l as [|c l IH]; intros s ch p np fuel W Hp T R RO BND CH F; (destruct fuel as [|fuel]; [simpl in F; lia|]).
  - exists s, ch. split; [reflexivity|]. constructor; auto. { apply shrunk_refl. } intros c n I. rewrite CH in I. destruct I.
  - assert (IC : In c (ch p)) by (rewrite CH; left; auto).
    pose proof W as (WL & WT & WO & WR).
    destruct (wt_child _ _ WT _ _ IC) as (nc & np0 & Hc & _ & TA & PC & PE).
    assert (NX : n_next nc = hd_error l).
    { pose proof (wt_seg _ _ WT p) as SG. rewrite CH in SG. cbn [seg] in SG. destruct SG as [(nc' & X & _ & _ & _ & Y) _].
      assert (nc' = nc) by congruence; subst. rewrite Y. destruct l; auto. }
    destruct (clear_one s ch p c np W Hp T R RO BND IC) as (s1 & ch1 & E1 & NX1 & W1 & CH1 & SH1 & OUT1).
    assert (LP : live (s_heap s1) p) by (eapply (sh_held _ _ _ SH1); eauto).
    destruct LP as (np1 & Hp1). destruct (sh_old _ _ _ SH1 _ _ Hp1) as (np' & A & T1 & R1 & _).
    assert (np' = np) by congruence; subst np'.
    assert (ND : NoDup (c :: l)). { rewrite <- CH. apply (wt_nodup _ _ WT). }
    assert (CP : ch1 p = l).
    { rewrite CH1 by (exists np1; auto). rewrite CH. unfold without. cbn [filter]. rewrite Nat.eqb_refl. cbn [negb].
      apply without_notin. inversion ND; auto. }
    destruct (IH s1 ch1 p np1 fuel) as (s' & ch' & E2 & C2); auto.
    { congruence. } { rewrite R1; auto. } { intros X. apply RO. eapply ro_shrink; eauto. }
    { intros j n J. eapply bounded_shrunk; eauto. } { simpl in F; lia. }
    destruct C2 as [K1 K2 K3 K4 K5 K6].
    exists s', ch'. split.
    { cbn [hd_error clear_loop]. step (load_ok _ _ _ Hc).
      destruct (remove_child p c s) as [r sr| |] eqn:ER; unfold bind in E1; rewrite ER in E1; try discriminate.
      step ER. step E1. rewrite NX. exact E2. }
    constructor; auto.
    + congruence.
    + intros j L NE. rewrite K4 by auto.
      assert (L1 : live (s_heap s1) j). { destruct L as (m & M). destruct (sh_old _ _ _ K5 _ _ M) as (m1 & M1 & _). exists m1; auto. }
      rewrite CH1 by auto. apply without_notin. intros I. apply NE. eapply child_once; eauto.
    + eapply shrunk_trans; eauto.
    + intros x n I X. rewrite CH in I. destruct I as [<-|I].
      * destruct (n_parent n) as [q|] eqn:P; auto. exfalso.
        assert (WT' : wfT (s_heap s') ch') by (destruct K2 as (_ & ? & _); auto).
        assert (WT1 : wfT (s_heap s1) ch1) by (destruct W1 as (_ & ? & _); auto).
        destruct (sh_old _ _ _ K5 _ _ X) as (n1 & X1 & _).
        assert (P1 : n_parent n1 = Some q).
        { eapply (parents_shrink _ _ _ _ WT1 WT'); eauto.
          - intros j m J. destruct (sh_old _ _ _ K5 _ _ J) as (m1 & M1 & Tm & _ & Cm). exists m1. split; auto. split; auto.
            intros D. destruct Cm as [(_ & Q & _) _]; auto.
          - intros j y L I. destruct (Nat.eq_dec j p) as [->|NE]; [rewrite K3 in I; destruct I|]. rewrite K4 in I; auto. }
        rewrite (OUT1 _ X1) in P1. discriminate.
      * apply (K6 x n); auto. rewrite CP. auto.
Qed.

Definition takes_text (t : ntype) : Prop := t = ELEMENT \/ t = FRAGMENT \/ t = ATTRIBUTE.

(** What setTextContent leaves: [p] has the new text node [t] for its only child. *)
Record text_set (s s' : st) (ch ch' : id -> list id) (p t : id) (v : option bytes) : Prop := mkTextSet {
  ts_fresh : s_heap s t = None;
  ts_nxt : s_nxt s' = S (s_nxt s);
  ts_wf : wf s' ch';
  ts_only : ch' p = [t];
  ts_node : exists n, s_heap s' t = Some n /\ n_type n = TEXT /\ n_value n = v /\ n_name n = Some text_name /\
              n_parent n = Some p /\ n_ref n = 0%N /\ ch' t = [] /\ n_attrs n = [];
  ts_ch : forall j, live (s_heap s') j -> j <> p -> j <> t -> ch' j = ch j;
  ts_old : forall j n', s_heap s' j = Some n' -> j <> t -> exists n, s_heap s j = Some n /\ n_type n' = n_type n /\ n_ref n' = n_ref n /\
     ((n_ref n > 0)%N \/ n_type n <> DOCUMENT -> core_eq n n' /\ (n_owner n' = n_owner n \/ n_owner n = None) /\
        (n_pending n = true -> n_pending n' = true));
  ts_held : forall j n, s_heap s j = Some n -> (n_ref n > 0)%N -> live (s_heap s') j;
  ts_dead : forall j n, s_heap s j = Some n -> s_heap s' j = None -> n_ref n = 0%N /\ (n_type n = DOCUMENT \/ anc (s_heap s) p j /\ j <> p);
  ts_out : forall c n, In c (ch p) -> s_heap s' c = Some n -> n_parent n = None
}.

Lemma set_text_plain_spec : forall s ch p np v, wf s ch -> s_heap s p = Some np -> takes_text (n_type np) -> (n_ref np > 0)%N ->
  ~ spent np -> ~ read_only (s_heap s) p -> bounded (s_heap s) ->
  exists s' ch', set_text_content_plain p v s = Ok tt s' /\ text_set s s' ch ch' p (s_nxt s) v.
Proof.
  intros s ch p np v W Hp TT R NS RO BND. pose proof W as (WL & WT & WO & WR).
  assert (TD : n_type np <> DOCUMENT) by (destruct TT as [E|[E|E]]; congruence).
  destruct (clear_loop_spec (ch p) s ch p np (fuel_of s) W Hp TD R RO BND eq_refl) as (s1 & ch1 & E1 & [K1 K2 K3 K4 K5 K6]).
  { pose proof (ch_length _ _ WL WT p). unfold fuel_of. lia. }
  pose proof K2 as (WL1 & WT1 & WO1 & WR1).
  assert (LP : live (s_heap s1) p) by (eapply (sh_held _ _ _ K5); eauto). destruct LP as (np1 & Hp1).
  destruct (sh_old _ _ _ K5 _ _ Hp1) as (np' & A & T1 & R1 & C1). assert (np' = np) by congruence; subst np'.
  destruct (C1 (or_introl R)) as (CE & OW & PN).
  assert (NS1 : ~ spent np1).
  { intros (X1 & X2 & X3). apply NS. split; [congruence|]. split.
    - destruct (n_pending np) eqn:E; auto. specialize (PN eq_refl). congruence.
    - destruct (n_parent np) as [q|] eqn:E; auto. destruct (wt_parent _ _ WT _ _ _ Hp E) as (nq & Hq & Y & _).
      rewrite <- T1, X1 in Y. destruct Y as [_ Y]; [congruence|]. destruct (n_type nq); discriminate. }
  destruct (n_owner np1) as [d|] eqn:OP.
  2:{ destruct (wo_noowner _ _ WO1 _ _ Hp1 OP) as [X _]. destruct TT as [E|[E|E]]; congruence. }
  destruct (wo_owner _ _ WO1 _ _ _ Hp1 OP) as [(nd & Hd & Td)|[X _]]; [|contradiction].
  destruct (create_node_spec s1 ch1 d nd TEXT (Some text_name) v None None K2 Hd Td) as (h2 & E2 & W2 & G2); [discriminate|].
  set (t := s_nxt s1) in *. set (s2 := mkSt h2 (S t) (s_log s1)) in *.
  set (nt := set_pending true (new_node TEXT (Some text_name) v None None (Some d))) in *.
  assert (H2t : h2 t = Some nt) by (apply (gr_new _ _ _ _ _ G2)).
  destruct (gr_fwd _ _ _ _ _ G2 _ _ Hp1) as (PT & np2 & Hp2 & EP2 & _).
  assert (F2 : np2 = set_pend (n_pend np2) np1) by auto.
  assert (RO2 : ~ read_only h2 p).
  { intros X. apply RO. eapply ro_shrink; [exact K5|]. destruct X as (m & M1 & M2). assert (m = np2) by congruence; subst m.
    exists np1. split; auto. rewrite EP2 in M2. change (n_type (set_pend (n_pend np2) np1)) with (n_type np1) in M2.
    change (n_ro (set_pend (n_pend np2) np1)) with (n_ro np1) in M2.
    destruct M2 as [Y|[Y|[Y|(Y & a & na & Y1 & Y2 & Y3)]]]; auto. right; right; right. split; auto.
    assert (AN : forall i, anc h2 a i -> i <> t -> anc (s_heap s1) a i /\ a <> t).
    { intros i Z. induction Z; intros NE. { split; [constructor|auto]. }
      destruct (gr_bwd _ _ _ _ _ G2 _ _ H) as [[? _]|(_ & m & M & EM & _)]; [contradiction|].
      assert (PM : n_parent m = Some p0). { rewrite EM in H0. exact H0. }
      destruct (wt_parent _ _ WT1 _ _ _ M PM) as (nq & Q & _).
      destruct IHZ as [I1 I2]. { intros ->. rewrite (gr_fresh _ _ _ _ _ G2) in Q. discriminate. }
      split; auto. econstructor; eauto. }
    destruct (AN p Y1 PT) as [B1 B2].
    destruct (gr_bwd _ _ _ _ _ G2 _ _ Y2) as [[? _]|(_ & m & M & EM & _)]; [contradiction|].
    exists a, m. split; auto. split; auto. rewrite EM in Y3. exact Y3. }
  assert (BND1 : bounded (s_heap s1)). { intros j n J. eapply bounded_shrunk; eauto. }
  assert (HP2 : held h2 p). { exists np2. split; auto. rewrite EP2. cbn. specialize (BND1 _ _ Hp1). split; [lia|exact BND1]. }
  destruct (tree_exists h2 ch1 (S t)) with (i := t) as (tt0 & Rt & Et); [apply W2|apply W2|exists nt; auto|].
  destruct (insert_before_spec s2 ch1 p t None) with (t := tt0) as (o & FF & Q); auto.
  { exists np2. split; auto. rewrite EP2. exact NS1. }
  { exists nt. split; auto. intros [X _]. discriminate X. }
  { intros i X. discriminate X. }
  { exists nt. split; auto. split; [reflexivity|]. unfold no_wrap, two32. reflexivity. }
  change (s_heap s2) with h2 in *.
  assert (TYP2 : n_type np2 = n_type np). { rewrite EP2. cbn. auto. }
  assert (OWN2 : n_owner np2 = Some d). { rewrite EP2. cbn. auto. }
  assert (o = None).
  { destruct o as [e|]; auto. exfalso. unfold insert_checks in FF.
    inversion FF as [|P1 e1 r1 X|P1 e1 r1 o1 _ F1]; subst.
    { unfold wrong_document in X. unfold owner_of in X. rewrite Hp2, H2t in X. destruct X as [X _]. apply X. rewrite OWN2. reflexivity. }
    inversion F1 as [|P2 e2 r2 X|P2 e2 r2 o2 _ F3]; subst. { contradiction. }
    inversion F3 as [|P3 e3 r3 X|P3 e3 r3 o3 _ F4]; subst. { destruct X as (i & X & _). discriminate. }
    inversion F4 as [|P4 e4 r4 X|P4 e4 r4 o4 _ F5]; subst.
    { assert (AN : forall i, anc h2 t i -> i = t \/ exists q, live (s_heap s1) q /\ q = t).
      { intros i Z. induction Z; [auto|]. destruct IHZ as [->|Y]; auto.
        destruct (gr_bwd _ _ _ _ _ G2 _ _ H) as [[? _]|(_ & m & M & EM & _)]; auto.
        right. exists t. split; auto. rewrite EM in H0. change (n_parent m = Some t) in H0.
        destruct (wt_parent _ _ WT1 _ _ _ M H0) as (nq & Q' & _). exists nq; auto. }
      destruct (AN p X) as [Y|(q & (nq & Y) & Z)]; [congruence|]. subst q. rewrite (gr_fresh _ _ _ _ _ G2) in Y. discriminate. }
    inversion F5 as [|P5 e5 r5 X|P5 e5 r5 o5 _ F6]; subst.
    { destruct X as [_ X]. apply X. exists np2, nt. split; auto. split; auto. split.
      - change (n_type nt) with TEXT. rewrite TYP2. destruct TT as [E|[E|E]]; rewrite E; [apply nests_content|apply nests_content|apply nests_attr]; simpl; auto.
      - intros Y. congruence. }
    inversion F6 as [|P6 e6 r6 X|P6 e6 r6 o6 _ F7]; subst.
    { destruct X as [_ (q & X & _)]. unfold parent_of in X. rewrite H2t in X. discriminate. }
    inversion F7. }
  subst o. destruct Q as [[[X _] _]|[_ (h3 & E3 & W3 & ED3)]]. { change (option_map n_type (h2 t) = Some FRAGMENT) in X. rewrite H2t in X. discriminate. }
  change (s_heap s2) with h2 in *.
  set (s3 := withh (addlog s2 (insert_log h2 p t None tt0)) h3) in *.
  set (ch3 := inserted h2 ch1 p t None) in *.
  assert (W3' : wf s3 ch3) by exact W3.
  destruct (ed_some _ _ _ _ ED3 _ _ H2t) as (nt3 & H3t & D1 & D2 & D3 & D4 & D5 & D6 & D7 & D8 & D9 & D10 & D11).
  rewrite Nat.eqb_refl in D9. change (n_ref nt + 1)%N with 2%N in D9.
  assert (CHP : ch3 p = [t]).
  { unfold ch3, inserted, type_of. rewrite H2t. cbn [oid_eqb option_map]. change (n_type nt) with TEXT. cbv iota. rewrite Nat.eqb_refl.
    rewrite K3. reflexivity. }
  assert (CT : ch1 t = []). { apply (wt_dead _ _ WT1). apply (gr_fresh _ _ _ _ _ G2). }
  assert (CHO : forall j, j <> p -> ch3 j = ch1 j).
  { intros j J. unfold ch3, inserted, type_of. rewrite H2t. cbn [oid_eqb option_map]. change (n_type nt) with TEXT. cbv iota.
    apply Nat.eqb_neq in J. rewrite J. apply without_notin. intros I.
    destruct (wt_child _ _ WT1 _ _ I) as (m & _ & M & _). rewrite (gr_fresh _ _ _ _ _ G2) in M. discriminate. }
  assert (PT3 : n_parent nt3 = Some p).
  { destruct W3' as (_ & WT3 & _). destruct (wt_child _ _ WT3 p t) as (m & mp & M1 & _ & _ & M2 & _). { rewrite CHP; left; auto. }
    change (s_heap s3) with h3 in M1. congruence. }
  destruct (unref_spec s3 ch3 t nt3 W3' H3t) as (h4 & ch4 & E4 & W4 & R4). { rewrite D9. reflexivity. } { rewrite D9. unfold two32. reflexivity. }
  rewrite D9 in R4. change (1 <? 2)%N with true in R4. cbn [orb] in R4. destruct R4 as [-> ->].
  change (s_heap s3) with h3 in *.
  set (s4 := withh s3 (hmod h3 t ref_down)) in *.
  assert (H4t : s_heap s4 t = Some (ref_down nt3)). { change (s_heap s4) with (hmod h3 t ref_down). rewrite hmod_same, H3t. auto. }
  assert (RV : n_ref (ref_down nt3) = 1%N). { rewrite ref_down_val; rewrite D9; [reflexivity|reflexivity|unfold two32; reflexivity]. }
  destruct (unref_spec s4 ch3 t _ W4 H4t) as (h5 & ch5 & E5 & W5 & R5). { rewrite RV. reflexivity. } { rewrite RV. unfold two32. reflexivity. }
  change (n_parent (ref_down nt3)) with (n_parent nt3) in R5. rewrite PT3 in R5. cbn [is_none negb] in R5. rewrite orb_true_r in R5.
  destruct R5 as [-> ->].
  change (s_heap s4) with (hmod h3 t ref_down) in *.
  set (s5 := withh s4 (hmod (hmod h3 t ref_down) t ref_down)) in *.
  assert (H5o : forall j, j <> t -> s_heap s5 j = h3 j).
  { intros j J. change (s_heap s5) with (hmod (hmod h3 t ref_down) t ref_down). rewrite !hmod_other; auto. }
  assert (H5t : s_heap s5 t = Some (ref_down (ref_down nt3))).
  { change (s_heap s5) with (hmod (hmod h3 t ref_down) t ref_down). rewrite hmod_same, H4t. auto. }
  exists s5, ch3. split.
  { unfold set_text_content_plain. step (load_ok _ _ _ Hp). 
    assert (FN : n_first np = hd_error (ch p)) by (apply (wt_ends _ _ WT); auto). rewrite FN.
    assert (E1' : with_fuel (fun f => clear_loop f p (hd_error (ch p))) s = Ok tt s1) by exact E1.
    step E1'. step (load_ok _ _ _ Hp1). rewrite OP. unfold create_text. step E2.
    assert (E3' : try (append_child p t) s2 = Ok (inl t) s3). { unfold try, append_child. rewrite E3. reflexivity. }
    step E3'. step E4. exact E5. }
  assert (OLD3 : forall j n', h3 j = Some n' -> j <> t -> exists n, s_heap s1 j = Some n /\ core_eq n n' /\ (n_owner n' = n_owner n \/ n_owner n = None) /\
     (n_pending n = true -> n_pending n' = true)).
  { intros j n' J NE. destruct (h2 j) as [n|] eqn:Hj. 2:{ rewrite (ed_none _ _ _ _ ED3 _ Hj) in J. discriminate. }
    destruct (ed_some _ _ _ _ ED3 _ _ Hj) as (m & M & B1 & B2 & B3 & B4 & B5 & B6 & B7 & B8 & B9 & B10 & B11).
    assert (m = n') by congruence; subst m. apply Nat.eqb_neq in NE as NE'. rewrite NE' in B9.
    destruct (gr_bwd _ _ _ _ _ G2 _ _ Hj) as [[? _]|(_ & m & M2 & EM & _)]; [contradiction|].
    exists m. split; auto. rewrite EM in B1, B2, B3, B4, B5, B6, B7, B8, B9, B10, B11. split; [repeat split; auto|]. split; auto.
    intros X. destruct (B11 X) as [Y|Y]; auto. congruence. }
  rewrite <- K1. fold t.
  constructor.
  - destruct (s_heap s t) as [m|] eqn:E; auto. pose proof (WL _ _ E). unfold t in *. lia.
  - change (s_nxt s5) with (S t). unfold t. auto.
  - exact W5.
  - exact CHP.
  - exists (ref_down (ref_down nt3)). split; [exact H5t|]. split; [exact D1|]. split; [exact D4|]. split; [exact D3|]. split; [exact PT3|].
    split. { rewrite ref_down_val; rewrite RV; [reflexivity|reflexivity|unfold two32; reflexivity]. }
    split; [rewrite CHO by auto; auto|]. exact D2.
  - intros j (m & M) J1 J2. rewrite CHO by auto. apply K4; auto. rewrite H5o in M by auto.
    destruct (OLD3 _ _ M J2) as (m1 & M1 & _). exists m1; auto.
  - intros j n' J NE. rewrite H5o in J by auto. destruct (OLD3 _ _ J NE) as (n1 & J1 & B & C & D).
    destruct (sh_old _ _ _ K5 _ _ J1) as (n & A1 & T & RE & CC). pose proof B as (B1&_&_&_&_&_&_&_&B9).
    exists n. split; auto. split; [congruence|]. split; [congruence|]. intros X. destruct (CC X) as (Y1 & Y2 & Y3).
    split; [eapply core_eq_trans; eauto|]. split; auto. destruct C as [C|C].
    + rewrite C. exact Y2.
    + destruct Y2 as [Y2|Y2]; auto. right; congruence.
  - intros j n J RR. destruct (sh_held _ _ _ K5 _ _ J RR) as (m & M).
    destruct (gr_fwd _ _ _ _ _ G2 _ _ M) as (NE & m2 & M2 & _).
    destruct (ed_some _ _ _ _ ED3 _ _ M2) as (m3 & M3 & _). exists m3. rewrite H5o; auto.
  - intros j n J K. apply (sh_dead _ _ _ K5); auto.
    destruct (s_heap s1 j) as [m|] eqn:M; auto. exfalso.
    destruct (gr_fwd _ _ _ _ _ G2 _ _ M) as (NE & m2 & M2 & _).
    destruct (ed_some _ _ _ _ ED3 _ _ M2) as (m3 & M3 & _). rewrite H5o in K by auto. congruence.
  - intros c n I X.
    destruct (Nat.eq_dec c t) as [->|NE]. { destruct (wt_child _ _ WT _ _ I) as (m & _ & M & _). pose proof (WL _ _ M). unfold t in *. lia. }
    destruct (n_parent n) as [q|] eqn:P; auto. exfalso.
    rewrite H5o in X by auto. destruct (OLD3 _ _ X NE) as (m & M & B & _). pose proof (K6 _ _ I M) as PM.
    assert (WT5 : wfT h3 ch3). { destruct W3' as (_ & Y & _). exact Y. }
    destruct (wt_parent _ _ WT5 _ _ _ X P) as (nq & Hq & Y & Z).
    destruct (wt_child _ _ WT _ _ I) as (nc & _ & Hc & _ & TC & _).
    destruct (sh_old _ _ _ K5 _ _ M) as (nc' & Hc' & TM & _). assert (nc' = nc) by congruence; subst.
    destruct Y as [Y _]. { destruct B as [B _]. congruence. }
    destruct (Nat.eq_dec q p) as [->|NQ].
    + rewrite CHP in Y. destruct Y as [Y|[]]. congruence.
    + rewrite CHO in Y by auto. destruct (wt_child _ _ WT1 _ _ Y) as (m' & _ & M' & _ & _ & PM' & _). congruence.
Qed.
