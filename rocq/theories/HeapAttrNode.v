(** Setting an attribute node keeps the heap invariant. *)
From Coq Require Import List Arith NArith Bool Lia ZifyBool ZifyNat ZifyN.
From Verif Require Import Base HeapModel HeapSpec HeapInv HeapExec HeapTree HeapSplice HeapLoops HeapEdit HeapAttach HeapInsert HeapFrame HeapOps.
Import ListNotations.
Local Open Scope dom_scope.

Lemma NoDup_snoc : forall (l : list id) x, NoDup l -> ~ In x l -> NoDup (l ++ [x]).
Proof.
  intros l x N I. induction N as [|y l Y N IH]; cbn [app]; [constructor; [intros []|constructor]|].
  constructor; [|apply IH; intros J; apply I; right; auto].
  intros J. apply in_app_or in J. destruct J as [J|[J|[]]]; auto. apply I. left. auto.
Qed.

(** An element that can be edited is not below an attribute: only an entity
    reference could be between them. *)
Lemma not_below_attribute : forall h ch, wfT h ch -> forall e ne, h e = Some ne -> n_type ne = ELEMENT -> ~ read_only h e ->
  forall a na, h a = Some na -> n_type na = ATTRIBUTE -> ~ anc h a e.
Proof.
  intros h ch WT e ne He Te NR a na Ha Ta A.
  assert (G : forall i, anc h a i -> forall n, h i = Some n -> n_type n = ATTRIBUTE \/ n_type n = TEXT \/ n_type n = CDATA \/ n_type n = COMMENT \/ n_type n = PI \/
    exists x nx, anc h x i /\ h x = Some nx /\ (n_type nx = ENTITY \/ n_type nx = ENTITY_REFERENCE)).
  { intros i H. induction H as [|i n p Hi P H IH]; intros m Hm.
    - left. congruence.
    - assert (m = n) by congruence. subst m. destruct (wt_parent _ _ WT _ _ _ Hi P) as (np & Hp & Q1 & Q2).
      destruct (ntype_eqb (n_type n) ATTRIBUTE) eqn:TT; [left; apply ntype_eqb_eq; auto|]. apply ntype_eqb_neq in TT.
      destruct (Q1 TT) as [_ PE].
      assert (SELF : n_type n = ENTITY_REFERENCE -> exists x nx, anc h x i /\ h x = Some nx /\ (n_type nx = ENTITY \/ n_type nx = ENTITY_REFERENCE)).
      { intros T. exists i, n. split; [constructor|auto]. }
      destruct (IH np Hp) as [T|[T|[T|[T|[T|(x & nx & X1 & X2 & X3)]]]]];
        try (rewrite T in PE; destruct (n_type n) eqn:Tn; try discriminate PE; auto 10; fail).
      do 5 right. exists x, nx. split; auto. econstructor; eauto. }
  specialize (G e A ne He). rewrite Te in G. destruct G as [G|[G|[G|[G|[G|(x & nx & X1 & X2 & X3)]]]]]; try discriminate.
  apply NR. exists ne. split; auto. right. right. right. split; [congruence|]. eauto.
Qed.

(** The document of a node remembers the top of its tree. *)
Lemma top_pending : forall h ch, wfT h ch -> wfO h ch -> forall d nd, h d = Some nd -> n_type nd = DOCUMENT ->
  forall i, rooted h i -> forall n, h i = Some n -> n_owner n = Some d -> (~ spent n \/ ch i <> []) ->
  (exists r, In r (n_pend nd) /\ anc h r i) \/ i = d \/ ch d <> [].
Proof.
  intros h ch WT WO d nd Hd Td i R. induction R as [i n Hi P|i n p Hi P R IH]; intros m Hm O NS; assert (m = n) by congruence; subst m.
  - destruct (ntype_eqb (n_type n) DOCUMENT) eqn:TT.
    + apply ntype_eqb_eq in TT. destruct (wo_doc _ _ WO _ _ Hi TT) as [O' _]. right. left. congruence.
    + apply ntype_eqb_neq in TT. destruct (wo_top _ _ WO _ _ _ Hi P TT O) as [Q|[Q1 Q2]]; [|tauto].
      destruct (wo_pending _ _ WO _ _ Hi Q) as (_ & d' & nd' & O' & Hd' & I). assert (d' = d) by congruence. subst d'.
      assert (nd' = nd) by congruence. subst nd'. left. exists i. split; auto. constructor.
  - destruct (wt_parent _ _ WT _ _ _ Hi P) as (np & Hp & Q1 & Q2).
    assert (Op : n_owner np = Some d). { rewrite <- (wo_child _ _ WO _ _ _ _ Hi P Hp). auto. }
    assert (EL : n_type n = ATTRIBUTE -> n_type np = ELEMENT).
    { intros T. destruct (wt_attrs _ _ WT _ _ Hp) as (_ & X & _). apply X. specialize (Q2 T). intros Z. rewrite Z in Q2. destruct Q2. }
    destruct (ntype_eqb (n_type n) ATTRIBUTE) eqn:TT.
    + apply ntype_eqb_eq in TT. specialize (EL TT). destruct (IH np Hp Op) as [(r & I & A)|[->|C]]; auto.
      * left. intros (T & _). congruence.
      * left. exists r. split; auto. econstructor; eauto.
      * congruence.
    + apply ntype_eqb_neq in TT. destruct (Q1 TT) as [I _]. destruct (IH np Hp Op) as [(r & J & A)|[->|C]]; auto.
      * right. intros Z. rewrite Z in I. destruct I.
      * left. exists r. split; auto. econstructor; eauto.
      * right. right. intros Z. rewrite Z in I. destruct I.
Qed.

(** The heap after the call. *)
Definition own (e a d : id) (j : id) (n : node) : node :=
  if Nat.eqb j a then set_pending false (set_parent (Some e) n)
  else if Nat.eqb j d then set_pend (remove_id a (n_pend n)) n
  else if Nat.eqb j e then set_attrs (n_attrs n ++ [a]) n else n.
Record owned (h h' : heap) (e a d : id) : Prop := mkOwned {
  ow_none : forall j, h j = None -> h' j = None;
  ow_some : forall j n, h j = Some n -> h' j = Some (own e a d j n) }.
Lemma owned_inv : forall h h' e a d, owned h h' e a d -> forall j n', h' j = Some n' -> exists n, h j = Some n /\ n' = own e a d j n.
Proof.
  intros h h' e a d O j n' H. destruct (h j) as [n|] eqn:E.
  - exists n. split; auto. rewrite (ow_some _ _ _ _ _ O _ _ E) in H. congruence.
  - rewrite (ow_none _ _ _ _ _ O _ E) in H. discriminate.
Qed.
Lemma own_same : forall e a d j n, n_type (own e a d j n) = n_type n /\ n_first (own e a d j n) = n_first n /\ n_last (own e a d j n) = n_last n /\
  n_prev (own e a d j n) = n_prev n /\ n_next (own e a d j n) = n_next n /\ n_owner (own e a d j n) = n_owner n /\ n_ref (own e a d j n) = n_ref n.
Proof. intros. unfold own. destruct (Nat.eqb j a); [|destruct (Nat.eqb j d); [|destruct (Nat.eqb j e)]]; repeat split. Qed.

Section SetNode.
  Variables (s : st) (ch : id -> list id) (e a d : id) (ne na nd : node).
  Let h := s_heap s.
  Hypothesis WF : wf s ch.
  Hypothesis He : h e = Some ne.
  Hypothesis Ha : h a = Some na.
  Hypothesis Hd : h d = Some nd.
  Hypothesis Te : n_type ne = ELEMENT.
  Hypothesis Ta : n_type na = ATTRIBUTE.
  Hypothesis Td : n_type nd = DOCUMENT.
  Hypothesis Oe : n_owner ne = Some d.
  Hypothesis Oa : n_owner na = Some d.
  Hypothesis Pa : n_parent na = None.
  Hypothesis NR : ~ read_only h e.

  Lemma sn_ea : e <> a. Proof. intros ->. assert (ne = na) by congruence. subst. congruence. Qed.
  Lemma sn_ed : e <> d. Proof. intros ->. assert (ne = nd) by congruence. subst. congruence. Qed.
  Lemma sn_ad : a <> d. Proof. intros ->. assert (na = nd) by congruence. subst. congruence. Qed.
  Lemma sn_acy : ~ anc h a e.
  Proof. destruct WF as (WL & WT & _). exact (not_below_attribute h ch WT e ne He Te NR a na Ha Ta). Qed.

  Variable h' : heap.
  Hypothesis OW : owned h h' e a d.

  Lemma sn_a : h' a = Some (set_pending false (set_parent (Some e) na)).
  Proof. rewrite (ow_some _ _ _ _ _ OW _ _ Ha). unfold own. rewrite Nat.eqb_refl. auto. Qed.
  Lemma sn_d : h' d = Some (set_pend (remove_id a (n_pend nd)) nd).
  Proof.
    rewrite (ow_some _ _ _ _ _ OW _ _ Hd). unfold own. destruct (Nat.eqb_spec d a); [symmetry in e0; destruct (sn_ad e0)|].
    rewrite Nat.eqb_refl. auto.
  Qed.
  Lemma sn_e : h' e = Some (set_attrs (n_attrs ne ++ [a]) ne).
  Proof.
    rewrite (ow_some _ _ _ _ _ OW _ _ He). unfold own. destruct (Nat.eqb_spec e a); [destruct (sn_ea e0)|].
    destruct (Nat.eqb_spec e d); [destruct (sn_ed e0)|]. rewrite Nat.eqb_refl. auto.
  Qed.
  Lemma sn_parent : forall j n, j <> a -> n_parent (own e a d j n) = n_parent n /\ n_pending (own e a d j n) = n_pending n.
  Proof.
    intros j n J. unfold own. destruct (Nat.eqb_spec j a); [congruence|]. destruct (Nat.eqb j d); [auto|]. destruct (Nat.eqb j e); auto.
  Qed.
  Lemma sn_attrs : forall j n, j <> e -> n_attrs (own e a d j n) = n_attrs n.
  Proof.
    intros j n J. unfold own. destruct (Nat.eqb j a); [auto|]. destruct (Nat.eqb j d); [auto|]. destruct (Nat.eqb_spec j e); [congruence|auto].
  Qed.
  Lemma sn_pend : forall j n, j <> d -> n_pend (own e a d j n) = n_pend n.
  Proof.
    intros j n J. unfold own. destruct (Nat.eqb j a); [auto|]. destruct (Nat.eqb_spec j d); [congruence|]. destruct (Nat.eqb j e); auto.
  Qed.
  Lemma sn_attrs_in : forall j n x, In x (n_attrs n) -> In x (n_attrs (own e a d j n)).
  Proof.
    intros j n x I. unfold own. destruct (Nat.eqb j a); [auto|]. destruct (Nat.eqb j d); [auto|]. destruct (Nat.eqb j e); auto.
    cbn [set_attrs n_attrs]. apply in_or_app. auto.
  Qed.
  Lemma sn_not_attr : forall j n, h j = Some n -> ~ In a (n_attrs n).
  Proof.
    intros j n Hj I. destruct WF as (_ & WT & _). fold h in WT. destruct (wt_attrs _ _ WT _ _ Hj) as (_ & _ & X). destruct (X a I) as (m & M1 & M2 & M3).
    assert (m = na) by congruence. subst. congruence.
  Qed.

  Lemma sn_rooted : forall i, rooted h i -> rooted h' i.
  Proof.
    assert (G : forall i, rooted h i -> ~ anc h a i -> rooted h' i).
    { intros i R. induction R as [i n Hi P|i n p Hi P R IH]; intros NA.
      - assert (i <> a) by (intros ->; apply NA; constructor).
        eapply rooted_top; [apply (ow_some _ _ _ _ _ OW _ _ Hi)|]. destruct (sn_parent i n H) as [X _]. congruence.
      - assert (i <> a) by (intros ->; apply NA; constructor).
        eapply rooted_step; [apply (ow_some _ _ _ _ _ OW _ _ Hi)| |].
        + destruct (sn_parent i n H) as [X _]. rewrite X. exact P.
        + apply IH. intros X. apply NA. econstructor; eauto. }
    assert (Re : rooted h' e).
    { apply G; [|apply sn_acy]. destruct WF as (_ & WT & _). fold h in WT. apply (wt_rooted _ _ WT). exists ne. auto. }
    intros i R. induction R as [i n Hi P|i n p Hi P R IH].
    - destruct (Nat.eq_dec i a) as [->|N].
      + eapply rooted_step; [apply sn_a|reflexivity|exact Re].
      + eapply rooted_top; [apply (ow_some _ _ _ _ _ OW _ _ Hi)|]. destruct (sn_parent i n N) as [X _]. congruence.
    - assert (N : i <> a) by (intros ->; congruence).
      eapply rooted_step; [apply (ow_some _ _ _ _ _ OW _ _ Hi)| |exact IH]. destruct (sn_parent i n N) as [X _]. congruence.
  Qed.

  Lemma sn_wfT : wfT h' ch.
  Proof.
    destruct WF as (WL & WT & WO & WR). fold h in WL, WT, WO, WR. constructor.
    - intros i H. apply (wt_dead _ _ WT). destruct (s_heap s i) as [n|] eqn:E; auto. rewrite (ow_some _ _ _ _ _ OW _ _ E) in H. discriminate.
    - intros p n' H. destruct (owned_inv _ _ _ _ _ OW _ _ H) as (n & Hn & ->). destruct (own_same e a d p n) as (_ & F & L & _). rewrite F, L.
      apply (wt_ends _ _ WT _ _ Hn).
    - intros p. eapply seg_ext; [|apply (wt_seg _ _ WT)]. intros c n I Hc. exists (own e a d c n). split; [apply (ow_some _ _ _ _ _ OW _ _ Hc)|].
      destruct (own_same e a d c n) as (T & _ & _ & P & X & _).
      assert (N : c <> a). { intros ->. destruct (seg_in _ _ _ _ _ _ (wt_seg _ _ WT p) I) as (m & M1 & M2 & _). fold h in M1. congruence. }
      destruct (sn_parent c n N) as [Y _]. unfold sib_eq. auto.
    - apply (wt_nodup _ _ WT).
    - intros i n' p H P. destruct (owned_inv _ _ _ _ _ OW _ _ H) as (n & Hn & ->). destruct (own_same e a d i n) as (T & _). rewrite T.
      destruct (Nat.eq_dec i a) as [->|N].
      + assert (n = na) by congruence. subst n. unfold own in P. rewrite Nat.eqb_refl in P. cbn in P. inversion P; subst p.
        eexists. split; [apply sn_e|]. split; [congruence|]. intros _. cbn [set_attrs n_attrs]. apply in_or_app. right. left. auto.
      + destruct (sn_parent i n N) as [Y _]. rewrite Y in P. destruct (wt_parent _ _ WT _ _ _ Hn P) as (np & Hp & Q1 & Q2).
        eexists. split; [apply (ow_some _ _ _ _ _ OW _ _ Hp)|]. destruct (own_same e a d p np) as (Tp & _). rewrite Tp. split; auto.
        intros X. apply sn_attrs_in. auto.
    - intros j n' H. destruct (owned_inv _ _ _ _ _ OW _ _ H) as (n & Hn & ->). destruct (wt_attrs _ _ WT _ _ Hn) as (ND & TY & IN).
      destruct (own_same e a d j n) as (T & _). rewrite T.
      destruct (Nat.eq_dec j e) as [->|N].
      + assert (n = ne) by congruence. subst n. assert (X : n_attrs (own e a d e ne) = n_attrs ne ++ [a]).
        { pose proof sn_e as X. rewrite (ow_some _ _ _ _ _ OW _ _ He) in X. inversion X as [X0]. rewrite X0. reflexivity. }
        rewrite X. split; [|split].
        * apply NoDup_snoc; auto. apply (sn_not_attr e ne He).
        * auto.
        * intros b I. apply in_app_or in I. destruct I as [I|[<-|[]]].
          -- destruct (IN b I) as (nb & B1 & B2 & B3). eexists. split; [apply (ow_some _ _ _ _ _ OW _ _ B1)|].
             destruct (own_same e a d b nb) as (Tb & _). split; [congruence|].
             assert (b <> a). { intros ->. apply (sn_not_attr e ne He). auto. }
             destruct (sn_parent b nb H0) as [Y _]. congruence.
          -- eexists. split; [apply sn_a|]. split; auto.
      + rewrite (sn_attrs j n N). split; [|split]; auto. intros b I. destruct (IN b I) as (nb & B1 & B2 & B3).
        eexists. split; [apply (ow_some _ _ _ _ _ OW _ _ B1)|]. destruct (own_same e a d b nb) as (Tb & _). split; [congruence|].
        assert (b <> a). { intros ->. apply (sn_not_attr j n Hn). auto. }
        destruct (sn_parent b nb H0) as [Y _]. congruence.
    - intros i [n' H]. destruct (owned_inv _ _ _ _ _ OW _ _ H) as (n & Hn & ->). apply sn_rooted. apply (wt_rooted _ _ WT). exists n. auto.
  Qed.

  Lemma sn_spent : forall j n, h j = Some n -> (spent (own e a d j n) <-> spent n).
  Proof.
    intros j n Hj. unfold spent. destruct (own_same e a d j n) as (T & _). rewrite T. destruct (Nat.eq_dec j a) as [->|N].
    - assert (n = na) by congruence. subst. rewrite Ta. split; intros (X & _); discriminate.
    - destruct (sn_parent j n N) as [-> ->]. tauto.
  Qed.

  Lemma sn_wfO : wfO h' ch.
  Proof.
    destruct WF as (WL & WT & WO & WR). fold h in WL, WT, WO, WR. constructor.
    - intros i n' H T. destruct (owned_inv _ _ _ _ _ OW _ _ H) as (n & Hn & ->). destruct (own_same e a d i n) as (T0 & _ & _ & _ & _ & O & _).
      rewrite T0 in T. assert (N : i <> a) by (intros ->; congruence). destruct (sn_parent i n N) as [-> ->]. rewrite O.
      destruct (wo_doc _ _ WO _ _ Hn T) as (A1 & A2 & A3 & A4). split; auto. split; auto. split; auto.
      destruct (Nat.eq_dec i d) as [->|D]; [|rewrite sn_pend; auto].
      assert (n = nd) by congruence. subst n. pose proof sn_d as X. rewrite (ow_some _ _ _ _ _ OW _ _ Hd) in X. inversion X as [X0]. rewrite X0. cbn [set_pend n_pend].
      apply NoDup_filter. auto.
    - intros i n' H T. destruct (owned_inv _ _ _ _ _ OW _ _ H) as (n & Hn & ->). destruct (own_same e a d i n) as (T0 & _). rewrite T0 in T.
      rewrite sn_pend; [|intros ->; congruence]. apply (wo_nondoc _ _ WO _ _ Hn T).
    - intros d0 nd' i H I. destruct (owned_inv _ _ _ _ _ OW _ _ H) as (n & Hn & ->).
      assert (J : In i (n_pend n) /\ i <> a).
      { destruct (Nat.eq_dec d0 d) as [->|D].
        - assert (n = nd) by congruence. subst n. pose proof sn_d as X. rewrite (ow_some _ _ _ _ _ OW _ _ Hd) in X. inversion X as [X0]. rewrite X0 in I. cbn [set_pend n_pend] in I.
          unfold remove_id in I. apply filter_In in I. destruct I as [I1 I2]. split; auto. intros ->. rewrite Nat.eqb_refl in I2. discriminate.
        - rewrite sn_pend in I by auto. split; auto. intros ->. destruct (wo_pend _ _ WO _ _ _ Hn I) as (m & M1 & M2 & _). fold h in M1. congruence. }
      destruct J as [J N]. destruct (wo_pend _ _ WO _ _ _ Hn J) as (m & M1 & M2 & M3).
      eexists. split; [apply (ow_some _ _ _ _ _ OW _ _ M1)|]. destruct (own_same e a d i m) as (_ & _ & _ & _ & _ & O & _). destruct (sn_parent i m N) as [_ X].
      rewrite O, X. auto.
    - intros i n' H P. destruct (owned_inv _ _ _ _ _ OW _ _ H) as (n & Hn & ->).
      assert (N : i <> a). { intros ->. unfold own in P. rewrite Nat.eqb_refl in P. discriminate. }
      destruct (sn_parent i n N) as [X Y]. rewrite X. rewrite Y in P. destruct (wo_pending _ _ WO _ _ Hn P) as (A1 & d0 & nd0 & A2 & A3 & A4). split; auto.
      destruct (own_same e a d i n) as (_ & _ & _ & _ & _ & O & _). rewrite O.
      exists d0. eexists. split; auto. split; [apply (ow_some _ _ _ _ _ OW _ _ A3)|].
      destruct (Nat.eq_dec d0 d) as [->|D]; [|rewrite sn_pend; auto].
      assert (nd0 = nd) by congruence. subst nd0. pose proof sn_d as Z. rewrite (ow_some _ _ _ _ _ OW _ _ Hd) in Z. inversion Z as [Z0]. rewrite Z0. cbn [set_pend n_pend].
      unfold remove_id. apply filter_In. split; auto. destruct (Nat.eqb_spec i a); [congruence|auto].
    - intros i n' d0 H O. destruct (owned_inv _ _ _ _ _ OW _ _ H) as (n & Hn & ->). destruct (own_same e a d i n) as (_ & _ & _ & _ & _ & O' & _). rewrite O' in O.
      destruct (wo_owner _ _ WO _ _ _ Hn O) as [(m & M1 & M2)|[S1 S2]].
      + left. eexists. split; [apply (ow_some _ _ _ _ _ OW _ _ M1)|]. destruct (own_same e a d d0 m) as (T & _). congruence.
      + right. split; auto. apply (sn_spent i n Hn). auto.
    - intros i n' H O. destruct (owned_inv _ _ _ _ _ OW _ _ H) as (n & Hn & ->). destruct (own_same e a d i n) as (T & _ & _ & _ & _ & O' & _). rewrite O' in O. rewrite T.
      assert (N : i <> a) by (intros ->; congruence). destruct (sn_parent i n N) as [X _]. rewrite X. apply (wo_noowner _ _ WO _ _ Hn O).
    - intros i n' p np' H P Hp. destruct (owned_inv _ _ _ _ _ OW _ _ H) as (n & Hn & ->). destruct (owned_inv _ _ _ _ _ OW _ _ Hp) as (np & Hnp & ->).
      destruct (own_same e a d i n) as (_ & _ & _ & _ & _ & O1 & _). destruct (own_same e a d p np) as (_ & _ & _ & _ & _ & O2 & _). rewrite O1, O2.
      destruct (Nat.eq_dec i a) as [->|N].
      + unfold own in P. rewrite Nat.eqb_refl in P. cbn in P. inversion P; subst p. congruence.
      + destruct (sn_parent i n N) as [X _]. rewrite X in P. apply (wo_child _ _ WO _ _ _ _ Hn P Hnp).
    - intros i n' d0 H P T O. destruct (owned_inv _ _ _ _ _ OW _ _ H) as (n & Hn & ->). destruct (own_same e a d i n) as (T0 & _ & _ & _ & _ & O1 & _). rewrite T0 in T. rewrite O1 in O.
      assert (N : i <> a). { intros ->. unfold own in P. rewrite Nat.eqb_refl in P. discriminate. }
      destruct (sn_parent i n N) as [X Y]. rewrite X in P. rewrite Y.
      destruct (wo_top _ _ WO _ _ _ Hn P T O) as [Q|[Q1 Q2]]; auto. right. split; auto. apply (sn_spent i n Hn). auto.
  Qed.

  Lemma sn_wfR : wfR h' ch.
  Proof.
    destruct WF as (WL & WT & WO & WR). fold h in WL, WT, WO, WR. constructor.
    - intros i n' H P T. destruct (owned_inv _ _ _ _ _ OW _ _ H) as (n & Hn & ->). destruct (own_same e a d i n) as (T0 & _ & _ & _ & _ & _ & R). rewrite T0 in T. rewrite R.
      assert (N : i <> a). { intros ->. unfold own in P. rewrite Nat.eqb_refl in P. discriminate. }
      destruct (sn_parent i n N) as [X _]. rewrite X in P. apply (wr_top _ _ WR _ _ Hn P T).
    - intros i n' H T. destruct (owned_inv _ _ _ _ _ OW _ _ H) as (n & Hn & ->). destruct (own_same e a d i n) as (T0 & _ & _ & _ & _ & _ & R). rewrite T0 in T. rewrite R.
      destruct (wr_doc _ _ WR _ _ Hn T) as [Q|[Q1 Q2]]; auto. right. split; auto.
      destruct (Nat.eq_dec i d) as [->|D]; [|rewrite sn_pend; auto].
      assert (n = nd) by congruence. subst n. pose proof sn_d as X. rewrite (ow_some _ _ _ _ _ OW _ _ Hd) in X. inversion X as [X0]. rewrite X0. cbn [set_pend n_pend].
      assert (Re : rooted h e) by (apply (wt_rooted _ _ WT); exists ne; auto).
      destruct (top_pending h ch WT WO d nd Hd Td e Re ne He Oe) as [(r & I & A)|[Z|Z]].
      + left. intros (Z & _). congruence.
      + intros Z. assert (K : In r (remove_id a (n_pend nd))).
        { unfold remove_id. apply filter_In. split; auto. destruct (Nat.eqb_spec r a) as [->|]; auto. exfalso. apply sn_acy. auto. }
        rewrite Z in K. destruct K.
      + destruct (sn_ed Z).
      + congruence.
  Qed.

  Lemma sn_wf : wf (withh s h') ch.
  Proof.
    unfold wf. rewrite withh_heap, withh_nxt. split; [|split; [apply sn_wfT|split; [apply sn_wfO|apply sn_wfR]]].
    intros i n' H. destruct (owned_inv _ _ _ _ _ OW _ _ H) as (n & Hn & _). destruct WF as (WL & _). apply (WL _ _ Hn).
  Qed.
End SetNode.

Section SetNodeExec.
  Variables (s : st) (ch : id -> list id) (e a : id) (ne na : node).
  Let h := s_heap s.
  Hypothesis WF : wf s ch.
  Hypothesis He : h e = Some ne.
  Hypothesis Ha : h a = Some na.
  Hypothesis Te : n_type ne = ELEMENT.
  Hypothesis Ta : n_type na = ATTRIBUTE.

  (** The checks of setAttributeNode, then its effect. *)
  Lemma set_attribute_node_spec : n_parent na <> Some e ->
    (n_owner na <> n_owner ne /\ set_attribute_node e a s = Exc WRONG_DOCUMENT_ERR s) \/
    (n_owner na = n_owner ne /\ read_only h e /\ set_attribute_node e a s = Exc NO_MODIFICATION_ALLOWED_ERR s) \/
    (n_owner na = n_owner ne /\ ~ read_only h e /\ n_parent na <> None /\ set_attribute_node e a s = Exc INUSE_ATTRIBUTE_ERR s) \/
    (n_owner na = n_owner ne /\ ~ read_only h e /\ n_parent na = None /\
     exists h' d l, set_attribute_node e a s = Ok tt (withh (addlog s l) h') /\ n_owner ne = Some d /\
       owned h h' e a d /\ wf (withh (addlog s l) h') ch).
  Proof.
    intros PE. assert (WF0 := WF). destruct WF0 as (WL & WT & WO & WR). fold h in WL, WT, WO, WR.
    assert (NSe : ~ spent ne) by (intros (X & _); congruence).
    destruct (parent_doc _ _ WT WO _ _ He NSe) as (d & nd & Oe & Hd & Td); [congruence|].
    unfold set_attribute_node. step (load_ok s e ne He). step (load_ok s a na Ha).
    destruct (oid_eqb (n_owner ne) (n_owner na)) eqn:EO.
    2:{ left. apply oid_eqb_neq in EO. split; [congruence|]. reflexivity. }
    apply oid_eqb_eq in EO. symmetry in EO. cbn [check]. rewrite bind_ret.
    assert (Le : live h e) by (exists ne; auto).
    destruct (readonly_ok s ch WL WT e Le) as (ro & ERO & BRO). step ERO.
    destruct ro. { right. left. split; auto. split; [apply BRO; auto|]. reflexivity. }
    assert (NR : ~ read_only h e) by (intros X; apply BRO in X; discriminate). cbn [negb check]. rewrite bind_ret.
    destruct (n_parent na) as [q|] eqn:Pa.
    { right. right. left. split; auto. split; auto. split; [discriminate|]. cbn [is_none orb].
      destruct (oid_eqb (Some q) (Some e)) eqn:Q; [apply oid_eqb_eq in Q; congruence|]. reflexivity. }
    cbn [is_none orb check]. rewrite bind_ret. right. right. right. split; auto. split; auto. split; auto.
    assert (Oa : n_owner na = Some d) by congruence.
    assert (Pn : n_pending na = true).
    { destruct (wo_top _ _ WO _ _ d Ha Pa ltac:(congruence) Oa) as [Q|[(Q & _) _]]; auto; congruence. }
    assert (EA : e <> a) by (intros ->; assert (ne = na) by congruence; subst; congruence).
    assert (ED : e <> d) by (intros ->; assert (ne = nd) by congruence; subst; congruence).
    assert (AD : a <> d) by (intros ->; assert (na = nd) by congruence; subst; congruence).
    set (h1 := hmod h a (set_parent (Some e))).
    assert (U1 : upd a (set_parent (Some e)) s = Ok tt (withh s h1)) by (apply (upd_ok s a na); auto). step U1.
    assert (H1a : h1 a = Some (set_parent (Some e) na)). { unfold h1. rewrite hmod_same. rewrite Ha. auto. }
    set (h2 := hmod (hmod h1 d (fun n => set_pend (remove_id a (n_pend n)) n)) a (set_pending false)).
    assert (H1d : h1 d = Some nd). { unfold h1. rewrite hmod_other; auto. }
    assert (U2 : remove_pending a (withh s h1) = Ok tt (withh s h2)).
    { unfold remove_pending. step (load_ok (withh s h1) a _ H1a). cbn [set_parent n_owner n_pending]. rewrite Oa, Pn. cbn [assert_]. rewrite bind_ret.
      unfold pend_del. step (upd_ok (withh s h1) d nd (fun n => set_pend (remove_id a (n_pend n)) n) H1d).
      set (h1' := hmod (s_heap (withh s h1)) d _).
      assert (X : h1' a = Some (set_parent (Some e) na)). { unfold h1'. rewrite hmod_other; auto. }
      rewrite (upd_ok (withh (withh s h1) h1') a _ (set_pending false) X). reflexivity. }
    step U2.
    assert (H2 : forall j n, h j = Some n -> h2 j = Some (if Nat.eqb j a then set_pending false (set_parent (Some e) n)
                 else if Nat.eqb j d then set_pend (remove_id a (n_pend n)) n else n)).
    { intros j n Hj. unfold h2, h1. destruct (Nat.eqb_spec j a) as [->|N].
      - rewrite hmod_same, hmod_other, hmod_same, Hj by auto. reflexivity.
      - rewrite hmod_other by auto. destruct (Nat.eqb_spec j d) as [->|D].
        + rewrite hmod_same, hmod_other, Hj by auto. reflexivity.
        + rewrite !hmod_other by auto. auto. }
    assert (H2n : forall j, h j = None -> h2 j = None).
    { intros j Hj. unfold h2, h1. rewrite !hmod_none. auto. }
    (* the events *)
    destruct (tree_exists h ch (s_nxt s) WL WT a) as (t & Rt & Et). { exists na; auto. }
    assert (R2 : repr h2 t).
    { eapply (subtree_frame h ch h2 t WT Rt).
      - rewrite Et. intros n Hn. eexists. split; [apply (H2 _ _ Hn)|]. rewrite Nat.eqb_refl. unfold down_eq. auto.
      - rewrite Et. intros j n A N Hj. eexists. split; [apply (H2 _ _ Hj)|]. destruct (Nat.eqb_spec j a); [congruence|].
        destruct (Nat.eqb j d); unfold link_eq, sib_eq; cbn; auto 10. }
    destruct (achain_ex s ch WL WT e Le) as (le & Ce & LE).
    assert (C2 : achain h2 (Some e) le).
    { assert (G : forall o l, achain h o l -> ~ In a l -> achain h2 o l).
      { intros o l C. induction C as [|i n l Hi C IH]; intros NI; [constructor|].
        assert (i <> a) by (intros ->; apply NI; left; auto).
        econstructor; [apply (H2 _ _ Hi)|]. destruct (Nat.eqb_spec i a); [congruence|]. destruct (Nat.eqb i d); cbn; apply IH; intros X; apply NI; right; auto. }
      apply G; auto. intros I. apply (achain_anc h e le Ce) in I. apply (not_below_attribute h ch WT e ne He Te NR a na Ha Ta). tauto. }
    assert (Ca : achain h2 (Some a) (a :: le)).
    { econstructor; [apply (H2 _ _ Ha)|]. rewrite Nat.eqb_refl. cbn. exact C2. }
    assert (H2d : h2 d = Some (set_pend (remove_id a (n_pend nd)) nd)).
    { rewrite (H2 _ _ Hd). destruct (Nat.eqb_spec d a); [congruence|]. rewrite Nat.eqb_refl. auto. }
    assert (ND := repr_nodup h ch WT t Rt). assert (SZ := repr_size h ch (s_nxt s) WL WT t Rt).
    assert (EV : change_event (n_owner ne) a (Some e) ADDITION (withh s h2) = Ok tt (addlog (withh s h2) (ev_node ADDITION a e :: map (ev_doc ADDITION) (desc t)))).
    { rewrite Oe. refine (change_event_ok d _ a e ADDITION (withh s h2) t le H2d R2 Et Ca ND _).
      unfold fuel_of. rewrite withh_nxt. lia. }
    step EV. set (l := ev_node ADDITION a e :: map (ev_doc ADDITION) (desc t)).
    assert (SE : subtree_event (n_owner ne) e (addlog (withh s h2) l) = Ok tt (addlog (withh s h2) (l ++ [EvSubtree e]))).
    { rewrite Oe. unfold subtree_event. step (deref_ok d (addlog (withh s h2) l)).
      step (load_ok (addlog (withh s h2) l) d _ H2d). unfold fire. rewrite <- addlog_addlog. reflexivity. }
    step SE.
    assert (H2e : h2 e = Some ne).
    { rewrite (H2 _ _ He). destruct (Nat.eqb_spec e a); [congruence|]. destruct (Nat.eqb_spec e d); [congruence|auto]. }
    set (h3 := hmod h2 e (fun n => set_attrs (n_attrs n ++ [a]) n)).
    exists h3, d, (l ++ [EvSubtree e]). split; [|split; [auto|]].
    - rewrite (upd_ok (addlog (withh s h2) (l ++ [EvSubtree e])) e ne _ H2e). reflexivity.
    - assert (OW : owned h h3 e a d).
      { constructor.
        - intros j Hj. unfold h3. rewrite hmod_none. auto.
        - intros j n Hj. unfold h3, own. destruct (Nat.eq_dec j e) as [->|N].
          + rewrite hmod_same, H2e. assert (n = ne) by congruence. subst n. destruct (Nat.eqb_spec e a); [congruence|]. destruct (Nat.eqb_spec e d); [congruence|].
            rewrite Nat.eqb_refl. auto.
          + rewrite hmod_other by auto. rewrite (H2 _ _ Hj). destruct (Nat.eqb j a); auto. destruct (Nat.eqb j d); auto. destruct (Nat.eqb_spec j e); congruence. }
      split; auto.
      pose proof (sn_wf s ch e a d ne na nd WF He Ha Hd Te Ta Td Oe Oa Pa NR h3 OW) as W3. exact W3.
  Qed.
End SetNodeExec.
