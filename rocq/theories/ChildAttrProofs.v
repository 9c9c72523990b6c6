(** What removeChild does with an attribute of the element, and what the calls on
    child lists leave alone. *)
From Coq Require Import List Arith NArith Bool Lia ZifyBool ZifyNat ZifyN.
From Verif Require Import Base HeapModel HeapSpec HeapInv HeapExec HeapTree HeapSplice HeapLoops HeapEdit HeapAttach HeapInsert HeapFrame
  HeapOps HeapReplace HeapReplaceOp HeapRemoveOp HeapDestroy HeapGut HeapUnref HeapCreate HistModel HistProofs TreeSpec TreeProofs HeapAttrNode TreeProofs3 ContentProofs ChildAttrSpec.
Import ListNotations.
Local Open Scope dom_scope.

Section RemoveAttribute.
  Variables (s : st) (ch : id -> list id) (e a d : id) (ne na nd : node).
  Let h := s_heap s.
  Hypothesis WF : wf s ch.
  Hypothesis He : h e = Some ne.
  Hypothesis Ha : h a = Some na.
  Hypothesis Hd : h d = Some nd.
  Hypothesis Te : n_type ne = ELEMENT.
  Hypothesis Ta : n_type na = ATTRIBUTE.
  Hypothesis Td : n_type nd = DOCUMENT.
  Hypothesis Oe : n_owner ne = Some d.
  Hypothesis Pa : n_parent na = Some e.
  Hypothesis Va : n_prev na = None.
  Hypothesis Xa : n_next na = None.
  Hypothesis NR : ~ read_only h e.
  Hypothesis NW : no_wrap na.

  (** The heap when detach is done with the links. *)
  Definition cut (j : id) (n : node) : node :=
    if Nat.eqb j a then set_pending true n
    else if Nat.eqb j d then set_pend (n_pend n ++ [a]) n
    else if Nat.eqb j e then set_last None (set_first None n) else n.

  Lemma remove_attribute_exec : exists s', remove_child e a s = Ok a s' /\
    (forall j n, h j = Some n -> exists n', s_heap s' j = Some n' /\
       (j <> e -> n_first n' = n_first n /\ n_last n' = n_last n) /\
       (j = e -> n_first n' = None /\ n_last n' = None) /\
       (j <> a -> n_parent n' = n_parent n) /\ (j = a -> n_parent n' = None) /\
       n_attrs n' = n_attrs n /\ n_type n' = n_type n).
  Proof.
    assert (WF0 := WF). destruct WF0 as (WL & WT & WO & WR). fold h in WL, WT, WO, WR.
    assert (EA : e <> a) by (intros ->; assert (ne = na) by congruence; subst; congruence).
    assert (ED : e <> d) by (intros ->; assert (ne = nd) by congruence; subst; congruence).
    assert (AD : a <> d) by (intros ->; assert (na = nd) by congruence; subst; congruence).
    assert (Le : live h e) by (exists ne; auto).
    assert (Oa : n_owner na = Some d) by (rewrite (wo_child _ _ WO _ _ _ _ Ha Pa He); auto).
    assert (PN : n_pending na = false).
    { destruct (n_pending na) eqn:E; auto. destruct (wo_pending _ _ WO _ _ Ha E). congruence. }
    destruct (tree_exists h ch (s_nxt s) WL WT a) as (t & Rt & Et). { exists na; auto. }
    assert (ND := repr_nodup h ch WT t Rt). assert (SZ := repr_size h ch (s_nxt s) WL WT t Rt).
    destruct (achain_ex s ch WL WT e Le) as (le & Ce & LE).
    assert (Ca : achain h (Some a) (a :: le)) by (apply (achain_cons _ a na); auto; rewrite Pa; auto).
    unfold remove_child. step (load_ok s e ne He). step (load_ok s a na Ha).
    rewrite Te. cbn [ntype_eqb andb negb check]. rewrite bind_ret.
    rewrite Pa, oid_eqb_some, Nat.eqb_refl. cbn [check]. rewrite bind_ret.
    destruct (readonly_ok s ch WL WT e Le) as (ro & ERO & BRO). step ERO.
    destruct ro. { exfalso. apply NR. apply BRO. reflexivity. } cbn [negb check]. rewrite bind_ret. rewrite Oe.
    set (l := ev_node REMOVAL a e :: map (ev_doc REMOVAL) (desc t)).
    assert (CE : change_event (Some d) a (Some e) REMOVAL s = Ok tt (addlog s l)).
    { apply (change_event_ok d nd a e REMOVAL s t le); auto. unfold fuel_of. lia. }
    step CE. set (s0 := addlog s l).
    set (h1 := hmod (hmod h d (fun n => set_pend (n_pend n ++ [a]) n)) a (set_pending true)).
    set (h3 := hmod (hmod h1 e (set_first None)) e (set_last None)).
    assert (H1a : h1 a = Some (set_pending true na)). { unfold h1. rewrite hmod_same, hmod_other, Ha by auto. reflexivity. }
    assert (H1e : h1 e = Some ne). { unfold h1. rewrite !hmod_other; auto. }
    assert (H2a : hmod h1 e (set_first None) a = Some (set_pending true na)). { rewrite hmod_other; auto. }
    assert (H2e : hmod h1 e (set_first None) e = Some (set_first None ne)). { rewrite hmod_same, H1e. reflexivity. }
    assert (H3 : forall j n, h j = Some n -> h3 j = Some (cut j n)).
    { intros j n Hj. unfold h3, cut. destruct (Nat.eqb_spec j a) as [->|N].
      - rewrite !hmod_other by auto. assert (n = na) by congruence. subst n. exact H1a.
      - destruct (Nat.eqb_spec j d) as [->|N2].
        + rewrite !hmod_other by auto. unfold h1. rewrite hmod_other, hmod_same, Hj by auto. reflexivity.
        + destruct (Nat.eqb_spec j e) as [->|N3].
          * rewrite hmod_same, H2e. assert (n = ne) by congruence. subst n. reflexivity.
          * rewrite !hmod_other by auto. unfold h1. rewrite !hmod_other by auto. exact Hj. }
    assert (DE : detach a s0 = Ok tt (withh (addlog s0 (l ++ [EvSubtree e])) (hmod (hmod (hmod h3 a (set_parent None)) a (set_prev None)) a (set_next None)))).
    { unfold detach.
      assert (E1 : mark_pending a s0 = Ok tt (withh s0 h1)).
      { unfold mark_pending. step (load_ok s0 a na Ha). rewrite Oa, PN. cbn [negb assert_]. rewrite bind_ret. unfold pend_append.
        step (upd_ok s0 d nd (fun n => set_pend (n_pend n ++ [a]) n) Hd). set (h1' := hmod (s_heap s0) d _).
        assert (X : h1' a = Some na). { unfold h1'. rewrite hmod_other; auto. }
        rewrite (upd_ok (withh s0 h1') a na (set_pending true) X). reflexivity. }
      step E1. step (load_ok (withh s0 h1) a _ H1a). cbn [set_pending n_prev n_next n_parent]. rewrite Va, Pa, Xa.
      assert (E2 : (p <- deref (Some e) ;; upd p (set_first None)) (withh s0 h1) = Ok tt (withh s0 (hmod h1 e (set_first None)))).
      { step (deref_ok e (withh s0 h1)). rewrite (upd_ok (withh s0 h1) e ne (set_first None) H1e). reflexivity. }
      step E2. step (load_ok (withh s0 (hmod h1 e (set_first None))) a _ H2a). cbn [set_pending n_prev n_next n_parent]. rewrite Va, Pa, Xa.
      assert (E3 : (p <- deref (Some e) ;; upd p (set_last None)) (withh s0 (hmod h1 e (set_first None))) = Ok tt (withh s0 h3)).
      { step (deref_ok e (withh s0 (hmod h1 e (set_first None)))). rewrite (upd_ok (withh s0 (hmod h1 e (set_first None))) e _ (set_last None) H2e). reflexivity. }
      step E3.
      assert (H3a : h3 a = Some (set_pending true na)). { rewrite (H3 _ _ Ha). unfold cut. rewrite Nat.eqb_refl. reflexivity. }
      assert (H3d : exists m, h3 d = Some m) by (eexists; exact (H3 _ _ Hd)). destruct H3d as (nd3 & H3d).
      assert (H3e : h3 e = Some (set_last None (set_first None ne))).
      { rewrite (H3 _ _ He). unfold cut. destruct (Nat.eqb_spec e a); [congruence|]. destruct (Nat.eqb_spec e d); [congruence|]. rewrite Nat.eqb_refl. reflexivity. }
      step (load_ok (withh s0 h3) a _ H3a). cbn [set_pending n_owner n_parent]. rewrite Oa, Pa.
      assert (R3 : repr h3 t).
      { eapply (subtree_frame h ch h3 t WT Rt).
        - rewrite Et. intros n Hn. eexists. split; [apply (H3 _ _ Hn)|]. unfold cut. rewrite Nat.eqb_refl. unfold down_eq. auto.
        - rewrite Et. intros j n A N Hj. eexists. split; [apply (H3 _ _ Hj)|]. unfold cut. destruct (Nat.eqb_spec j a); [congruence|].
          destruct (Nat.eqb_spec j d); [unfold link_eq, sib_eq; cbn; auto 10|].
          destruct (Nat.eqb_spec j e) as [->|]; [|unfold link_eq, sib_eq; auto 10].
          exfalso. apply (not_below_attribute h ch WT e ne He Te NR a na Ha Ta A). }
      assert (C3 : achain h3 (Some a) (a :: le)).
      { eapply achain_ext; [|exact Ca]. intros j n Hj. eexists. split; [apply (H3 _ _ Hj)|]. unfold cut.
        destruct (Nat.eqb j a); [reflexivity|]. destruct (Nat.eqb j d); [reflexivity|]. destruct (Nat.eqb j e); reflexivity. }
      assert (CE3 : change_event (Some d) a (Some e) REMOVAL (withh s0 h3) = Ok tt (addlog (withh s0 h3) l)).
      { apply (change_event_ok d nd3 a e REMOVAL (withh s0 h3) t le); auto. unfold fuel_of. rewrite withh_nxt. unfold s0. cbn [addlog s_nxt]. lia. }
      step CE3. set (s3 := addlog (withh s0 h3) l).
      step (upd_ok s3 a _ (set_parent None) H3a). change (s_heap s3) with h3. set (s4 := withh s3 _).
      step (deref_ok e s4).
      assert (H4e : s_heap s4 e = Some (set_last None (set_first None ne))). { unfold s4. rewrite withh_heap, hmod_other; auto. }
      assert (H4d : s_heap s4 d = Some nd3). { unfold s4. rewrite withh_heap, hmod_other; auto. }
      step (load_ok s4 e _ H4e). cbn [set_last set_first n_owner]. rewrite Oe.
      assert (SE : subtree_event (Some d) e s4 = Ok tt (addlog s4 [EvSubtree e])).
      { unfold subtree_event. step (deref_ok d s4). step (load_ok s4 d nd3 H4d). reflexivity. }
      step SE.
      assert (H4a : s_heap (addlog s4 [EvSubtree e]) a = Some (set_parent None (set_pending true na))).
      { unfold s4. rewrite addlog_heap, withh_heap, hmod_same, H3a. reflexivity. }
      step (upd_ok _ a _ (set_prev None) H4a). set (s5 := withh (addlog s4 [EvSubtree e]) _).
      assert (H5a : s_heap s5 a = Some (set_prev None (set_parent None (set_pending true na)))).
      { unfold s5. rewrite withh_heap, hmod_same, H4a. reflexivity. }
      rewrite (upd_ok s5 a _ (set_next None) H5a). unfold s5, s4, s3, withh, addlog. cbn [s_heap s_nxt s_log]. rewrite !app_assoc. reflexivity. }
    step DE. set (h4 := hmod _ a (set_next None)). set (s1 := withh _ h4).
    assert (H4 : forall j n, h j = Some n -> h4 j = Some (if Nat.eqb j a then set_next None (set_prev None (set_parent None (cut j n))) else cut j n)).
    { intros j n Hj. unfold h4. destruct (Nat.eqb_spec j a) as [->|N].
      - rewrite !hmod_same, (H3 _ _ Hj). reflexivity.
      - rewrite !hmod_other by auto. exact (H3 _ _ Hj). }
    assert (H4a : h4 a = Some (set_next None (set_prev None (set_parent None (set_pending true na))))).
    { rewrite (H4 _ _ Ha), Nat.eqb_refl. unfold cut. rewrite Nat.eqb_refl. reflexivity. }
    step (node_ref_ok s1 a _ H4a). set (h5 := hmod (s_heap s1) a ref_up). set (s2 := withh s1 h5).
    set (n4 := set_next None (set_prev None (set_parent None (set_pending true na)))) in *.
    assert (H5a : h5 a = Some (ref_up n4)). { unfold h5. rewrite hmod_same. unfold s1. rewrite withh_heap, H4a. reflexivity. }
    assert (NW4 : no_wrap n4) by exact NW.
    assert (E2 : try_destroy a s2 = Ok tt s2).
    { unfold try_destroy, with_fuel, try_destroy_with. step (load_ok s2 a _ H5a).
      change (n_parent (ref_up n4)) with (n_parent n4). change (n_pending (ref_up n4)) with (n_pending n4).
      rewrite ref_up_val by auto. destruct (N.eqb_spec (n_ref n4 + 1) 0); [lia|]. reflexivity. }
    step E2.
    assert (H5 : forall j n, h j = Some n -> h5 j = Some (if Nat.eqb j a then ref_up n4 else cut j n)).
    { intros j n Hj. destruct (Nat.eqb_spec j a) as [->|N]; auto. unfold h5, s1. rewrite withh_heap, hmod_other by auto. rewrite (H4 _ _ Hj).
      destruct (Nat.eqb_spec j a); [congruence|]. reflexivity. }
    assert (CE5 : cut e ne = set_last None (set_first None ne)).
    { unfold cut. destruct (Nat.eqb_spec e a); [congruence|]. destruct (Nat.eqb_spec e d); [congruence|]. rewrite Nat.eqb_refl. reflexivity. }
    assert (H5e : h5 e = Some (set_last None (set_first None ne))).
    { rewrite (H5 _ _ He). destruct (Nat.eqb_spec e a); [congruence|]. rewrite CE5. reflexivity. }
    assert (H5d : exists m, h5 d = Some m) by (eexists; exact (H5 _ _ Hd)). destruct H5d as (nd5 & H5d).
    step (load_ok s2 e _ H5e). cbn [set_last set_first n_owner]. rewrite Oe.
    assert (SE : subtree_event (Some d) e s2 = Ok tt (addlog s2 [EvSubtree e])).
    { unfold subtree_event. step (deref_ok d s2). step (load_ok s2 d nd5 H5d). reflexivity. }
    step SE. exists (addlog s2 [EvSubtree e]). split; [reflexivity|].
    intros j n Hj. unfold s2. rewrite addlog_heap, withh_heap.
    destruct (Nat.eq_dec j a) as [->|N].
    - exists (ref_up n4). split; [exact H5a|]. assert (n = na) by congruence. subst n.
      split; [intros _; split; reflexivity|]. split; [congruence|]. split; [congruence|]. split; [reflexivity|]. split; reflexivity.
    - exists (cut j n). split. { rewrite (H5 _ _ Hj). destruct (Nat.eqb_spec j a); [congruence|reflexivity]. }
      unfold cut. destruct (Nat.eqb_spec j a); [congruence|].
      split. { intros NE. destruct (Nat.eqb j d); [split; reflexivity|]. destruct (Nat.eqb_spec j e); [congruence|]. split; reflexivity. }
      split. { intros ->. destruct (Nat.eqb_spec e d); [congruence|]. rewrite Nat.eqb_refl. split; reflexivity. }
      split; [intros _|split; [congruence|]]; destruct (Nat.eqb j d); try (split; reflexivity); try reflexivity; destruct (Nat.eqb j e); try (split; reflexivity); reflexivity.
  Qed.
End RemoveAttribute.

Lemma children_plain : forall k s g, reach k s g -> short k -> forall p l x, children (s_heap s) p l -> In x l -> plain (s_heap s) x.
Proof.
  intros k s g R SH p l x C I. destruct (reach_good _ _ _ R SH) as [[ch W] AG]. destruct W as (WL & WT & WO & WR).
  assert (LP : live (s_heap s) p) by (destruct C as (n & A & _); exists n; auto).
  assert (l = ch p) by (eapply children_det; [exact C|]; apply ch_children; auto). subst l.
  destruct (wt_child _ _ WT _ _ I) as (n & np & A & _ & T & _). unfold plain, type_of. rewrite A. cbn. congruence.
Qed.

Lemma attribute_linked : forall k s g, reach k s g -> short k -> forall e a, attribute_of (s_heap s) e a ->
  type_of (s_heap s) e = Some ELEMENT /\ type_of (s_heap s) a = Some ATTRIBUTE /\ parent_of (s_heap s) a = Some e /\
  (forall p l, children (s_heap s) p l -> ~ In a l).
Proof.
  intros k s g R SH e a (l & (n & A & L) & I). subst l. destruct (reach_good _ _ _ R SH) as [[ch W] AG]. destruct W as (WL & WT & WO & WR).
  destruct (wt_attrs _ _ WT _ _ A) as (_ & TE & X). destruct (X _ I) as (na & B & TA & PA).
  split. { unfold type_of. rewrite A. cbn. f_equal. apply TE. intros Z. rewrite Z in I. destruct I. }
  split. { unfold type_of. rewrite B. cbn. congruence. }
  split. { unfold parent_of. rewrite B. auto. }
  intros p l C J. apply (children_plain _ _ _ R SH _ _ _ C J). unfold type_of. rewrite B. cbn. congruence.
Qed.

Lemma same_content_attributes : forall h h' x, same_content h h' x -> forall j l, attributes h j l <-> attributes h' j l.
Proof.
  intros h h' x [LV EQ] j l. split; intros (n & A & <-).
  - assert (L : live h' j) by (apply LV; exists n; auto). destruct L as [n' B]. exists n'. split; auto. apply (EQ _ _ _ A B).
  - assert (L : live h j) by (apply LV; exists n; auto). destruct L as [n' B]. exists n'. split; auto. symmetry. apply (EQ _ _ _ B A).
Qed.

Lemma edits_keep_attributes : forall k s g, reach k s g -> short (S k) -> forall o r s', edits_children o -> legal s g o -> exec o s = Ok r s' ->
  forall j l, attributes (s_heap s) j l <-> attributes (s_heap s') j l.
Proof.
  intros k s g R SH o r s' ED L E. destruct o; try contradiction ED.
  - destruct (insert_full k s g R SH p c r0 L) as ([e|] & _ & Q).
    + unfold exec, node_out in E. erewrite bind_exc in E by exact Q. discriminate.
    + destruct Q as (s2 & X & _ & _ & SC & _). unfold exec, node_out in E. erewrite bind_ok in E by exact X. inversion E; subst. eapply same_content_attributes; eauto.
  - assert (L' : legal s g (OInsert p c None)). { destruct L as (L1 & L2 & L3). split; auto. split; auto. split; auto. discriminate. }
    destruct (insert_full k s g R SH p c None L') as ([e|] & _ & Q).
    + unfold exec, node_out, append_child in E. erewrite bind_exc in E by exact Q. discriminate.
    + destruct Q as (s2 & X & _ & _ & SC & _). unfold exec, node_out, append_child in E. erewrite bind_ok in E by exact X. inversion E; subst. eapply same_content_attributes; eauto.
  - destruct (replace_full k s g R SH p c old L) as ([e|] & _ & Q).
    + unfold exec, node_out in E. erewrite bind_exc in E by exact Q. discriminate.
    + destruct Q as (s2 & X & _ & _ & SC & _). unfold exec, node_out in E. erewrite bind_ok in E by exact X. inversion E; subst. eapply same_content_attributes; eauto.
  - destruct (remove_full k s g R SH p c L) as ([e|] & _ & Q).
    + unfold exec, node_out in E. erewrite bind_exc in E by exact Q. discriminate.
    + destruct Q as (s2 & X & _ & _ & _ & SC & _). unfold exec, node_out in E. erewrite bind_ok in E by exact X. inversion E; subst. eapply same_content_attributes; eauto.
Qed.

Lemma foreign_attribute : forall k s g, reach k s g -> short (S k) -> forall p a, holds g p -> holds g a ->
  type_of (s_heap s) a = Some ATTRIBUTE -> parent_of (s_heap s) a <> Some p ->
  remove_child p a s = Exc NOT_FOUND_ERR s /\
  (forall c, holds g c -> owner_of (s_heap s) c = owner_of (s_heap s) p -> ~ read_only (s_heap s) p ->
     insert_before p c (Some a) s = Exc NOT_FOUND_ERR s /\
     (type_of (s_heap s) p <> Some DOCUMENT -> replace_child p c a s = Exc NOT_FOUND_ERR s)).
Proof.
  intros k s g R SH p a HP HA TA PA. destruct (reach_good _ _ _ R (short_pred _ SH)) as [[ch W] AG]. destruct W as (WL & WT & WO & WR).
  destruct (holds_live _ _ _ AG SH _ HP) as (np & P & _). destruct (holds_live _ _ _ AG SH _ HA) as (na & A & _).
  unfold type_of, parent_of in TA, PA. rewrite A in TA, PA. cbn in TA, PA. injection TA as TA.
  assert (NF : oid_eqb (n_parent na) (Some p) = false) by (apply oid_eqb_neq; auto).
  split.
  - unfold remove_child. step (load_ok s p np P). step (load_ok s a na A). rewrite TA. cbn [ntype_eqb orb]. rewrite andb_false_r. cbn [negb check]. rewrite bind_ret.
    rewrite NF. reflexivity.
  - intros c HC OC NR. destruct (holds_live _ _ _ AG SH _ HC) as (nc & C & _). unfold owner_of in OC. rewrite C, P in OC. cbn in OC.
    destruct (readonly_ok s ch WL WT p (ex_intro _ np P)) as (ro & ERO & BRO).
    destruct ro. { exfalso. apply NR. apply BRO. reflexivity. }
    assert (OE : oid_eqb (n_owner nc) (n_owner np) = true) by (apply oid_eqb_eq; auto).
    split.
    + unfold insert_before. step (load_ok s p np P). step (load_ok s c nc C). rewrite OE. cbn [negb]. rewrite andb_false_r.
      destruct (ntype_eqb (n_type nc) DOCTYPE); cbn [negb check]; rewrite bind_ret; step ERO; cbn [negb check]; rewrite bind_ret;
        (erewrite bind_exc; [reflexivity|]); step (load_ok s a na A); rewrite NF; reflexivity.
    + intros TP. unfold replace_child. step (load_ok s p np P). step (load_ok s c nc C).
      assert (TD : ntype_eqb (n_type np) DOCUMENT = false). { apply ntype_eqb_neq. intros Z. apply TP. unfold type_of. rewrite P. cbn. congruence. }
      rewrite TD. cbn [andb negb check]. rewrite bind_ret. rewrite OE. cbn [check]. rewrite bind_ret. step ERO. cbn [negb check]. rewrite bind_ret.
      step (load_ok s a na A). rewrite NF. reflexivity.
Qed.

(** From any reachable state: give [e] a new attribute, then ask for it to be
    removed as a child. *)
Lemma remove_attribute_wrecks : forall k s g, reach k s g -> short (S (S k)) -> forall e d name v, holds g e -> holds g d ->
  type_of (s_heap s) e = Some ELEMENT -> type_of (s_heap s) d = Some DOCUMENT -> owner_of (s_heap s) e = Some d -> ~ read_only (s_heap s) e ->
  unused_name (s_heap s) e name ->
  exists a s1 s2 s3 g2,
    exec (OCreate d ATTRIBUTE name v None None) s = Ok (OutNode (Some a)) s1 /\
    exec (OSetAttribute e a) s1 = Ok (OutNode None) s2 /\
    reach (S (S k)) s2 g2 /\ holds g2 e /\ holds g2 a /\ attribute_of (s_heap s2) e a /\
    (forall l, children (s_heap s) e l -> children (s_heap s2) e l) /\
    remove_child e a s2 = Ok a s3 /\
    children (s_heap s3) e [] /\
    (forall l x, children (s_heap s) e l -> In x l -> parent_of (s_heap s3) x = Some e) /\
    attribute_of (s_heap s3) e a /\ parent_of (s_heap s3) a = None.
Proof.
  intros k s g R SH e d name v HE HD TE TD OE NR [NC UN].
  destruct (reach_good _ _ _ R (short_pred _ (short_pred _ SH))) as [[ch W] AG].
  destruct (holds_live _ _ _ AG (short_pred _ SH) _ HE) as (ne & E & _). destruct (holds_live _ _ _ AG (short_pred _ SH) _ HD) as (nd & D & _).
  unfold type_of in TE, TD. rewrite E in TE. rewrite D in TD. cbn in TE, TD. injection TE as TE. injection TD as TD.
  assert (OE' : n_owner ne = Some d) by (unfold owner_of in OE; rewrite E in OE; exact OE).
  destruct (create_node_spec s ch d nd ATTRIBUTE name v None None W D TD ltac:(discriminate)) as (h1 & X1 & W1 & G1).
  set (a := s_nxt s) in *. set (s1 := mkSt h1 (S a) (s_log s)) in *.
  assert (EX1 : exec (OCreate d ATTRIBUTE name v None None) s = Ok (OutNode (Some a)) s1).
  { unfold exec, node_out. erewrite bind_ok by exact X1. reflexivity. }
  assert (L1 : legal s g (OCreate d ATTRIBUTE name v None None)).
  { split; auto. split; [unfold type_of; rewrite D; cbn; congruence|discriminate]. }
  assert (R1 := reach_call _ _ _ _ _ _ R L1 EX1).
  set (g1 := account s (OCreate d ATTRIBUTE name v None None) (OutNode (Some a)) g) in *.
  assert (FR : s_heap s a = None) by exact (gr_fresh _ _ _ _ _ G1).
  assert (NEA : e <> a) by congruence. assert (NED : e <> d) by (intros ->; congruence). assert (NAD : d <> a) by congruence.
  assert (E1 : h1 e = Some ne). { rewrite (gr_other _ _ _ _ _ G1); auto. congruence. }
  assert (A1 : h1 a = Some (set_pending true (new_node ATTRIBUTE name v None None (Some d)))) by exact (gr_new _ _ _ _ _ G1).
  destruct (gr_doc _ _ _ _ _ G1 d eq_refl) as (nd' & D' & _ & D1). assert (nd' = nd) by congruence. subst nd'.
  set (na := set_pending true (new_node ATTRIBUTE name v None None (Some d))) in *.
  assert (NW1 : forall j n, s_heap s j = Some n -> j <> d -> h1 j = Some n).
  { intros j n J JD. rewrite (gr_other _ _ _ _ _ G1); auto; congruence. }
  assert (NR1 : ~ read_only h1 e).
  { intros (m & M & Q). assert (m = ne) by congruence. subst m. apply NR. exists ne. split; auto.
    destruct Q as [Q|[Q|[Q|(QA & b & nb & QB & QC & QD)]]]; [tauto|tauto|tauto|]. right; right; right. split; auto.
    assert (AN : forall i, anc h1 b i -> live (s_heap s) i -> anc (s_heap s) b i /\ live (s_heap s) b).
    { intros i Y. induction Y as [|i n p Hi Pi Y IH]; intros LI; [split; [constructor|auto]|].
      destruct LI as [n0 N0]. assert (NP : n_parent n0 = Some p).
      { destruct (Nat.eq_dec i d) as [->|ND]; [assert (n0 = nd) by congruence; subst n0; rewrite D1 in Hi; injection Hi as <-; exact Pi|rewrite (NW1 _ _ N0 ND) in Hi; congruence]. }
      destruct W as (WL & WT & WO & WR). destruct (wt_parent _ _ WT _ _ _ N0 NP) as (np & Hp & _).
      destruct (IH (ex_intro _ np Hp)) as [Z1 Z2]. split; auto. econstructor; eauto. }
    destruct (AN _ QB (ex_intro _ ne E)) as [Z1 [nb0 Z2]].
    exists b. destruct (Nat.eq_dec b d) as [->|NB].
    - exists nd. split; auto. split; auto. rewrite D1 in QC. injection QC as <-. exact QD.
    - exists nb0. split; auto. split; auto. rewrite (NW1 _ _ Z2 NB) in QC. injection QC as <-. exact QD. }
  destruct (set_attribute_node_spec s1 ch e a ne na W1 E1 A1 TE eq_refl ltac:(discriminate))
    as [[Z _]|[(_ & Z & _)|[(_ & _ & Z & _)|(_ & _ & P0 & h2 & d2 & l2 & X2 & Od & OW & W2)]]].
  { exfalso. apply Z. rewrite OE'. reflexivity. } { contradiction. } { exfalso. apply Z. reflexivity. }
  assert (d2 = d) by congruence. subst d2. set (s2 := withh (addlog s1 l2) h2) in *.
  assert (EX2 : exec (OSetAttribute e a) s1 = Ok (OutNode None) s2). { unfold exec. erewrite bind_ok by exact X2. reflexivity. }
  assert (HO : forall i, owns g1 i = (if Nat.eqb i a then owns g i + 1 else owns g i)%N).
  { intros i. unfold g1, account, gain, spend_new. cbn. destruct (Nat.eqb i a); reflexivity. }
  assert (HE1 : holds g1 e). { unfold holds. rewrite HO. destruct (Nat.eqb e a); unfold holds in HE; lia. }
  assert (HA1 : holds g1 a). { unfold holds. rewrite HO, Nat.eqb_refl. lia. }
  assert (L2 : legal s1 g1 (OSetAttribute e a)).
  { split; auto. split; auto. change (s_heap s1) with h1. unfold type_of, parent_of. rewrite E1, A1. cbn.
    split; [congruence|]. split; [reflexivity|]. split; [discriminate|].
    intros m M. change (s_heap s1) with h1 in *. assert (m = na) by congruence. subst m. cbn. split; auto.
    intros ne0 b nb N1 N2 N3. assert (ne0 = ne) by congruence. subst ne0.
    destruct W as (WL & WT & WO & WR). destruct (wt_attrs _ _ WT _ _ E) as (_ & _ & Y). destruct (Y _ N2) as (nb0 & Y1 & Y2 & Y3).
    assert (b <> d) by (intros ->; congruence). rewrite (NW1 _ _ Y1 H) in N3. injection N3 as <-.
    apply (UN b nb0); auto. exists (n_attrs ne). split; auto. exists ne. auto. }
  assert (R2 := reach_call _ _ _ _ _ _ R1 L2 EX2). cbn [account] in R2.
  assert (H2 : forall j n, h1 j = Some n -> h2 j = Some (own e a d j n)) by (apply (ow_some _ _ _ _ _ OW)).
  assert (E2 : h2 e = Some (set_attrs (n_attrs ne ++ [a]) ne)).
  { rewrite (H2 _ _ E1). unfold own. destruct (Nat.eqb_spec e a); [congruence|]. destruct (Nat.eqb_spec e d); [congruence|]. rewrite Nat.eqb_refl. reflexivity. }
  assert (A2 : h2 a = Some (set_pending false (set_parent (Some e) na))). { rewrite (H2 _ _ A1). unfold own. rewrite Nat.eqb_refl. reflexivity. }
  assert (D2 : exists m, h2 d = Some m /\ n_type m = DOCUMENT).
  { eexists. split; [apply (H2 _ _ D1)|]. destruct (own_same e a d d (set_pend (n_pend nd ++ [a]) nd)) as (T & _). rewrite T. exact TD. }
  destruct D2 as (nd2 & D2 & TD2).
  assert (NR2 : ~ read_only h2 e).
  { intros (m & M & Q). rewrite E2 in M. injection M as <-. cbn in Q. apply NR1. exists ne. split; auto.
    destruct Q as [Q|[Q|[Q|(QA & b & nb & QB & QC & QD)]]]; [tauto|tauto|tauto|]. right; right; right. split; auto.
    destruct W1 as (WL1 & WT1 & _). change (s_heap s1) with h1 in *.
    assert (AN : forall i, anc h2 b i -> live h1 i -> i <> a -> ~ anc h1 a i -> anc h1 b i /\ live h1 b).
    { intros i Y. induction Y as [|i n p Hi Pi Y IH]; intros LI NIA NB; [split; [constructor|auto]|].
      destruct LI as [n0 N0]. rewrite (H2 _ _ N0) in Hi. injection Hi as <-.
      assert (NP : n_parent n0 = Some p).
      { revert Pi. unfold own. destruct (Nat.eqb_spec i a); [congruence|]. destruct (Nat.eqb i d); [auto|]. destruct (Nat.eqb i e); auto. }
      destruct (wt_parent _ _ WT1 _ _ _ N0 NP) as (np & Hp & _).
      assert (p <> a). { intros ->. apply NB. econstructor; eauto. constructor. }
      destruct (IH (ex_intro _ np Hp) H) as [Z1 Z2]. { intros Z. apply NB. econstructor; eauto. } split; auto. econstructor; eauto. }
    destruct (AN _ QB (ex_intro _ ne E1) NEA (not_below_attribute h1 ch WT1 e ne E1 TE NR1 a na A1 eq_refl)) as [Z1 [nb0 Z2]].
    exists b, nb0. split; auto. split; auto. rewrite (H2 _ _ Z2) in QC. injection QC as <-. destruct (own_same e a d b nb0) as (T & _). rewrite T in QD. exact QD. }
  assert (NWA : no_wrap (set_pending false (set_parent (Some e) na))) by (unfold no_wrap; cbn; unfold two32; lia).
  destruct (remove_attribute_exec s2 ch e a d _ _ nd2 W2 E2 A2 D2 TE eq_refl TD2 OE' eq_refl eq_refl eq_refl NR2 NWA) as (s3 & X3 & F3).
  exists a, s1, s2, s3, g1. split; [exact EX1|]. split; [exact EX2|]. split; [exact R2|]. split; [exact HE1|]. split; [exact HA1|].
  split. { exists (n_attrs ne ++ [a]). split; [|apply in_or_app; right; left; auto]. eexists. split; [exact E2|reflexivity]. }
  assert (CH : ch e = ch e /\ children (s_heap s) e (ch e)). { split; auto. destruct W as (WL & WT & WO & WR). apply ch_children; auto. exists ne. auto. }
  destruct CH as [_ CH].
  split. { intros l C. assert (l = ch e) by (eapply children_det; eauto). subst l. destruct W2 as (WL2 & WT2 & _). apply ch_children; auto. eexists. exact E2. }
  split; [exact X3|].
  split. { destruct (F3 _ _ E2) as (n' & N' & _ & Q & _). destruct (Q eq_refl) as [Q1 _]. exists n'. split; auto. rewrite Q1. constructor. }
  split. { intros l x C I. assert (l = ch e) by (eapply children_det; eauto). subst l. destruct W2 as (WL2 & WT2 & _).
    destruct (wt_child _ _ WT2 _ _ I) as (n & np & A & _ & T & P & _).
    destruct (F3 _ _ A) as (n' & N' & _ & _ & Z & _). unfold parent_of. rewrite N'. cbn. rewrite Z; auto. intros ->. change (s_heap s2) with h2 in A. rewrite A2 in A. injection A as <-. apply T. reflexivity. }
  split. { destruct (F3 _ _ E2) as (n' & N' & _ & _ & _ & _ & Q & _). exists (n_attrs ne ++ [a]). split; [|apply in_or_app; right; left; auto].
    exists n'. split; auto. }
  destruct (F3 _ _ A2) as (n' & N' & _ & _ & _ & Q & _). unfold parent_of. rewrite N'. cbn. auto.
Qed.
