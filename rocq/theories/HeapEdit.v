(** What detach and attach_range do to the heap. *)
From Coq Require Import List Arith NArith Bool Lia ZifyBool ZifyNat ZifyN.
From Verif Require Import Base HeapModel HeapSpec HeapInv HeapExec HeapTree HeapSplice HeapLoops.
Import ListNotations.
Local Open Scope dom_scope.

Lemma achain_ext : forall h h', (forall j n, h j = Some n -> exists n', h' j = Some n' /\ n_parent n' = n_parent n) ->
  forall o l, achain h o l -> achain h' o l.
Proof.
  intros h h' H o l A. induction A. { constructor. }
  destruct (H _ _ H0) as (n' & B & C). econstructor; eauto. rewrite C. auto.
Qed.

(** A subtree is untouched by updates elsewhere. *)
Lemma subtree_frame : forall h ch h' t, wfT h ch -> repr h t ->
  (forall n, h (root t) = Some n -> exists n', h' (root t) = Some n' /\ down_eq n n') ->
  (forall j n, anc h (root t) j -> j <> root t -> h j = Some n -> exists n', h' j = Some n' /\ link_eq n n') ->
  repr h' t.
Proof.
  intros h ch h' t W R D F. apply repr_frame with (h := h); auto.
  intros k I j n J Hj. 
  assert (IN : In j (nodes t)). { apply in_app_or in I. destruct I; [eapply attr_in_nodes|eapply kid_in_nodes]; eauto. }
  apply F; auto.
  - eapply repr_anc; eauto.
  - intros ->. pose proof (repr_nodup _ _ W _ R) as ND. destruct t as [i ats ks]. simpl in *. inversion ND; subst.
    apply H1. apply in_app_or in I. apply in_or_app. destruct I; [left|right]; apply in_flat_map; eauto.
Qed.

Lemma link_eq_refl : forall n, link_eq n n.
Proof. intros. repeat split. Qed.

(** Nodes that are not properly below [c]. *)
Lemma below_neq : forall h ch, wfT h ch -> forall c nc p j, h c = Some nc -> n_parent nc = Some p ->
  anc h c j -> j <> c ->
  j <> p /\ (forall x nx, h x = Some nx -> n_parent nx = Some p -> j <> x) /\
  (forall x nx, h x = Some nx -> n_parent nx = None -> j <> x).
Proof.
  intros h ch W c nc p j Hc Pc A NE. split; [|split].
  - intros ->. refine (anc_proper_neq h c nc p c _ Hc Pc A eq_refl). apply (wt_rooted _ _ W). exists nc; auto.
  - intros x nx Hx Px ->. destruct (Nat.eq_dec c x); [congruence|].
    refine (siblings_disjoint h ch W p c x nc nx Hc Hx Pc Px n x A (anc_refl h x)).
  - intros x nx Hx Px ->. inversion A; subst; congruence.
Qed.

Lemma below_neq_top : forall h ch, wfT h ch -> forall c nc j, h c = Some nc -> n_parent nc = None ->
  anc h c j -> j <> c -> (forall x nx, h x = Some nx -> n_parent nx = None -> j <> x).
Proof.
  intros h ch W c nc j Hc Pc A NE x nx Hx Px ->. inversion A; subst; congruence.
Qed.

Definition log_removed (p c : id) (t : rose) : list event :=
  (EvRemoved c p :: map EvRemovedDoc (desc t)).

Lemma wt_child_split : forall h ch, wfT h ch -> forall p c, In c (ch p) -> exists a b, ch p = a ++ c :: b.
Proof. intros h ch W p c I. apply in_split; auto. Qed.

Ltac neqb := match goal with |- context[Nat.eqb ?x ?y] => destruct (Nat.eqb_spec x y); subst end.

Section Detach.
  Variables (s : st) (ch : id -> list id) (p c d : id) (a b : list id) (np nc nd : node) (t : rose).
  Hypothesis WL : wfL (s_heap s) (s_nxt s).
  Hypothesis WT : wfT (s_heap s) ch.
  Hypothesis WO : wfO (s_heap s) ch.
  Hypothesis CH : ch p = a ++ c :: b.
  Hypothesis Hp : s_heap s p = Some np.
  Hypothesis Hc : s_heap s c = Some nc.
  Hypothesis Hd : s_heap s d = Some nd.
  Hypothesis Op : n_owner np = Some d.
  Hypothesis Td : n_type nd = DOCUMENT.
  Hypothesis R : repr (s_heap s) t.
  Hypothesis Rc : root t = c.

  Let h := s_heap s.
  (** The heap when the removal event is fired, and at the end. *)
  Let h1 := hmod (hmod h d (fun n => set_pend (n_pend n ++ [c]) n)) c (set_pending true).
  Let h2 := match last_error a with Some q => hmod h1 q (set_next (hd_error b)) | None => hmod h1 p (set_first (hd_error b)) end.
  Let h3 := match hd_error b with Some x => hmod h2 x (set_prev (last_error a)) | None => hmod h2 p (set_last (last_error a)) end.
  Let h4 := hmod (hmod (hmod h3 c (set_parent None)) c (set_prev None)) c (set_next None).

  Lemma dt_links : n_type nc <> ATTRIBUTE /\ n_parent nc = Some p /\ n_prev nc = last_error a /\ n_next nc = hd_error b.
  Proof.
    destruct (wt_links _ _ WT _ _ _ _ CH) as (n & A & B & C & D & E). assert (n = nc) by congruence; subst. auto.
  Qed.

  Lemma dt_sib : forall x, In x (a ++ b) -> exists nx, h x = Some nx /\ n_parent nx = Some p /\ x <> c.
  Proof.
    intros x I. assert (J : In x (ch p)).
    { rewrite CH. apply in_app_or in I. apply in_or_app. destruct I; auto. right; right; auto. }
    destruct (wt_child _ _ WT _ _ J) as (n & _ & A & _ & _ & B & _). exists n. split; auto. split; auto.
    intros ->. pose proof (wt_nodup _ _ WT p) as ND. rewrite CH in ND. apply NoDup_remove_2 in ND. auto.
  Qed.

  Lemma dt_last : forall q, last_error a = Some q -> exists nq, h q = Some nq /\ n_parent nq = Some p /\ q <> c.
  Proof. intros q E. apply dt_sib. apply in_or_app. left. apply last_error_in; auto. Qed.
  Lemma dt_hd : forall q, hd_error b = Some q -> exists nq, h q = Some nq /\ n_parent nq = Some p /\ q <> c.
  Proof. intros q E. apply dt_sib. apply in_or_app. right. apply hd_error_in; auto. Qed.

  Lemma dt_c_ne : c <> p /\ c <> d.
  Proof.
    destruct dt_links as (_ & P & _). split.
    - intros ->. refine (anc_proper_neq h p nc p p _ Hc P (anc_refl h p) eq_refl). apply (wt_rooted _ _ WT). exists nc; auto.
    - intros ->. destruct (wo_doc _ _ WO _ _ Hd Td) as (_ & X & _). congruence.
  Qed.

  (** Every node in [h3]: same parent, and only [d], [c], [p] and the neighbours differ. *)
  Lemma dt_h3 : forall j n, h j = Some n -> exists n', h3 j = Some n' /\ n_parent n' = n_parent n /\
     (j = c -> n_prev n' = n_prev n /\ n_next n' = n_next n /\ n_owner n' = n_owner n) /\ n_type n' = n_type n /\ n_attrs n' = n_attrs n /\
     (j <> p -> n_first n' = n_first n /\ n_last n' = n_last n) /\
     (j <> d -> j <> c -> j <> p -> last_error a <> Some j -> hd_error b <> Some j -> n' = n).
  Proof.
    intros j n Hj. unfold h3, h2, h1. fold h in Hp, Hc, Hd.
    pose proof dt_last as DL. pose proof dt_hd as DH. destruct dt_c_ne as [NE1 NE2].
    destruct (last_error a) as [q|] eqn:EL; destruct (hd_error b) as [x|] eqn:EH;
      (eexists; split; [hget|]; nproj; split; [auto|]; split;
       [intros ->; repeat split; repeat neqb; auto;
        try (destruct (DL _ eq_refl) as (? & ? & ? & ?); congruence);
        try (destruct (DH _ eq_refl) as (? & ? & ? & ?); congruence); try congruence
       |split; [auto|]; split; [auto|]; split;
       [intros; split; repeat neqb; auto; congruence
       |intros; repeat neqb; auto; congruence]]).
  Qed.

  Lemma dt_none : forall j, h j = None -> h4 j = None.
  Proof.
    intros j Hj. unfold h4, h3, h2, h1. destruct (last_error a); destruct (hd_error b);
      repeat (apply (proj2 (hmod_none _ _ _ _))); auto.
  Qed.

  Lemma dt_spliced : spliced h h4 p d a [c] b [] None None.
  Proof.
    pose proof dt_last as DL. pose proof dt_hd as DH. destruct dt_c_ne as [NE1 NE2].
    assert (NBA : forall q, last_error a = Some q -> hd_error b <> Some q).
    { intros q E F. pose proof (wt_nodup _ _ WT p) as ND. rewrite CH in ND. apply NoDup_app_inv in ND.
      destruct ND as (_ & _ & N). apply (N q). { apply last_error_in; auto. } right. apply hd_error_in; auto. }
    assert (OUT : forall j, mem j [c] = Nat.eqb j c) by (intros; unfold mem; simpl; rewrite orb_false_r; auto).
    destruct (wt_ends _ _ WT _ _ Hp) as [EF EL].
    constructor.
    - apply dt_none.
    - intros j n Hj. unfold h4, h3, h2, h1. fold h in Hp, Hc, Hd. 
      simpl (mem j []). simpl (hd_error []). simpl (last_error []). simpl (oid_eqb None _).
      rewrite OUT. rewrite app_nil_l. rewrite app_nil_r. unfold rm_opt.
      rewrite hd_error_app2, last_error_app2.
      assert (PF : j = p -> n_first n = match hd_error a with Some y => Some y | None => Some c end).
      { intros ->. assert (n = np) by congruence. subst. rewrite EF, CH, hd_error_app2. auto. }
      assert (PL : j = p -> n_last n = match last_error b with Some y => Some y | None => Some c end).
      { intros ->. assert (n = np) by congruence. subst. rewrite EL, CH, last_error_app2, last_error_cons. destruct (last_error b); auto. }
      destruct (last_error a) as [q|] eqn:ELa; destruct (hd_error b) as [x|] eqn:EHb.
      + (* both neighbours *)
        destruct (DL _ eq_refl) as (nq & Hq & Pq & Nq). destruct (DH _ eq_refl) as (nx & Hx & Px & Nx).
        specialize (NBA _ eq_refl).
        destruct (hd_error a) as [a0|] eqn:EHa. 2:{ destruct a; [discriminate|discriminate]. }
        destruct (last_error b) as [b0|] eqn:ELb. 2:{ apply last_error_none in ELb. subst. discriminate. }
        eexists; split; [hget|]. nproj. split; auto. split; auto. split; [repeat neqb; auto|].
        split; [destruct (Nat.eqb_spec j p); auto|]. split; [destruct (Nat.eqb_spec j p); auto|].
        split; [|split; auto; split; repeat neqb; auto; congruence].
        intros NJ. apply Nat.eqb_neq in NJ. rewrite !oid_eqb_some, (Nat.eqb_sym x j), (Nat.eqb_sym q j).
        split; repeat neqb; auto; congruence.
      + destruct (DL _ eq_refl) as (nq & Hq & Pq & Nq). 
        destruct (hd_error a) as [a0|] eqn:EHa. 2:{ destruct a; [discriminate|discriminate]. }
        assert (b = []) by (destruct b; [auto|discriminate]). subst b. simpl last_error in *.
        eexists; split; [hget|]. nproj. split; auto. split; auto. split; [repeat neqb; auto|].
        split; [destruct (Nat.eqb_spec j p); auto|]. split; [destruct (Nat.eqb_spec j p); auto|].
        split; [|split; auto; split; repeat neqb; auto; congruence].
        intros NJ. apply Nat.eqb_neq in NJ. rewrite !oid_eqb_some, (Nat.eqb_sym q j).
        split; repeat neqb; auto; congruence.
      + destruct (DH _ eq_refl) as (nx & Hx & Px & Nx). apply last_error_none in ELa. subst a. simpl hd_error in *.
        destruct (last_error b) as [b0|] eqn:ELb. 2:{ apply last_error_none in ELb. subst. discriminate. }
        eexists; split; [hget|]. nproj. split; auto. split; auto. split; [repeat neqb; auto|].
        split; [destruct (Nat.eqb_spec j p); auto|]. split; [destruct (Nat.eqb_spec j p); auto|].
        split; [|split; auto; split; repeat neqb; auto; congruence].
        intros NJ. apply Nat.eqb_neq in NJ. rewrite !oid_eqb_some, (Nat.eqb_sym x j).
        split; repeat neqb; auto; congruence.
      + apply last_error_none in ELa. subst a. assert (b = []) by (destruct b; [auto|discriminate]). subst b. simpl.
        eexists; split; [hget|]. nproj. split; auto. split; auto. split; [repeat neqb; auto|].
        split; [destruct (Nat.eqb_spec j p); auto|]. split; [destruct (Nat.eqb_spec j p); auto|].
        split; [|split; auto; split; repeat neqb; auto; congruence].
        intros NJ. apply Nat.eqb_neq in NJ. split; repeat neqb; auto; congruence.
    - intros j n n' Hj. unfold h4, h3, h2, h1. intros Hj'. rewrite OUT.
      destruct (last_error a) as [q|] eqn:ELa; destruct (hd_error b) as [x|] eqn:EHb;
      (repeat erewrite hmod_get in Hj' by hget; inversion Hj'; subst n'; unfold data_eq; nproj;
       split; [repeat split; auto|intros E; rewrite E; auto]).
  Qed.

  Lemma detach_exec : detach c s =
    Ok tt (withh (addlog s (EvRemoved c p :: map EvRemovedDoc (desc t) ++ [EvSubtree p])) h4).
  Proof.
    pose proof dt_last as DL. pose proof dt_hd as DH. destruct dt_c_ne as [NE1 NE2].
    destruct dt_links as (TA & PC & PV & NX).
    assert (OC : n_owner nc = Some d) by (rewrite (wo_child _ _ WO _ _ _ _ Hc PC Hp); auto).
    assert (PN : n_pending nc = false).
    { destruct (n_pending nc) eqn:E; auto. destruct (wo_pending _ _ WO _ _ Hc E). congruence. }
    unfold detach.
    assert (E1 : mark_pending c s = Ok tt (withh s h1)).
    { unfold mark_pending. step (load_ok _ _ _ Hc). rewrite OC, PN. cbn [negb assert_].
      rewrite bind_ret. unfold pend_append. supd. erewrite upd_ok by (rewrite withh_heap; hget). reflexivity. }
    step E1. clear E1.
    assert (G1 : forall j n, h j = Some n -> exists n', h1 j = Some n' /\ n_prev n' = n_prev n /\ n_next n' = n_next n /\ n_parent n' = n_parent n).
    { intros j n Hj. unfold h1. eexists; split; [hget|]. nproj. auto. }
    destruct (G1 _ _ Hc) as (nc1 & Hc1 & Q1 & Q2 & Q3).
    step (load_ok (withh s h1) c nc1 Hc1). rewrite Q1, PV.
    assert (E2 : match last_error a with
                 | Some q => upd q (set_next (n_next nc1))
                 | None => p0 <- deref (n_parent nc1);; upd p0 (set_first (n_next nc1))
                 end (withh s h1) = Ok tt (withh s h2)).
    { unfold h2. rewrite Q2, Q3, PC, NX. destruct (last_error a) as [q|] eqn:EL.
      - destruct (DL _ eq_refl) as (nq & Hq & _). destruct (G1 _ _ Hq) as (nq1 & Hq1 & _).
        rewrite (upd_ok (withh s h1) q nq1); auto.
      - destruct (G1 _ _ Hp) as (np1 & Hp1 & _). step (deref_ok p (withh s h1)).
        rewrite (upd_ok (withh s h1) p np1); auto. }
    step E2. clear E2.
    assert (G2 : forall j n, h j = Some n -> exists n', h2 j = Some n' /\ (j = c -> n_prev n' = n_prev n /\ n_next n' = n_next n /\ n_parent n' = n_parent n)).
    { intros j n Hj. destruct (G1 _ _ Hj) as (n1 & Hn1 & V1 & V2 & V3). unfold h2.
      destruct (last_error a) as [q|] eqn:EL.
      - eexists; split; [hget|]. intros ->. destruct (DL _ eq_refl) as (nq & Hq & _ & Nq).
        nproj. repeat split; repeat neqb; auto; congruence.
      - eexists; split; [hget|]. intros ->. nproj. repeat split; repeat neqb; auto; congruence. }
    destruct (G2 _ _ Hc) as (nc2 & Hc2 & Q4). destruct (Q4 eq_refl) as (Q5 & Q6 & Q7). clear Q4.
    step (load_ok (withh s h2) c nc2 Hc2). rewrite Q6, NX.
    assert (E3 : match hd_error b with
                 | Some q => upd q (set_prev (n_prev nc2))
                 | None => p0 <- deref (n_parent nc2);; upd p0 (set_last (n_prev nc2))
                 end (withh s h2) = Ok tt (withh s h3)).
    { unfold h3. rewrite Q5, Q7, PC, PV. destruct (hd_error b) as [q|] eqn:EL.
      - destruct (DH _ eq_refl) as (nq & Hq & _). destruct (G2 _ _ Hq) as (nq1 & Hq1 & _).
        rewrite (upd_ok (withh s h2) q nq1); auto.
      - destruct (G2 _ _ Hp) as (np1 & Hp1 & _). step (deref_ok p (withh s h2)).
        rewrite (upd_ok (withh s h2) p np1); auto. }
    step E3. clear E3.
    destruct (dt_h3 _ _ Hc) as (nc3 & Hc3 & P3 & Q8 & T3 & A3 & F3 & _). destruct (Q8 eq_refl) as (Q9 & Q10 & Q11).
    destruct (dt_h3 _ _ Hd) as (nd3 & Hd3 & _).
    destruct (dt_h3 _ _ Hp) as (np3 & Hp3 & _).
    step (load_ok (withh s h3) c nc3 Hc3). rewrite P3, PC, Q11, OC.
    destruct (achain_ex s ch WL WT c) as (l0 & AC & LB). { exists nc; auto. }
    destruct (achain_some _ _ _ AC) as (nc' & l & -> & Hc' & AC').
    assert (RN : repr h3 t).
    { apply subtree_frame with (h := h) (ch := ch); auto.
      - rewrite Rc. intros n Hn. unfold h in Hn. assert (n = nc) by congruence; subst n. exists nc3. split; auto.
        destruct (F3 NE1). split; auto.
      - rewrite Rc. intros j n J NJ Hj. destruct (dt_h3 _ _ Hj) as (n' & Hn' & _ & _ & _ & _ & _ & EQ).
        destruct (below_neq _ _ WT _ _ _ _ Hc PC J NJ) as (B1 & B2 & B3).
        exists n'. split; auto. rewrite EQ; auto.
        + apply link_eq_refl.
        + destruct (wo_doc _ _ WO _ _ Hd Td) as (_ & X & _). eapply B3; eauto.
        + intros E. destruct (DL _ E) as (nq & Hq & Pq & _). exact (B2 _ _ Hq Pq eq_refl).
        + intros E. destruct (DH _ E) as (nq & Hq & Pq & _). exact (B2 _ _ Hq Pq eq_refl). }
    rewrite (bind_ok _ _ _ _ _ _ tt (addlog (withh s h3) (EvRemoved c p :: map EvRemovedDoc (desc t)))).
    2:{ apply (change_event_ok d nd3 c p REMOVAL (withh s h3) t l); auto.
        - eapply achain_ext; [|exact AC]. intros j n Hj. destruct (dt_h3 _ _ Hj) as (n' & X1 & X2 & _). eauto.
        - eapply repr_nodup; eauto.
        - pose proof (repr_size _ _ _ WL WT _ R). unfold fuel_of. rewrite withh_nxt. simpl in LB. lia. }
    set (s3 := addlog (withh s h3) (EvRemoved c p :: map EvRemovedDoc (desc t))).
    erewrite bind_ok; [|eapply (upd_ok s3 c nc3); exact Hc3]. cbv beta.
    change (s_heap s3) with h3.
    rewrite (bind_ok _ _ _ (deref (Some p)) _ _ p _ (deref_ok p _)).
    assert (Hp4 : hmod h3 c (set_parent None) p = Some np3).
    { rewrite hmod_other; auto. }
    erewrite bind_ok; [|apply load_ok; rewrite withh_heap; exact Hp4]. cbv beta.
    assert (Op3 : n_owner np3 = Some d).
    { destruct (dt_h3 _ _ Hp) as (m & M1 & _). assert (m = np3) by congruence. subst m.
      clear - Hp Hp3 Op. unfold h3, h2, h1 in Hp3.
      destruct (last_error a); destruct (hd_error b); repeat erewrite hmod_get in Hp3 by hget;
        inversion Hp3; nproj; auto. }
    rewrite Op3.
    assert (Hd4 : hmod h3 c (set_parent None) d = Some nd3). { rewrite hmod_other; auto. }
    assert (E5 : subtree_event (Some d) p (withh s3 (hmod h3 c (set_parent None))) =
                 Ok tt (addlog (withh s3 (hmod h3 c (set_parent None))) [EvSubtree p])).
    { unfold subtree_event. rewrite (bind_ok _ _ _ _ _ _ _ _ (deref_ok d _)).
      erewrite bind_ok; [|apply load_ok; rewrite withh_heap; exact Hd4]. reflexivity. }
    step E5. clear E5.
    erewrite bind_ok; [|eapply upd_ok; rewrite addlog_heap, withh_heap; hget]. cbv beta.
    erewrite upd_ok by (rewrite withh_heap; rewrite addlog_heap, withh_heap; hget).
    unfold s3. rewrite ?withh_heap, ?addlog_heap, ?withh_heap.
    f_equal. unfold withh, addlog. simpl. rewrite <- app_assoc. reflexivity.
  Qed.
End Detach.
