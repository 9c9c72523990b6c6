(** The read-only loops of the editing operations terminate without touching
    the state, and compute what they are meant to. *)
From Coq Require Import List Arith NArith Bool Lia ZifyBool ZifyNat ZifyN.
From Verif Require Import Base HeapModel HeapSpec HeapInv HeapExec HeapTree.
Import ListNotations.
Local Open Scope dom_scope.

Ltac step E := rewrite (bind_ok _ _ _ _ _ _ _ _ E).
Ltac hget := repeat (eapply hmod_get); eassumption.
Ltac sload := erewrite bind_ok; [|apply load_ok; rewrite ?withh_heap, ?addlog_heap; hget]; cbv beta.
Ltac supd := erewrite bind_ok; [|eapply upd_ok; rewrite ?withh_heap, ?addlog_heap; hget]; cbv beta; rewrite ?withh_withh, ?withh_heap.

Lemma anc_loop_ok : forall l s x i f, achain (s_heap s) (Some i) l -> length l <= f ->
  exists b, anc_loop f x (Some i) s = Ok b s /\ (b = true <-> In x l).
Proof.
  induction l as [|j l]; intros s x i f A F. { inversion A. }
  destruct (achain_some _ _ _ A) as (n & l' & E & Hn & A'). inversion E; subst j l'; clear E.
  destruct f as [|f]; [simpl in F; lia|]. cbn [anc_loop].
  destruct (Nat.eqb_spec i x).
  { exists true. split; auto. split; auto. intros _. left; auto. }
  step (load_ok _ _ _ Hn).
  destruct (n_parent n) as [p|] eqn:P.
  - destruct (IHl s x p f A') as (b & E & B). { simpl in F; lia. }
    exists b. split; auto. rewrite B. split; [right; auto|]. intros [Q|Q]; [congruence|auto].
  - apply achain_none in A'. subst. exists false. split; [destruct f; reflexivity|].
    split; [discriminate|]. intros [Q|[]]; congruence.
Qed.

Section WithWf.
  Variables (s : st) (ch : id -> list id).
  Hypothesis WL : wfL (s_heap s) (s_nxt s).
  Hypothesis WT : wfT (s_heap s) ch.

  Lemma achain_ex : forall i, live (s_heap s) i -> exists l, achain (s_heap s) (Some i) l /\ length l <= s_nxt s.
  Proof.
    intros i L. pose proof (wt_rooted _ _ WT _ L) as R. destruct (rooted_achain _ _ R) as [l A].
    exists l. split; auto. eapply achain_bound; eauto.
  Qed.

  Lemma ancestor_check_ok : forall x i, live (s_heap s) i ->
    exists b, with_fuel (fun f => anc_loop f x (Some i)) s = Ok b s /\ (b = true <-> anc (s_heap s) x i).
  Proof.
    intros x i L. destruct (achain_ex _ L) as (l & A & B). unfold with_fuel.
    destruct (anc_loop_ok l s x i (fuel_of s) A) as (b & E & Q). { unfold fuel_of; lia. }
    exists b. split; auto. rewrite Q. rewrite (achain_anc _ _ _ A). tauto.
  Qed.

  Lemma ro_loop_ok : forall l i f, achain (s_heap s) (Some i) l -> length l <= f ->
    exists b, ro_loop f (Some i) s = Ok b s /\
      (b = true <-> exists a na, In a l /\ s_heap s a = Some na /\ (n_type na = ENTITY \/ n_type na = ENTITY_REFERENCE)).
  Proof.
    induction l as [|j l]; intros i f A F. { inversion A. }
    destruct (achain_some _ _ _ A) as (n & l' & E & Hn & A'). inversion E; subst j l'; clear E.
    destruct f as [|f]; [simpl in F; lia|]. cbn [ro_loop]. step (load_ok _ _ _ Hn).
    destruct (ntype_eqb (n_type n) ENTITY || ntype_eqb (n_type n) ENTITY_REFERENCE) eqn:EE.
    - exists true. split; auto. split; auto. intros _. exists i, n. split; [left; auto|]. split; auto.
      apply orb_true_iff in EE. rewrite !ntype_eqb_eq in EE. auto.
    - apply orb_false_iff in EE. rewrite !ntype_eqb_neq in EE. destruct EE as [E1 E2].
      assert (HD : forall a na, In a (i :: l) -> s_heap s a = Some na -> n_type na = ENTITY \/ n_type na = ENTITY_REFERENCE -> In a l).
      { intros a na [<-|I] Ha T; auto. assert (na = n) by congruence; subst. tauto. }
      destruct (n_parent n) as [p|] eqn:P.
      + destruct (IHl p f A') as (b & E & B). { simpl in F; lia. }
        exists b. split; auto. rewrite B. split; intros (a & na & I & Ha & T).
        * exists a, na. split; auto. right; auto.
        * exists a, na. split; auto. eapply HD; eauto.
      + apply achain_none in A'. subst. exists false. split; [destruct f; reflexivity|].
        split; [discriminate|]. intros (a & na & I & Ha & T). destruct (HD _ _ I Ha T).
  Qed.

  Lemma readonly_ok : forall i, live (s_heap s) i -> exists b, readonly i s = Ok b s /\ (b = true <-> read_only (s_heap s) i).
  Proof.
    intros i L. destruct L as [n Hn]. unfold readonly. step (load_ok _ _ _ Hn).
    destruct (ntype_eqb (n_type n) DOCTYPE || ntype_eqb (n_type n) NOTATION) eqn:E1.
    - apply orb_true_iff in E1. rewrite !ntype_eqb_eq in E1. exists true. split; auto. split; auto.
      intros _. exists n. split; auto. tauto.
    - apply orb_false_iff in E1. rewrite !ntype_eqb_neq in E1. destruct E1 as [E1 E2].
      destruct (ntype_eqb (n_type n) ATTRIBUTE) eqn:E3.
      + apply ntype_eqb_eq in E3. exists (n_ro n). split; auto. split.
        * intros R. exists n. tauto.
        * intros (m & Hm & Q). assert (m = n) by congruence; subst. destruct Q as [Q|[Q|[Q|Q]]]; try congruence; tauto.
      + apply ntype_eqb_neq in E3. destruct (achain_ex i) as (l & A & B). { exists n; auto. }
        destruct (ro_loop_ok l i (fuel_of s) A) as (b & E & Q). { unfold fuel_of; lia. }
        exists b. split; auto. rewrite Q. split.
        * intros (a & na & I & Ha & T). exists n. split; auto. right; right; right. split; auto.
          exists a, na. split; auto. apply (achain_anc _ _ _ A) in I. tauto.
        * intros (m & Hm & Z). assert (m = n) by congruence; subst. destruct Z as [Z|[Z|[Z|Z]]]; try congruence; try tauto.
          destruct Z as (_ & a & na & I & Ha & T). exists a, na. split; auto. apply (achain_anc _ _ _ A). split; auto. exists n; auto.
  Qed.

  Lemma has_type_ok : forall l t p f, fwd (s_heap s) p l -> length l < f ->
    exists b, has_type_loop f t p s = Ok b s /\
      (b = true <-> exists c nc, In c l /\ s_heap s c = Some nc /\ n_type nc = t).
  Proof.
    induction l as [|j l]; intros t p f A F; inversion A; subst.
    - exists false. split; [destruct f; reflexivity|]. split; [discriminate|]. intros (c & nc & [] & _).
    - destruct f as [|f]; [simpl in F; lia|]. cbn [has_type_loop]. step (load_ok _ _ _ H2).
      destruct (IHl t (n_next n) f H3) as (b & E & B). { simpl in F; lia. }
      step E. exists (ntype_eqb (n_type n) t || b). split; auto.
      rewrite orb_true_iff, ntype_eqb_eq, B. split.
      + intros [Q|(c & nc & I & Hc & T)]. { exists j, n. split; [left; auto|auto]. }
        exists c, nc. split; [right; auto|auto].
      + intros (c & nc & [<-|I] & Hc & T). { left. congruence. } right; eauto.
  Qed.

  Lemma ch_length : forall p, length (ch p) <= s_nxt s.
  Proof.
    intros p. rewrite <- (seq_length (s_nxt s) 0). apply NoDup_incl_length. { apply (wt_nodup _ _ WT). }
    intros c I. destruct (wt_child _ _ WT _ _ I) as (n & _ & A & _). apply in_seq. specialize (WL _ _ A). lia.
  Qed.

  (** Permitted nesting: the types fit, and a document gets no second root
      element or doctype. *)
  Definition permitted (p c : id) : Prop :=
    exists np nc, s_heap s p = Some np /\ s_heap s c = Some nc /\
      type_permitted (n_type np) (n_type nc) = true /\
      (n_type np = DOCUMENT -> n_type nc = ELEMENT \/ n_type nc = DOCTYPE ->
       forall x nx, In x (ch p) -> s_heap s x = Some nx -> n_type nx <> n_type nc).

  Lemma permitted_child_ok : forall p c, live (s_heap s) p -> live (s_heap s) c ->
    exists b, permitted_child p c s = Ok b s /\ (b = true <-> permitted p c).
  Proof.
    intros p c [np Hp] [nc Hc]. unfold permitted_child. step (load_ok _ _ _ Hp). step (load_ok _ _ _ Hc).
    destruct (ntype_eqb (n_type np) DOCUMENT && (ntype_eqb (n_type nc) ELEMENT || ntype_eqb (n_type nc) DOCTYPE)) eqn:E.
    - rewrite andb_true_iff, orb_true_iff, !ntype_eqb_eq in E. destruct E as [E1 E2].
      destruct (has_type_ok (ch p) (n_type nc) (n_first np) (fuel_of s)) as (b & Q & B).
      { destruct (wt_ends _ _ WT _ _ Hp) as [F1 _]. rewrite F1. eapply seg_fwd. apply (wt_seg _ _ WT). }
      { pose proof (ch_length p). unfold fuel_of. lia. }
      unfold with_fuel. rewrite (bind_ok _ _ _ (fun s => has_type_loop (fuel_of s) (n_type nc) (n_first np) s) _ _ _ _ Q).
      eexists. split. { reflexivity. }
      rewrite andb_true_iff, negb_true_iff. split.
      + intros [V N]. exists np, nc. split; auto. split; auto. split; auto. intros _ _ x nx I Hx TX.
        assert (b = true) by (apply B; eauto). congruence.
      + intros (np' & nc' & A1 & A2 & A3 & A4). assert (np' = np) by congruence. assert (nc' = nc) by congruence. subst.
        split; auto. destruct b; auto. exfalso. destruct B as [B _]. destruct (B eq_refl) as (x & nx & I & Hx & TX).
        exact (A4 E1 E2 _ _ I Hx TX).
    - eexists. split. { reflexivity. } split.
      + intros V. exists np, nc. split; auto. split; auto. split; auto. intros T1 T2.
        apply andb_false_iff in E. rewrite orb_false_iff, !ntype_eqb_neq in E. tauto.
      + intros (np' & nc' & A1 & A2 & A3 & A4). congruence.
  Qed.

  Lemma all_permitted_ok : forall l p o f, live (s_heap s) p -> fwd (s_heap s) o l -> length l <= f ->
    exists b, all_permitted f p o s = Ok b s /\ (b = true <-> forall c, In c l -> permitted p c).
  Proof.
    induction l as [|j l]; intros p o f Lp A F; inversion A; subst.
    - exists true. split; [destruct f; reflexivity|]. split; auto. intros _ c [].
    - destruct f as [|f]; [simpl in F; lia|]. cbn [all_permitted].
      destruct (permitted_child_ok p j Lp) as (b & E & B). { exists n; auto. }
      step E. destruct b.
      + step (load_ok _ _ _ H2). destruct (IHl p (n_next n) f Lp H3) as (b' & E' & B'). { simpl in F; lia. }
        exists b'. split; auto. rewrite B'. split.
        * intros Q c [<-|I]; auto. apply B; auto.
        * intros Q c I. apply Q. right; auto.
      + exists false. split; auto. split; [discriminate|]. intros Q. apply B. apply Q. left; auto.
  Qed.

  (** _dom_node_dispatch_node_change_event. *)
  Lemma change_event_ok : forall d nd c r m s2 t l,
    s_heap s2 d = Some nd -> repr (s_heap s2) t -> root t = c ->
    achain (s_heap s2) (Some c) (c :: l) -> NoDup (nodes t) -> length l + length (nodes t) < fuel_of s2 ->
    change_event (Some d) c (Some r) m s2 = Ok tt (addlog s2 (ev_node m c r :: map (ev_doc m) (desc t))).
  Proof.
    intros d nd c r m s2 t l Hd R E A ND F. unfold change_event. step (deref_ok d s2). step (load_ok _ _ _ Hd).
    assert (FI : fire (ev_node m c r) s2 = Ok tt (addlog s2 [ev_node m c r])) by reflexivity.
    step FI. subst c. destruct (achain_some _ _ _ A) as (n & l' & _ & Hn & _).
    rewrite (bind_ok _ _ _ _ _ _ n (addlog s2 [ev_node m (root t) r])) by (apply load_ok; auto).
    unfold with_fuel.
    assert (LE : length (desc t) <= fuel_of (addlog s2 [ev_node m (root t) r])).
    { pose proof (pre_length t). destruct t as [i ats ks]. unfold desc. cbn [kids pre length] in *. unfold fuel_of in *. rewrite addlog_nxt. lia. }
    replace (fuel_of (addlog s2 [ev_node m (root t) r])) with
      (length (desc t) + (fuel_of (addlog s2 [ev_node m (root t) r]) - length (desc t))) by lia.
    rewrite change_walk_ok with (l := l); auto.
    - rewrite addlog_addlog. reflexivity.
    - intros n' Hn'. rewrite addlog_heap in Hn'. congruence.
  Qed.
End WithWf.
