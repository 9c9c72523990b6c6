(** Cycles, the single root of a document, and sibling links. *)
From Coq Require Import List Arith NArith Bool Lia ZifyBool ZifyNat ZifyN.
From Verif Require Import Base HeapModel HeapSpec HeapInv HeapExec HeapTree HeapSplice HeapLoops HeapEdit HeapAttach HeapInsert HeapFrame
  HeapOps HeapReplace HeapReplaceOp HeapRemoveOp HeapDestroy HeapGut HeapUnref HeapCreate HistModel HistProofs TreeSpec TreeProofs TreeProofs2.
Import ListNotations.
Local Open Scope dom_scope.

Lemma ff_none_all : forall l, first_failure l None -> forall P e, In (P, e) l -> ~ P.
Proof.
  intros l F. remember None as o eqn:E. induction F; intros Q e' I; [destruct I|discriminate|].
  destruct I as [I|I]; [inversion I; subst; auto|eauto].
Qed.

Lemma ff_skip_inv : forall P e r o, first_failure ((P, e) :: r) o -> ~ P -> first_failure r o.
Proof. intros P e r o F N. inversion F; subst; auto. contradiction. Qed.
Lemma ff_here_inv : forall (P : Prop) e r o, first_failure ((P, e) :: r) o -> P -> o = Some e.
Proof. intros P e r o F N. inversion F; subst; auto. contradiction. Qed.

Ltac ffskip FF := let G := fresh in pose proof (ff_skip_inv _ _ _ _ FF) as G; clear FF; lapply G; [clear G; intros FF|clear G].

Section Cycles.
  Variables (k : nat) (s : st) (g : client).
  Hypothesis R : reach k s g.
  Hypothesis SH : short (S k).
  Let h := s_heap s.

  Lemma anc_owner : forall i j n m, h i = Some n -> h j = Some m -> anc h i j -> n_owner n = n_owner m.
  Proof.
    intros i j n m A B AN. destruct (reach_good _ _ _ R (short_pred _ SH)) as [[ch (WL & WT & WO & WR)] AG].
    revert m B. induction AN; intros m B. { congruence. }
    assert (m = n0) by congruence; subst. destruct (wt_parent _ _ WT _ _ _ H H0) as (np & C & _).
    rewrite (IHAN _ C). symmetry. eapply (wo_child _ _ WO); eauto.
  Qed.

  Lemma insert_cycle : forall p c r, legal s g (OInsert p c r) -> anc h c p ->
    (exists e, insert_before p c r s = Exc e s) /\
    (~ read_only h p -> (forall i, r = Some i -> parent_of h i = Some p) ->
       insert_before p c r s = Exc HIERARCHY_REQUEST_ERR s).
  Proof.
    intros p c r L A. destruct (insert_full k s g R SH p c r L) as (o & FF & Q). fold h in FF.
    destruct L as ([Hp _] & [Hc _] & _ & _).
    destruct (held_alive k s g R (short_pred _ SH) p Hp) as (np & P1 & _). destruct (held_alive k s g R (short_pred _ SH) c Hc) as (nc & C1 & _).
    assert (OW := anc_owner c p nc np C1 P1 A).
    split.
    - destruct o as [e|]; [eauto|]. exfalso. eapply (ff_none_all _ FF (anc h c p)); [|exact A]. simpl. tauto.
    - intros NR PR. unfold insert_checks in FF.
      ffskip FF; [|intros [X _]; apply X; unfold owner_of, h; rewrite P1, C1; auto].
      ffskip FF; [|auto]. ffskip FF; [|intros (i & X & Y); apply Y; auto].
      rewrite (ff_here_inv _ _ _ _ FF A) in Q. exact Q.
  Qed.

  Lemma replace_cycle : forall p c old, legal s g (OReplace p c old) -> anc h c p ->
    (exists e, replace_child p c old s = Exc e s) /\
    (~ read_only h p -> parent_of h old = Some p -> replace_child p c old s = Exc HIERARCHY_REQUEST_ERR s).
  Proof.
    intros p c old L A. destruct (replace_full k s g R SH p c old L) as (o & FF & Q). fold h in FF.
    destruct L as ([Hp _] & [Hc _] & _ & _).
    destruct (held_alive k s g R (short_pred _ SH) p Hp) as (np & P1 & _). destruct (held_alive k s g R (short_pred _ SH) c Hc) as (nc & C1 & _).
    assert (OW := anc_owner c p nc np C1 P1 A).
    destruct (reach_good _ _ _ R (short_pred _ SH)) as [[ch (WL & WT & WO & WR)] AG].
    split.
    - destruct o as [e|]; [eauto|]. exfalso. eapply (ff_none_all _ FF (anc h c p)); [|exact A]. simpl. tauto.
    - intros NR PR. unfold replace_checks in FF.
      ffskip FF.
      2:{ intros [T1 T2]. unfold type_of, h in T1. rewrite P1 in T1. simpl in T1. inversion T1 as [T3].
          destruct (wo_doc _ _ WO _ _ P1 T3) as (_ & PN & _).
          assert (c = p). { inversion A; subst; auto. unfold h in *. congruence. } subst c.
          unfold type_of, h in T2. rewrite P1 in T2. simpl in T2. destruct T2; congruence. }
      ffskip FF; [|intros X; apply X; unfold owner_of, h; rewrite P1, C1; auto].
      ffskip FF; [|auto]. ffskip FF; [|auto].
      rewrite (ff_here_inv _ _ _ _ FF A) in Q. exact Q.
  Qed.
End Cycles.

(** ** At most one root *)

Lemma children_det : forall h p l l', children h p l -> children h p l' -> l = l'.
Proof. intros h p l l' (n & A & B) (m & C & D). assert (m = n) by congruence; subst. eapply fwd_det; eauto. Qed.

Lemma without_sub : forall c l x, In x (without c l) -> In x l.
Proof. intros c l x I. apply filter_In in I. tauto. Qed.
Lemma before_sub : forall r xs l x, In x (before r xs l) -> In x xs \/ In x l.
Proof.
  induction l as [|y l]; simpl; intros x I; auto. destruct (Nat.eqb y r).
  - apply in_app_or in I. destruct I; auto.
  - destruct I as [->|I]; auto. destruct (IHl _ I); auto.
Qed.
Lemma insert_at_sub : forall r xs l x, In x (insert_at r xs l) -> In x xs \/ In x l.
Proof. intros [r|] xs l x I; simpl in I; [eapply before_sub; eauto|]. apply in_app_or in I. tauto. Qed.
Lemma subst_at_sub : forall o xs l x, In x (subst_at o xs l) -> In x xs \/ In x l.
Proof.
  induction l as [|y l]; simpl; intros x I; auto. destruct (Nat.eqb y o).
  - apply in_app_or in I. destruct I; auto.
  - destruct I as [->|I]; auto. destruct (IHl _ I); auto.
Qed.

Lemma reach_doc_reach : forall k s g, reach_doc k s g -> reach k s g.
Proof. induction 1; econstructor; eauto. Qed.

Definition roots_ok (h : heap) : Prop := forall d, type_of h d = Some DOCUMENT -> at_most_one h d ELEMENT /\ at_most_one h d DOCTYPE.

(** Child lists of documents that only shrink. *)
Lemma roots_shrink : forall h h', roots_ok h ->
  (forall d l', type_of h' d = Some DOCUMENT -> children h' d l' ->
     (forall x t, In x l' -> type_of h' x = Some t -> False) \/
     (type_of h d = Some DOCUMENT /\ exists l, children h d l /\ (forall x, In x l' -> In x l) /\
        (forall x, In x l' -> type_of h' x = type_of h x))) -> roots_ok h'.
Proof.
  intros h h' RO H d T.
  split; intros l x y C I J X Y; (destruct (H _ _ T C) as [Z|(TD & l0 & C0 & S & TY)]; [exfalso; eauto|]);
    rewrite TY in X, Y by auto; destruct (RO _ TD) as [R1 R2]; [eapply R1|eapply R2]; eauto.
Qed.

Section OneRoot.
  Variables (k : nat) (s : st) (g : client).
  Hypothesis R : reach k s g.
  Hypothesis SH : short (S k).
  Let h := s_heap s.
  Hypothesis RO : roots_ok h.

  Lemma content_type : forall h' x, same_content h h' x -> forall j, type_of h' j = type_of h j.
  Proof.
    intros h' x [L C] j. unfold type_of. destruct (h j) as [n|] eqn:E.
    - destruct (proj1 (L j)) as [n' E']. { exists n; auto. } rewrite E'. simpl. destruct (C _ _ _ E E') as (T & _). congruence.
    - destruct (h' j) as [n'|] eqn:E'; auto. destruct (proj2 (L j)) as [n Z]. { exists n'; auto. } congruence.
  Qed.

  Lemma type_live : forall j t, type_of h j = Some t -> live h j.
  Proof. intros j t T. unfold type_of in T. destruct (h j) as [n|] eqn:E; [exists n; auto|discriminate]. Qed.

  Lemma kids_ex : forall j, live h j -> exists l, children h j l.
  Proof.
    intros j L. destruct (lists_consistent k s g R (short_pred _ SH) j L) as (l & n & A & B & _). exists l, n. auto.
  Qed.

  Lemma insert_roots : forall p c r s', legal s g (OInsert p c r) -> (type_of h p = Some DOCUMENT -> type_of h c <> Some FRAGMENT) ->
    insert_before p c r s = Ok c s' -> roots_ok (s_heap s').
  Proof.
    intros p c r s' L NF E. destruct (insert_full k s g R SH p c r L) as (o & FF & Q). fold h in FF, Q.
    destruct o as [e|]; [congruence|]. destruct Q as (s2 & E2 & R2 & CH & SC & _). assert (s2 = s') by congruence; subst s2.
    pose proof (content_type _ _ SC) as TY.
    destruct L as ([Hp _] & [Hc _] & _ & _).
    destruct (held_alive k s g R (short_pred _ SH) p Hp) as (np & P1 & _). destruct (held_alive k s g R (short_pred _ SH) c Hc) as (nc & C1 & _).
    destruct (kids_ex p) as [lp Lp]. { exists np; auto. } destruct (kids_ex c) as [lc Lc]. { exists nc; auto. }
    assert (NM : type_of h c <> Some FRAGMENT -> ~ may_nest h p c -> False).
    { intros X Y. apply (ff_none_all _ FF (type_of h c <> Some FRAGMENT /\ ~ may_nest h p c) HIERARCHY_REQUEST_ERR); [|split; auto]. simpl. tauto. }
    assert (KEY : forall d t, type_of h d = Some DOCUMENT -> (t = ELEMENT \/ t = DOCTYPE) -> at_most_one h d t -> at_most_one (s_heap s') d t).
    { intros d t TD TT AM l' x y C I J X Y. rewrite TY in X, Y. destruct (kids_ex d (type_live _ _ TD)) as [l Ld].
      rewrite (children_det _ _ _ _ C (CH lp lc d l Lp Lc Ld)) in I, J. unfold after_insert in I, J.
      destruct (oid_eqb r (Some c)). { eapply AM; eauto. }
      destruct (fragmentb h c) eqn:FB.
      - apply fragmentb_eq in FB. destruct (Nat.eqb_spec d p). { subst. exfalso. apply NF; auto. }
        destruct (Nat.eqb d c); [contradiction|]. eapply AM; eauto.
      - assert (TF : type_of h c <> Some FRAGMENT). { intros Z. apply fragmentb_eq in Z. congruence. }
        destruct (Nat.eqb_spec d p).
        + subst d. assert (l = lp) by (eapply children_det; eauto). subst l.
          assert (HALF : forall a b, In b lp -> a = c -> type_of h a = Some t -> type_of h b = Some t -> False).
          { intros a b B -> A1 B1. apply NM; auto. intros (np' & nc' & M1 & M2 & M3 & M4).
            destruct (type_live _ _ B1) as [nb Hb].
            assert (T1 : n_type np' = DOCUMENT). { unfold type_of in TD. rewrite M1 in TD. simpl in TD. congruence. }
            assert (T2 : n_type nc' = t). { unfold type_of in A1. rewrite M2 in A1. simpl in A1. congruence. }
            assert (T3 : n_type nb = t). { unfold type_of in B1. rewrite Hb in B1. simpl in B1. congruence. }
            apply (M4 T1) with (l := lp) (x := b) (nx := nb); auto. { rewrite T2. auto. } congruence. }
          apply insert_at_sub in I. apply insert_at_sub in J.
          destruct I as [[<-|[]]|I]; destruct J as [[<-|[]]|J]; auto.
          * exfalso. eapply (HALF c y); eauto using without_sub.
          * exfalso. eapply (HALF c x); eauto using without_sub.
          * eapply AM; eauto using without_sub.
        + eapply AM; eauto using without_sub. }
    intros d T. rewrite TY in T. destruct (RO _ T) as [A B]. split; apply KEY; auto.
  Qed.

  Lemma replace_roots : forall p c old s', legal s g (OReplace p c old) -> (type_of h p = Some DOCUMENT -> type_of h c <> Some FRAGMENT) ->
    replace_child p c old s = Ok old s' -> roots_ok (s_heap s').
  Proof.
    intros p c old s' L NF E. destruct (replace_full k s g R SH p c old L) as (o & FF & Q). fold h in FF, Q.
    destruct o as [e|]; [congruence|]. destruct Q as (s2 & E2 & R2 & CH & SC & _). assert (s2 = s') by congruence; subst s2.
    pose proof (content_type _ _ SC) as TY.
    destruct L as ([Hp _] & [Hc _] & _ & _).
    destruct (held_alive k s g R (short_pred _ SH) p Hp) as (np & P1 & _). destruct (held_alive k s g R (short_pred _ SH) c Hc) as (nc & C1 & _).
    destruct (kids_ex p) as [lp Lp]. { exists np; auto. } destruct (kids_ex c) as [lc Lc]. { exists nc; auto. }
    assert (NS : type_of h p = Some DOCUMENT -> type_of h c = Some DOCTYPE \/ type_of h c = Some ELEMENT -> False).
    { intros X Y. apply (ff_none_all _ FF (type_of h p = Some DOCUMENT /\ (type_of h c = Some DOCTYPE \/ type_of h c = Some ELEMENT)) NOT_SUPPORTED_ERR); [|split; auto]. simpl. tauto. }
    assert (KEY : forall d t, type_of h d = Some DOCUMENT -> (t = ELEMENT \/ t = DOCTYPE) -> at_most_one h d t -> at_most_one (s_heap s') d t).
    { intros d t TD TT AM l' x y C I J X Y. rewrite TY in X, Y. destruct (kids_ex d (type_live _ _ TD)) as [l Ld].
      rewrite (children_det _ _ _ _ C (CH lp lc d l Lp Lc Ld)) in I, J. unfold after_replace in I, J.
      destruct (Nat.eqb c old). { eapply AM; eauto. }
      destruct (fragmentb h c) eqn:FB.
      - apply fragmentb_eq in FB. destruct (Nat.eqb_spec d p). { subst. exfalso. apply NF; auto. }
        destruct (Nat.eqb d c); [contradiction|]. eapply AM; eauto.
      - destruct (Nat.eqb_spec d p); [|eapply AM; eauto using without_sub].
        subst d. assert (l = lp) by (eapply children_det; eauto). subst l.
        assert (NC : type_of h c = Some t -> False). { intros Z. apply NS; auto. destruct TT; subst; auto. }
        apply subst_at_sub in I. apply subst_at_sub in J.
        destruct I as [[<-|[]]|I]; destruct J as [[<-|[]]|J]; try contradiction. eapply AM; eauto using without_sub. }
    intros d T. rewrite TY in T. destruct (RO _ T) as [A B]. split; apply KEY; auto.
  Qed.

  Lemma remove_roots : forall p c s', legal s g (ORemove p c) -> remove_child p c s = Ok c s' -> roots_ok (s_heap s').
  Proof.
    intros p c s' L E. destruct (remove_full k s g R SH p c L) as (o & FF & Q). fold h in FF, Q.
    destruct o as [e|]; [congruence|]. destruct Q as (s2 & E2 & R2 & CH & PN & SC & _). assert (s2 = s') by congruence; subst s2.
    pose proof (content_type _ _ SC) as TY. apply roots_shrink with (h := h); auto.
    intros d l' T C. rewrite TY in T. right. split; auto. destruct (kids_ex d (type_live _ _ T)) as [l Ld]. exists l. split; auto.
    rewrite (children_det _ _ _ _ C (CH d l Ld)). split; [|auto]. intros x I. eapply without_sub; eauto.
  Qed.

  Lemma fwd_ext : forall h' l o, fwd h' o l -> (forall i n', In i l -> h' i = Some n' -> exists n, h i = Some n /\ n_next n = n_next n') -> fwd h o l.
  Proof.
    intros h' l o F. induction F; intros X. { constructor. }
    destruct (X i n) as (m & A & B). { left; auto. } { auto. }
    econstructor; eauto. rewrite B. apply IHF. intros j n' J. apply X. right; auto.
  Qed.

  (** Heaps that agree on types and links, but for reference counts and pending lists. *)
  Lemma links_roots : forall h', (forall j n', h' j = Some n' -> n_type n' <> DOCUMENT \/ exists n, h j = Some n /\ n_type n = DOCUMENT /\ n_first n' = n_first n) ->
    (forall j n n', h j = Some n -> h' j = Some n' -> n_type n' = n_type n /\ n_next n' = n_next n) ->
    (forall j, live h j -> live h' j) -> roots_ok h'.
  Proof.
    intros h' DO EQ LV. apply roots_shrink with (h := h); auto. intros d l' T C.
    destruct C as (nd' & A & B). assert (TD' : n_type nd' = DOCUMENT). { unfold type_of in T. rewrite A in T. simpl in T. congruence. }
    destruct (DO _ _ A) as [X|(nd & C1 & C2 & C3)]; [congruence|]. right. split. { unfold type_of. rewrite C1. simpl. congruence. }
    destruct (kids_ex d) as [l (m & M1 & M2)]. { exists nd; auto. } assert (m = nd) by congruence; subst m. rewrite <- C3 in M2.
    assert (F' : fwd h' (n_first nd') l).
    { clear - M2 EQ LV. induction M2; [constructor|]. destruct (LV i) as [n' N']. { exists n; auto. }
      econstructor; eauto. destruct (EQ _ _ _ H N') as [_ X]. rewrite X. auto. }
    assert (l' = l) by (eapply fwd_det; eauto). subst l'. exists l. split. { exists nd. split; auto. congruence. }
    split; auto. intros x I.
    assert (LX : live h x). { clear - M2 I. induction M2; [destruct I|]. destruct I as [<-|I]; [exists n; auto|auto]. }
    destruct LX as [n N]. destruct (LV x) as [n' N']. { exists n; auto. } destruct (EQ _ _ _ N N') as [TT _].
    unfold type_of. rewrite N, N'. simpl. congruence.
  Qed.

  Lemma grown_roots : forall h' i n0 d, grown h h' i n0 d -> bare n0 -> roots_ok h'.
  Proof.
    intros h' i n0 d G B. intros e T.
    destruct (Nat.eq_dec e i) as [->|NE].
    - assert (C0 : forall l, children h' i l -> l = []).
      { intros l (n & A & F). rewrite (gr_new _ _ _ _ _ G) in A. inversion A; subst n. destruct B as (_ & BF & _). rewrite BF in F. inversion F; auto. }
      split; intros l x y C I; rewrite (C0 _ C) in I; destruct I.
    - destruct (kids_ex e) as [l L].
      { unfold type_of in T. destruct (h' e) as [n'|] eqn:E; [|discriminate]. destruct (gr_bwd _ _ _ _ _ G _ _ E) as [[X _]|(_ & n & A & _)]; [contradiction|exists n; auto]. }
      assert (TE : forall x, live h x -> type_of h' x = type_of h x).
      { intros x [n N]. destruct (gr_fwd _ _ _ _ _ G _ _ N) as (_ & n' & A & E & _). unfold type_of. rewrite N, A. simpl. f_equal. apply (pe _ _ E). }
      assert (C' : children h' e l).
      { destruct L as (n & A & F). destruct (gr_fwd _ _ _ _ _ G _ _ A) as (_ & n' & A' & E & _). exists n'. split; auto.
        destruct (pe _ _ E) as (_ & _ & E3 & _). rewrite E3. clear - F G. induction F; [constructor|].
        destruct (gr_fwd _ _ _ _ _ G _ _ H) as (_ & m' & B' & E' & _). econstructor; eauto. destruct (pe _ _ E') as (_ & _ & _ & _ & _ & E6 & _). rewrite E6. auto. }
      assert (LE : live h e) by (eapply children_live; eauto).
      assert (LX : forall x, In x l -> live h x). { intros x I. destruct L as (n & _ & F). clear - F I. induction F; [destruct I|]. destruct I as [<-|I]; [exists n0; auto|auto]. }
      rewrite TE in T by auto. destruct (RO _ T) as [R1 R2].
      split; intros l' x y C I J X Y; rewrite (children_det _ _ _ _ C C') in I, J; rewrite TE in X, Y by auto; [eapply R1|eapply R2]; eauto.
  Qed.

  Lemma ref_roots : forall i, roots_ok (hmod h i ref_up).
  Proof.
    intros i. apply links_roots.
    - intros j n' H. destruct (hmod_inv _ _ _ _ _ H) as (n & A & E). destruct (ntype_eqb (n_type n) DOCUMENT) eqn:TD.
      + right. apply ntype_eqb_eq in TD. exists n. split; auto. split; auto. destruct (Nat.eqb j i); subst n'; auto.
      + left. apply ntype_eqb_neq in TD. destruct (Nat.eqb j i); subst n'; auto.
    - intros j n n' A B. erewrite hmod_get in B by exact A. inversion B. destruct (Nat.eqb j i); auto.
    - intros j L. apply hmod_live. auto.
  Qed.

  Lemma unref_roots : forall i s', holds g i -> node_unref i s = Ok tt s' -> roots_ok (s_heap s').
  Proof.
    intros i s' H E. destruct (unref_full k s g R SH i H) as (s2 & E2 & R2 & _ & Q1 & Q2 & Q3). fold h in Q1, Q2, Q3.
    assert (s2 = s') by congruence; subst s2.
    assert (CASE : (owns g i > 1)%N \/ parent_of h i <> None \/ (owns g i = 1%N /\ parent_of h i = None)).
    { unfold holds in H. destruct (parent_of h i); [right; left; discriminate|]. assert ((owns g i > 1)%N \/ owns g i = 1%N) by lia. tauto. }
    assert (SAME : ((owns g i > 1)%N \/ parent_of h i <> None) -> roots_ok (s_heap s')).
    { intros CA. specialize (Q1 CA). apply links_roots.
      - intros j n' J. destruct (h j) as [n|] eqn:N; [|rewrite (Q3 _ N) in J; discriminate]. rewrite (Q1 _ _ N) in J. inversion J.
        destruct (ntype_eqb (n_type n) DOCUMENT) eqn:TD.
        + right. apply ntype_eqb_eq in TD. exists n. split; auto. split; auto. destruct (Nat.eqb j i); auto.
        + left. apply ntype_eqb_neq in TD. destruct (Nat.eqb j i); auto.
      - intros j n n' A B. rewrite (Q1 _ _ A) in B. inversion B. destruct (Nat.eqb j i); auto.
      - intros j [n N]. unfold live. rewrite (Q1 _ _ N). eexists; reflexivity. }
    destruct CASE as [CA|[CA|[CA CB]]]; auto. destruct (Q2 CA CB) as (U1 & U2 & U3 & U4 & U5 & U6).
    apply roots_shrink with (h := h); auto. intros d l' T C.
    destruct (Nat.eq_dec d i) as [->|NE].
    { left. intros x t I _. rewrite (children_det _ _ _ _ C (U6 (children_live _ _ _ C))) in I. destruct I. }
    right. destruct (h d) as [nd|] eqn:D.
    2:{ exfalso. destruct C as (n & A & _). rewrite (Q3 _ D) in A. discriminate. }
    destruct (reach_good _ _ _ R (short_pred _ SH)) as [[ch W] AG]. pose proof W as (WL & WT & WO & WR). fold h in WT, WO.
    assert (TS : forall j n n', h j = Some n -> s_heap s' j = Some n' -> n_type n' = n_type n).
    { intros j n n' A B. destruct (unref_spec s ch i (match h i with Some n => n | None => n end) W) as (h2 & ch2 & Z & _ & ZZ).
      - destruct (held_alive k s g R (short_pred _ SH) i H) as (m & M & _). unfold h. rewrite M. auto.
      - destruct (held_alive k s g R (short_pred _ SH) i H) as (m & M & O). unfold h. rewrite M, O. lia.
      - destruct (held_alive k s g R (short_pred _ SH) i H) as (m & M & O). unfold h. rewrite M, O. unfold two32. lia.
      - assert (h2 = s_heap s'). { rewrite E in Z. inversion Z. reflexivity. } subst h2.
        destruct (held_alive k s g R (short_pred _ SH) i H) as (m & M & O). unfold h in ZZ. rewrite M in ZZ.
        assert (PM : n_parent m = None). { unfold parent_of, h in CB. rewrite M in CB. auto. }
        rewrite O, CA, PM in ZZ. cbn [is_none negb orb] in ZZ. change (1 <? 1)%N with false in ZZ. cbn [orb] in ZZ. fold h in ZZ.
        destruct (hmod_get h i ref_down j n A) as []. 
        assert (J1 : exists n1, hmod h i ref_down j = Some n1 /\ n_type n1 = n_type n).
        { eexists. split; [eapply hmod_get; exact A|]. destruct (Nat.eqb j i); auto. }
        destruct J1 as (n1 & J1 & J2). rewrite <- J2.
        destruct (ntype_eqb (n_type n1) DOCUMENT) eqn:TD.
        + apply ntype_eqb_eq in TD. destruct (re_doc _ _ _ _ _ ZZ _ _ J1 TD) as [[X _]|(nd' & X1 & X2 & _)]; congruence.
        + apply ntype_eqb_neq in TD. 
          destruct (dies_dec h ch i j WT) as [DD|DD]. { exists n; auto. }
          { rewrite (U1 _ _ A) in B; auto; congruence. }
          destruct (orph_dec h ch i j n WT A) as [OO|OO].
          * rewrite (U2 _ _ A OO) in B. inversion B. rewrite J2. auto.
          * rewrite (U3 _ _ A) in B; auto; congruence. }
    assert (TD : n_type nd = DOCUMENT).
    { destruct C as (n & A & _). rewrite <- (TS _ _ _ D A). unfold type_of in T. rewrite A in T. simpl in T. congruence. }
    split. { unfold type_of. rewrite D. simpl. congruence. }
    destruct (kids_ex d) as [l L]. { exists nd; auto. } exists l. split; auto.
    assert (C' := U5 d l L (children_live _ _ _ C) NE). rewrite (children_det _ _ _ _ C C').
    split; auto. intros x I.
    assert (LX : forall hh, children hh d l -> live hh x). { intros hh (n & _ & F). clear - F I. induction F; [destruct I|]. destruct I as [<-|I]; [exists n0; auto|auto]. }
    destruct (LX _ L) as [n N]. destruct (LX _ C') as [n' N']. unfold type_of. rewrite N, N'. simpl. f_equal. eapply TS; eauto.
  Qed.
End OneRoot.
