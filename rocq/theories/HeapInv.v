(** The heap invariant and its basic consequences. *)
From Coq Require Import List Arith NArith Bool Lia ZifyBool ZifyNat ZifyN.
From Verif Require Import Base HeapModel HeapSpec.
Import ListNotations.

(** The nodes of [l] are siblings under [p], linked in this order, between the
    pointers [pv] and [nx]. *)
Fixpoint seg (h : heap) (p : id) (pv : option id) (l : list id) (nx : option id) : Prop :=
  match l with
  | [] => True
  | c :: r =>
      (exists n, h c = Some n /\ n_type n <> ATTRIBUTE /\ n_parent n = Some p /\ n_prev n = pv /\
                 n_next n = match r with [] => nx | d :: _ => Some d end) /\
      seg h p (Some c) r nx
  end.

Inductive rooted (h : heap) : id -> Prop :=
| rooted_top i n : h i = Some n -> n_parent n = None -> rooted h i
| rooted_step i n p : h i = Some n -> n_parent n = Some p -> rooted h p -> rooted h i.

(** Tree structure. *)
Record wfT (h : heap) (ch : id -> list id) : Prop := mkWfT {
  wt_dead : forall i, h i = None -> ch i = [];
  wt_ends : forall p n, h p = Some n -> n_first n = hd_error (ch p) /\ n_last n = last_error (ch p);
  wt_seg : forall p, seg h p None (ch p) None;
  wt_nodup : forall p, NoDup (ch p);
  wt_parent : forall i n p, h i = Some n -> n_parent n = Some p ->
     exists np, h p = Some np /\
       (n_type n <> ATTRIBUTE -> In i (ch p) /\ type_permitted (n_type np) (n_type n) = true) /\
       (n_type n = ATTRIBUTE -> In i (n_attrs np));
  wt_attrs : forall e ne, h e = Some ne -> NoDup (n_attrs ne) /\
     (n_attrs ne <> [] -> n_type ne = ELEMENT) /\
     (forall a, In a (n_attrs ne) -> exists na, h a = Some na /\ n_type na = ATTRIBUTE /\ n_parent na = Some e);
  wt_rooted : forall i, live h i -> rooted h i
}.

(** A fragment whose children have been inserted elsewhere: libdom takes it off
    the pending list and never puts it back. *)
Definition spent (n : node) : Prop :=
  n_type n = FRAGMENT /\ n_pending n = false /\ n_parent n = None.

(** Owners and pending lists. *)
Record wfO (h : heap) (ch : id -> list id) : Prop := mkWfO {
  wo_doc : forall i n, h i = Some n -> n_type n = DOCUMENT ->
     n_owner n = Some i /\ n_parent n = None /\ n_pending n = false /\ NoDup (n_pend n);
  wo_nondoc : forall i n, h i = Some n -> n_type n <> DOCUMENT -> n_pend n = [];
  wo_pend : forall d nd i, h d = Some nd -> In i (n_pend nd) ->
     exists n, h i = Some n /\ n_owner n = Some d /\ n_pending n = true;
  wo_pending : forall i n, h i = Some n -> n_pending n = true ->
     n_parent n = None /\ exists d nd, n_owner n = Some d /\ h d = Some nd /\ In i (n_pend nd);
  wo_owner : forall i n d, h i = Some n -> n_owner n = Some d ->
     (exists nd, h d = Some nd /\ n_type nd = DOCUMENT) \/ (spent n /\ ch i = []);
  wo_noowner : forall i n, h i = Some n -> n_owner n = None -> n_type n = DOCTYPE /\ n_parent n = None;
  wo_child : forall i n p np, h i = Some n -> n_parent n = Some p -> h p = Some np ->
     n_owner n = n_owner np;
  wo_top : forall i n d, h i = Some n -> n_parent n = None -> n_type n <> DOCUMENT ->
     n_owner n = Some d -> n_pending n = true \/ (spent n /\ ch i = [])
}.

(** Reference counts: what is kept alive only by references has some. *)
Record wfR (h : heap) (ch : id -> list id) : Prop := mkWfR {
  wr_top : forall i n, h i = Some n -> n_parent n = None -> n_type n <> DOCUMENT -> (n_ref n > 0)%N;
  wr_doc : forall i n, h i = Some n -> n_type n = DOCUMENT ->
     (n_ref n > 0)%N \/ (n_pend n <> [] /\ ch i = [])
}.

Definition wfL (h : heap) (nx : nat) : Prop := forall i n, h i = Some n -> i < nx.

Definition wf (s : st) (ch : id -> list id) : Prop :=
  wfL (s_heap s) (s_nxt s) /\ wfT (s_heap s) ch /\ wfO (s_heap s) ch /\ wfR (s_heap s) ch.

Lemma rooted_live : forall h i, rooted h i -> live h i.
Proof. intros h i R. inversion R; eexists; eauto. Qed.

Lemma seg_in : forall h p l pv nx c, seg h p pv l nx -> In c l ->
  exists n, h c = Some n /\ n_type n <> ATTRIBUTE /\ n_parent n = Some p.
Proof.
  induction l; simpl; intros. { tauto. }
  destruct H as [(n & A & B & C & _) S]. destruct H0 as [->|I]; eauto.
Qed.

Lemma last_error_app : forall A (l : list A) x, last_error (l ++ [x]) = Some x.
Proof. intros. unfold last_error. rewrite rev_app_distr. reflexivity. Qed.

Lemma last_error_cons : forall A (x : A) l,
  last_error (x :: l) = match last_error l with Some y => Some y | None => Some x end.
Proof.
  intros. unfold last_error. simpl. destruct (rev l); reflexivity.
Qed.

Lemma last_error_app2 : forall A (a b : list A),
  last_error (a ++ b) = match last_error b with Some y => Some y | None => last_error a end.
Proof.
  intros. unfold last_error. rewrite rev_app_distr. destruct (rev b); reflexivity.
Qed.

Lemma hd_error_app2 : forall A (a b : list A),
  hd_error (a ++ b) = match hd_error a with Some y => Some y | None => hd_error b end.
Proof. intros. destruct a; reflexivity. Qed.

Lemma last_error_in : forall A (l : list A) x, last_error l = Some x -> In x l.
Proof.
  intros A l x H. unfold last_error in H. apply in_rev. destruct (rev l); inversion H. left; auto.
Qed.

Lemma last_error_split : forall A (l : list A) x, last_error l = Some x -> exists l', l = l' ++ [x].
Proof.
  intros A l x H. unfold last_error in H. destruct (rev l) eqn:E; inversion H; subst.
  exists (rev l0). rewrite <- (rev_involutive l), E. reflexivity.
Qed.

Lemma last_error_none : forall A (l : list A), last_error l = None -> l = [].
Proof.
  intros A l H. unfold last_error in H. destruct (rev l) eqn:E; inversion H.
  rewrite <- (rev_involutive l), E. reflexivity.
Qed.

Lemma hd_error_in : forall A (l : list A) x, hd_error l = Some x -> In x l.
Proof. intros A [|a l] x H; inversion H. left; auto. Qed.

Definition or_else {A} (a b : option A) : option A := match a with Some x => Some x | None => b end.

Lemma seg_app : forall h p a b pv nx,
  seg h p pv (a ++ b) nx <->
  seg h p pv a (or_else (hd_error b) nx) /\ seg h p (or_else (last_error a) pv) b nx.
Proof.
  induction a as [|x a]; intros b pv nx; simpl. { tauto. }
  rewrite IHa. rewrite last_error_cons.
  replace (or_else (last_error a) (Some x)) with
    (or_else (match last_error a with Some y => Some y | None => Some x end) pv)
    by (destruct (last_error a); reflexivity).
  assert (E : (match a ++ b with [] => nx | d :: _ => Some d end) =
              (match a with [] => or_else (hd_error b) nx | d :: _ => Some d end)).
  { destruct a; auto. destruct b; reflexivity. }
  rewrite E. tauto.
Qed.

(** seg depends only on four fields of its members. *)
Definition sib_eq (n n' : node) : Prop :=
  n_type n' = n_type n /\ n_parent n' = n_parent n /\ n_prev n' = n_prev n /\ n_next n' = n_next n.

Lemma seg_ext : forall h h' p l pv nx,
  (forall c n, In c l -> h c = Some n -> exists n', h' c = Some n' /\ sib_eq n n') ->
  seg h p pv l nx -> seg h' p pv l nx.
Proof.
  induction l as [|x l]; simpl; intros; auto.
  destruct H0 as [(n & A & B & C & D & E) S]. split.
  - destruct (H x n) as (n' & A' & (F1 & F2 & F3 & F4)); auto. exists n'. rewrite F1, F2, F3, F4. auto.
  - eapply IHl; eauto.
Qed.

(** Change of the two ends (and possibly of the parent) of a segment. *)
Lemma seg_move : forall h h' p q l pv nx pv' nx',
  NoDup l ->
  (forall c n, In c l -> h c = Some n ->
     exists n', h' c = Some n' /\ n_type n' = n_type n /\ n_parent n' = Some q /\
       n_prev n' = (if oid_eqb (hd_error l) (Some c) then pv' else n_prev n) /\
       n_next n' = (if oid_eqb (last_error l) (Some c) then nx' else n_next n)) ->
  seg h p pv l nx -> seg h' q pv' l nx'.
Proof.
  intros h h' p q l. 
  assert (G : forall l pv nx pv' nx', NoDup l ->
    (forall c n, In c l -> h c = Some n ->
      exists n', h' c = Some n' /\ n_type n' = n_type n /\ n_parent n' = Some q /\
       (hd_error l = Some c -> n_prev n' = pv') /\ (hd_error l <> Some c -> n_prev n' = n_prev n) /\
       (last_error l = Some c -> n_next n' = nx') /\ (last_error l <> Some c -> n_next n' = n_next n)) ->
    seg h p pv l nx -> seg h' q pv' l nx').
  { clear l. induction l as [|x l]; simpl; intros pv nx pv' nx' ND H S; auto.
    destruct S as [(n & A & B & C & D & E) S]. inversion ND; subst. split.
    - destruct (H x n) as (n' & F1 & F2 & F3 & F4 & F5 & F6 & F7); auto.
      exists n'. rewrite F2, F4 by auto. split; auto. split; auto. split; auto. split; auto.
      destruct l as [|y l].
      + apply F6. reflexivity.
      + rewrite <- E. apply F7. rewrite last_error_cons.
        intros Q. destruct (last_error (y :: l)) eqn:L.
        * inversion Q; subst. apply H2. apply last_error_in; auto.
        * apply last_error_none in L. discriminate.
    - apply (IHl (Some x) nx (Some x) nx'); auto.
      intros c n0 I Hc. destruct (H c n0) as (n' & F1 & F2 & F3 & F4 & F5 & F6 & F7); auto.
      assert (x <> c) by (intros ->; auto).
      exists n'. split; auto. split; auto. split; auto.
      assert (Pv : n_prev n' = n_prev n0) by (apply F5; congruence).
      split.
      + intros Q. rewrite Pv. destruct l as [|y l]; inversion Q; subst.
        destruct S as [(n1 & A1 & _ & _ & D1 & _) _]. rewrite Hc in A1. inversion A1; subst. auto.
      + split; [auto|]. rewrite last_error_cons in F6, F7.
        destruct (last_error l) eqn:L.
        * split; auto.
        * apply last_error_none in L. subst. destruct I. }
  intros pv nx pv' nx' ND H S. eapply G; eauto.
  intros c n I Hc. destruct (H c n I Hc) as (n' & F1 & F2 & F3 & F4 & F5).
  exists n'. split; auto. split; auto. split; auto.
  assert (EQ : forall a, oid_eqb a (Some c) = true <-> a = Some c).
  { intros [a|]; simpl; [rewrite Nat.eqb_eq|]; split; congruence. }
  split; [|split; [|split]]; intros Q.
  - apply EQ in Q. rewrite Q in F4. auto.
  - destruct (oid_eqb (hd_error l) (Some c)) eqn:Z; auto. apply EQ in Z. congruence.
  - apply EQ in Q. rewrite Q in F5. auto.
  - destruct (oid_eqb (last_error l) (Some c)) eqn:Z; auto. apply EQ in Z. congruence.
Qed.

Lemma seg_fwd : forall h p l pv, seg h p pv l None -> fwd h (hd_error l) l.
Proof.
  induction l; simpl; intros. { constructor. }
  destruct H as [(n & A & B & C & D & E) S]. econstructor; eauto.
  rewrite E. destruct l; [constructor|]. apply (IHl _ S).
Qed.

Lemma seg_bwd_gen : forall h p l pv nx, seg h p pv l nx -> forall acc, bwd h pv acc ->
  bwd h (or_else (last_error l) pv) (rev l ++ acc).
Proof.
  induction l; simpl; intros; auto.
  destruct H as [(n & A & B & C & D & E) S].
  rewrite last_error_cons. rewrite <- app_assoc. simpl.
  specialize (IHl _ _ S (a :: acc)).
  replace (or_else (match last_error l with Some y => Some y | None => Some a end) pv)
    with (or_else (last_error l) (Some a)) by (destruct (last_error l); auto).
  apply IHl. econstructor; eauto. rewrite D. auto.
Qed.

Lemma seg_bwd : forall h p l nx, seg h p None l nx -> bwd h (last_error l) (rev l).
Proof.
  intros. pose proof (seg_bwd_gen _ _ _ _ _ H [] (bwd_nil h)) as B.
  rewrite app_nil_r in B. destruct (last_error l); auto.
Qed.

Lemma fwd_det : forall h p l, fwd h p l -> forall l', fwd h p l' -> l = l'.
Proof.
  induction 1; intros l' H'; inversion H'; subst; auto.
  f_equal. apply IHfwd. congruence.
Qed.

Lemma wfT_consistent : forall h ch, wfT h ch -> forall p, live h p -> consistent_children h p (ch p).
Proof.
  intros h ch W p [n Hn]. exists n. destruct (wt_ends _ _ W _ _ Hn) as [F L].
  split; auto. split; [|split; [|split]].
  - rewrite F. eapply seg_fwd. apply (wt_seg _ _ W).
  - rewrite L. eapply seg_bwd. apply (wt_seg _ _ W).
  - apply (wt_nodup _ _ W).
  - intros c. split.
    + intros I. destruct (seg_in _ _ _ _ _ _ (wt_seg _ _ W p) I) as (m & A & B & C). eauto.
    + intros (nc & A & B & C). destruct (wt_parent _ _ W _ _ _ A B) as (np & D & E & _).
      apply E; auto.
Qed.

(** The ghost child lists are determined by the heap. *)
Lemma wfT_children : forall h ch, wfT h ch -> forall p l, live h p -> (children h p l <-> l = ch p).
Proof.
  intros h ch W p l L. destruct (wfT_consistent _ _ W _ L) as (n & A & B & _). split.
  - intros (n' & A' & B'). rewrite A in A'. inversion A'; subst. eapply fwd_det; eauto.
  - intros ->. exists n; auto.
Qed.

Lemma wt_child : forall h ch, wfT h ch -> forall p c, In c (ch p) ->
  exists n np, h c = Some n /\ h p = Some np /\ n_type n <> ATTRIBUTE /\ n_parent n = Some p /\
    type_permitted (n_type np) (n_type n) = true.
Proof.
  intros h ch W p c I. destruct (seg_in _ _ _ _ _ _ (wt_seg _ _ W p) I) as (n & A & B & C).
  destruct (wt_parent _ _ W _ _ _ A C) as (np & D & E & _). exists n, np. destruct (E B). auto.
Qed.

(** Child lists of different parents are disjoint. *)
Lemma wt_disjoint : forall h ch, wfT h ch -> forall p q c, In c (ch p) -> In c (ch q) -> p = q.
Proof.
  intros h ch W p q c I J.
  destruct (wt_child _ _ W _ _ I) as (n & _ & A & _ & _ & B & _).
  destruct (wt_child _ _ W _ _ J) as (n' & _ & A' & _ & _ & B' & _). congruence.
Qed.

(** Link fields of a child with its neighbours made explicit. *)
Lemma wt_links : forall h ch, wfT h ch -> forall p a c b, ch p = a ++ c :: b ->
  exists n, h c = Some n /\ n_type n <> ATTRIBUTE /\ n_parent n = Some p /\
    n_prev n = last_error a /\ n_next n = hd_error b.
Proof.
  intros h ch W p a c b E. pose proof (wt_seg _ _ W p) as S. rewrite E in S.
  apply seg_app in S. destruct S as [_ [(n & A & B & C & D & F) _]].
  exists n. split; auto. split; auto. split; auto. split.
  - rewrite D. destruct (last_error a); auto.
  - rewrite F. destruct b; auto.
Qed.

(** Ancestor relation. *)
Lemma anc_trans : forall h a b c, anc h a b -> anc h b c -> anc h a c.
Proof. intros h a b c H G. induction G; auto. econstructor; eauto. Qed.

(** Length of the parent chain. *)
Inductive depth (h : heap) : id -> nat -> Prop :=
| depth_top i n : h i = Some n -> n_parent n = None -> depth h i 0
| depth_step i n p d : h i = Some n -> n_parent n = Some p -> depth h p d -> depth h i (S d).

Lemma rooted_depth : forall h i, rooted h i -> exists d, depth h i d.
Proof.
  induction 1. { exists 0; econstructor; eauto. }
  destruct IHrooted as [d D]. exists (S d). econstructor; eauto.
Qed.

Lemma depth_det : forall h i d, depth h i d -> forall d', depth h i d' -> d = d'.
Proof.
  induction 1; intros d' H'; inversion H'; subst; try congruence.
  f_equal. apply IHdepth. congruence.
Qed.

Lemma anc_depth : forall h a i, anc h a i -> forall d, depth h i d -> exists d', depth h a d' /\ d' <= d.
Proof.
  induction 1; intros d D. { exists d; split; auto. }
  inversion D; subst; [congruence|]. 
  assert (p0 = p) by congruence. subst.
  destruct (IHanc _ H4) as (d' & A & B). exists d'; split; auto.
Qed.

Lemma anc_proper_neq : forall h i n p a, rooted h i -> h i = Some n -> n_parent n = Some p -> anc h a p -> a <> i.
Proof.
  intros h i n p a R A B C ->. destruct (rooted_depth _ _ R) as [d D].
  inversion D; subst; [congruence|]. assert (p0 = p) by congruence; subst.
  destruct (anc_depth _ _ _ C _ H1) as (d' & E & F).
  pose proof (depth_det _ _ _ D _ E). lia.
Qed.

Lemma anc_antisym : forall h a b, rooted h a -> rooted h b -> anc h a b -> anc h b a -> a = b.
Proof.
  intros h a b Ra Rb H G. inversion H; subst; auto. exfalso.
  refine (anc_proper_neq h b n p b Rb H0 H1 _ eq_refl).
  eapply anc_trans; [exact G|exact H2].
Qed.

(** The chain of ancestors as a list. *)
Inductive achain (h : heap) : option id -> list id -> Prop :=
| achain_nil : achain h None []
| achain_cons i n l : h i = Some n -> achain h (n_parent n) l -> achain h (Some i) (i :: l).

Lemma rooted_achain : forall h i, rooted h i -> exists l, achain h (Some i) l.
Proof.
  induction 1.
  - exists [i]. econstructor; eauto. rewrite H0. constructor.
  - destruct IHrooted as [l A]. exists (i :: l). econstructor; eauto. rewrite H0. auto.
Qed.

Lemma achain_anc : forall h i l, achain h (Some i) l -> forall a, In a l <-> (anc h a i /\ live h i).
Proof.
  intros h i l H. remember (Some i) as o. revert i Heqo. induction H; intros j E; inversion E; subst.
  intros a. split.
  - intros [->|I]; [split; [constructor|eexists; eauto]|].
    destruct (n_parent n) as [p|] eqn:P.
    + split; [|eexists; eauto]. econstructor; eauto. apply (IHachain p eq_refl). auto.
    + inversion H0; subst. destruct I.
  - intros [A _]. inversion A; subst. { left; auto. }
    right. rewrite H in H1. inversion H1; subst. rewrite H2 in *.
    apply (IHachain p eq_refl). split; auto. inversion H0; subst. eexists; eauto.
Qed.

Lemma achain_some : forall h i l, achain h (Some i) l ->
  exists n l', l = i :: l' /\ h i = Some n /\ achain h (n_parent n) l'.
Proof. intros h i l A. inversion A; subst. eauto. Qed.

Lemma achain_none : forall h l, achain h None l -> l = [].
Proof. intros h l A. inversion A; auto. Qed.

Lemma achain_nodup : forall h i l, rooted h i -> achain h (Some i) l -> NoDup l.
Proof.
  intros h i l R. revert l. induction R; intros l A; destruct (achain_some _ _ _ A) as (m & l' & -> & Hm & A');
    assert (m = n) by congruence; subst; rewrite H0 in A'.
  - apply achain_none in A'. subst. constructor; auto. constructor.
  - constructor.
    + intros I. apply (achain_anc _ _ _ A') in I. destruct I as [I _].
      refine (anc_proper_neq h i n p i _ H H0 I eq_refl). econstructor 2; eauto.
    + apply IHR; auto.
Qed.

Lemma achain_bound : forall h nx i l, wfL h nx -> rooted h i -> achain h (Some i) l -> length l <= nx.
Proof.
  intros h nx i l L R A.
  assert (N : NoDup l) by (eapply achain_nodup; eauto).
  assert (B : forall a, In a l -> a < nx).
  { intros a I. clear N R. revert I. remember (Some i) as o. revert i Heqo.
    induction A; intros j E I; inversion E; subst. destruct I as [->|I]; [eapply L; eauto|].
    destruct (n_parent n); [eapply IHA; eauto|]. inversion A; subst. destruct I. }
  rewrite <- (seq_length nx 0). apply NoDup_incl_length; auto.
  intros a I. apply in_seq. specialize (B _ I). lia.
Qed.

(** Rootedness under a change of parent links. *)
Lemma rooted_ext : forall h h' i,
  (forall j n, anc h j i -> h j = Some n -> exists n', h' j = Some n' /\ n_parent n' = n_parent n) ->
  rooted h i -> rooted h' i.
Proof.
  intros h h' i H R. induction R.
  - destruct (H i n) as (n' & A & B); [constructor|auto|]. apply (rooted_top h' i n'); congruence.
  - destruct (H i n) as (n' & A & B); [constructor|auto|]. apply (rooted_step h' i n' p); [auto|congruence|].
    apply IHR. intros j m J Hj. apply H; auto. econstructor; eauto.
Qed.

Lemma anc_ext : forall h h' a i,
  (forall j n, anc h j i -> h j = Some n -> exists n', h' j = Some n' /\ n_parent n' = n_parent n) ->
  anc h a i -> anc h' a i.
Proof.
  intros h h' a i H A. induction A. { constructor. }
  destruct (H i n) as (n' & B & C); [constructor|auto|].
  apply (anc_step h' a i n' p); [auto|congruence|]. apply IHA. intros j m J Hj. apply H; auto. econstructor; eauto.
Qed.

Lemma NoDup_app_inv : forall A (a b : list A), NoDup (a ++ b) ->
  NoDup a /\ NoDup b /\ (forall x, In x a -> ~ In x b).
Proof.
  induction a; simpl; intros b H. { split; [constructor|split]; auto. }
  inversion H; subst. destruct (IHa _ H3) as (A1 & A2 & A3). split; [|split; auto].
  - constructor; auto. intros I; apply H2; apply in_or_app; auto.
  - intros x [->|I]; auto. intros J. apply H2. apply in_or_app; auto.
Qed.

Lemma NoDup_app : forall A (a b : list A), NoDup a -> NoDup b -> (forall x, In x a -> ~ In x b) -> NoDup (a ++ b).
Proof.
  induction a; simpl; intros b Ha Hb D; auto. inversion Ha; subst. constructor.
  - intros I. apply in_app_or in I. destruct I as [I|I]; [tauto|]. exact (D a (or_introl eq_refl) I).
  - apply IHa; auto.
Qed.
